(** Branch and bound again: refusing a node because its state was seen before (src/dd.hpp:352-372, src/search.cpp:162-178) does no harm when the node seen
    before was at least as good and is not the one being expanded.  For models without dominance. *)
From Coq Require Import Sorted.
From Verif Require Import Base HeapModel HeapProofs DDModel DDSpec DDFrame DDInv DDLayer DDRestricted DDRestricted2 DDRelaxed DDPasses DDRelaxed2 DDRelaxedEnd DDWide SearchModel SearchProofs SearchDyn.

(** every cut set node that can improve is not the root of its diagram, and no node kept for its state is worse *)
Definition seen_ok {St} (P : prob St) (s : @sst St) : Prop :=
  forall d p cs i, In (d, p) (s_hist s) -> computeCutSet d = Ok cs -> In i cs -> bt P (n_bound (d_nd d i) + n_bb (d_nd d i)) p ->
    d_root d <> Some i /\ forall x, In x (s_pool s) -> n_state x = n_state (d_nd d i) -> be P (n_bound x) (n_bound (d_nd d i)).

(** the root of a relaxed diagram is the node of its state *)
Lemma relaxed_root {St} (P : prob St) I rank N (VM : valid_model P I rank N) rs rb rl (Hrs : rs <> p_target P) (HI : I rs) (Hr : in_range P rs rb) srt
  (Hsrt : forall d l, Permutation (srt d l) l) fuel d primal w d' : started d rs rb rl -> N + 1 < fuel + rank rs -> rx_compute P srt fuel d primal w = Ok d' ->
  forall i, In i (d_an d') -> n_state (d_nd d' i) = rs -> d_root d' = Some i.
Proof.
  intros S F E i Hi Es. destruct (run_completed' P I rank N VM rs rb rl Hrs HI Hr srt Hsrt fuel d primal w d' S F E) as (d2 & K & d3 & C).
  rewrite (done_root P I rs rb rl rank primal w d2 K d3 d' C). f_equal. symmetry.
  pose proof (g_base (l_gen (k_inv _ _ _ _ _ _ _ _ _ _ _ _ C))) as B. destruct (b_r B) as [R1 R2].
  apply (done_an P I rs rb rl rank primal w d2 K d3 d' C) in Hi as [Hi _].
  destruct (done_node P I rs rb rl rank primal w d2 K d3 d' C i) as (Q & _). apply (b_uniq B); auto. congruence.
Qed.

Section Seen.
Context {St : Type} (P : prob St) (lab : Z -> St -> list Z) (I : St -> Prop) (rank : St -> nat) (N : nat).
Hypothesis VM : valid_model P I rank N.
Hypothesis HI : I (p_init P).
Hypothesis Hrange : in_range P (p_init P) 0.
Variable srt : dd St -> list nat -> list nat.
Hypothesis Hsrt : forall d l, Permutation (srt d l) l.
Variable dfuel : nat.
Hypothesis Hfuel : N + 1 < dfuel.
Variable mxw : nat.
Hypothesis Hmxw : (N.of_nat mxw < 4294967296)%N.
Variable p0 : Z.
Hypothesis DY : dyn_ok P lab p0 I rank N.
Hypothesis Hp0 : be P p0 (sentinel P).
Hypothesis SD : p_sdom P = None.
Notation sst := (@sst St).
Notation sinv := (sinv P p0).
Notation node_ok := (node_ok P).
Notation covers := (covers P).

(** coverage by the queue, by nodes at depth r or deeper *)
Definition heldr (s : sst) (r : nat) (V : Z) : Prop := be P (b_primal (s_b s)) V \/
  exists q, In q (entries (s_pq s)) /\ r <= rank (n_state (pool_node P (s_pool s) (fst q))) /\ covers (pool_node P (s_pool s) (fst q)) V.
Lemma heldr_le s r r' V : r' <= r -> heldr s r V -> heldr s r' V.
Proof. intros L [H|(q & A & B & C)]; [now left|]. right. exists q. csplit; auto. lia. Qed.
Lemma heldr_held s r V : heldr s r V -> held P s V.
Proof. intros [H|(q & A & B & C)]; [now left|]. right. exists q. auto. Qed.
Definition back_ok (d : dd St) (p : Z) (i : nat) : Prop :=
  forall v, compl P (n_state (d_nd d i)) v -> bt P (n_bound (d_nd d i) + v) p -> be P (n_bb (d_nd d i)) v.

Lemma cut_step_seen d s i s' : sinv s -> node_ok (d_nd d i) -> back_ok d (b_primal (s_b s)) i -> cut_step P d s i = Ok s' ->
  (forall r V, heldr s r V -> heldr s' r V) /\
  (forall x, In x (s_pool s') -> In x (s_pool s) \/ forall V, covers x V -> heldr s' (rank (n_state x)) V) /\
  (forall V, covers (d_nd d i) V -> heldr s' (rank (n_state (d_nd d i))) V \/
     (bt P (n_bound (d_nd d i) + n_bb (d_nd d i)) (b_primal (s_b s)) /\ exists x, In x (s_pool s) /\ n_state x = n_state (d_nd d i))).
Proof.
  intros V Nk HB E. set (n := d_nd d i) in *. unfold cut_step in E. fold n in E. cbn zeta in E.
  destruct (isBetter P (n_bound n + n_bb n) (b_primal (s_b s))) eqn:C; cbn [negb] in E.
  2:{ injection E as <-. apply isBetter_nbt in C. csplit; [intros r V0 H; exact H|auto|].
      intros V0 (v & Cv & Bv). left. left. cbn. destruct (isBetter P (n_bound n + v) (b_primal (s_b s))) eqn:C2.
      - apply isBetter_bt in C2. specialize (HB v Cv C2). fold n in HB. vlia.
      - apply isBetter_nbt in C2. vlia. }
  apply isBetter_bt in C. unfold dom_phase in E. rewrite SD in E. cbn [bind] in E. unfold cloneNode in E.
  destruct (existsb (fun x => p_eqb P (n_state x) (n_state n)) (s_pool s)) eqn:Ex.
  - injection E as <-. csplit; [intros r V0 H; exact H|auto|]. intros V0 HV. right. split; auto.
    apply existsb_exists in Ex as (x & Hx & Ex). exists x. split; auto. apply (cl_eqb P I (vm_closed _ _ _ _ VM)) in Ex; auto.
    + pose proof (i_pool _ _ _ V) as FP. rewrite Forall_forall in FP. exact (node_I P I rank N VM HI x (FP x Hx)).
    + exact (node_I P I rank N VM HI n Nk).
  - set (bwd := match p_local P with Some local => local (n_state n) false | None => n_bb n end) in E.
    set (key := (n_bound n + bwd)%Z) in E. set (new := (length (s_pool s), key)) in E.
    set (h2 := if isBetter P key (b_primal (s_b s)) then fst (heap_insertHeap (q_ord P) q_dflt (s_pq s) new) else s_pq s) in E.
    apply (f_equal (fun r => match r with Ok x => x | Err _ => s end)) in E. cbv beta iota in E. subst s'.
    assert (H2 : (isBetter P key (b_primal (s_b s)) = true /\ Permutation (entries h2) (new :: entries (s_pq s))) \/
                    (isBetter P key (b_primal (s_b s)) = false /\ h2 = s_pq s)).
    { unfold h2. destruct (isBetter P key (b_primal (s_b s))); [|auto].
      destruct (heap_insertHeap (q_ord P) q_dflt (s_pq s) new) as [h3 l] eqn:EI.
      destruct (insertHeap_ok _ q_dflt (q_ord_swo P) (s_pq s) new h3 l (i_heap _ _ _ V) EI) as (O & Pm2 & _). cbn [fst]. left. split; auto.
      unfold entries. now rewrite Pm2. }
    assert (PNew : pool_node P (s_pool s ++ [clone_of n]) (length (s_pool s)) = clone_of n).
    { unfold pool_node. rewrite app_nth2 by lia. now rewrite Nat.sub_diag. }
    assert (KN : forall v, compl P (n_state n) v -> bt P (n_bound n + v) (b_primal (s_b s)) -> be P key (n_bound n + v)).
    { intros v Cv Bv. unfold key, bwd. destruct (p_local P) as [local|] eqn:El.
      - pose proof (vm_local _ _ _ _ VM local (n_state n) false v El (node_I P I rank N VM HI n Nk) Cv). vlia.
      - specialize (HB v Cv Bv). fold n in HB. vlia. }
    assert (NV : forall V0, covers n V0 -> heldr (cut_upd s (s_pool s ++ [clone_of n]) h2 (if is_ptr (d_root d) i then S (s_w s) else s_w s) (s_pruned s + 0) (s_insDom s) (s_seen s)) (rank (n_state n)) V0).
    { intros V0 (v & Cv & Bv). destruct (isBetter P (n_bound n + v) (b_primal (s_b s))) eqn:C2.
      - apply isBetter_bt in C2. pose proof (KN v Cv C2) as Kb. destruct H2 as [(_ & Pm2)|(Kf & _)].
        + right. exists new. cbn [cut_upd s_pool s_pq]. split; [eapply Permutation_in; [symmetry; exact Pm2|now left]|].
          unfold new. cbn [fst]. rewrite PNew. split; [cbn; lia|]. exists v. auto.
        + exfalso. apply isBetter_nbt in Kf. vlia.
      - apply isBetter_nbt in C2. left. cbn. vlia. }
    csplit.
    + intros r V0 [H|(q & A & B & H)]; [now left|]. right. exists q. cbn [cut_upd s_pool s_pq].
      rewrite pool_node_app by (apply (i_idx _ _ _ V); apply in_or_app; auto). csplit; auto.
      destruct H2 as [(_ & Pm2)|(_ & ->)]; auto. eapply Permutation_in; [symmetry; exact Pm2|now right].
    + cbn [cut_upd s_pool]. intros x Hx. apply in_app_or in Hx as [Hx|[<-|[]]]; [now left|]. right. exact NV.
    + auto.
Qed.

Lemma cut_loop_seen d ro : forall cs s s', sinv s -> (forall i, In i cs -> node_ok (d_nd d i)) -> (forall i, In i cs -> back_ok d (b_primal (s_b s)) i) ->
  cut_loop P d s cs = Ok s' ->
  (forall x V, In x (s_pool s) -> ro < rank (n_state x) -> covers x V -> heldr s (rank (n_state x)) V) ->
  (forall i, In i cs -> bt P (n_bound (d_nd d i) + n_bb (d_nd d i)) (b_primal (s_b s)) -> ro < rank (n_state (d_nd d i)) /\
     forall x, In x (s_pool s') -> n_state x = n_state (d_nd d i) -> be P (n_bound x) (n_bound (d_nd d i))) ->
  (forall r V, heldr s r V -> heldr s' r V) /\
  (forall x, In x (s_pool s') -> In x (s_pool s) \/ forall V, covers x V -> heldr s' (rank (n_state x)) V) /\
  (forall i V, In i cs -> covers (d_nd d i) V -> heldr s' (rank (n_state (d_nd d i))) V).
Proof.
  induction cs as [|i cs IH]; intros s s' V Nk HB E HA HR; cbn [cut_loop] in E.
  - injection E as <-. csplit; auto. intros i V0 [].
  - apply bind_ok in E as (s1 & E1 & E). pose proof (Nk i (or_introl eq_refl)) as Ni.
    destruct (cut_step_ok P I rank N VM HI srt Hsrt dfuel Hfuel mxw Hmxw p0 d s i V Ni) as (s1' & E1' & V1 & F1 & _). rewrite E1 in E1'. injection E1' as <-.
    destruct (cut_step_seen d s i s1 V Ni (HB i (or_introl eq_refl)) E1) as (M1 & N1 & C1).
    pose proof (cf_b _ _ F1) as Eb. destruct (cf_pool _ _ F1) as [y Ep].
    destruct (IH s1 s') as (M2 & N2 & C2); auto.
    + intros j Hj. apply Nk. now right.
    + intros j Hj. rewrite Eb. apply HB. now right.
    + intros x V0 Hx Lr Cx. destruct (N1 x Hx) as [Hx'|Hx']; auto.
    + intros j Hj. rewrite Eb. apply HR. now right.
    + assert (Q : exists z, s_pool s' = s_pool s1 ++ z).
      { destruct (cut_loop_ok P I rank N VM HI srt Hsrt dfuel Hfuel mxw Hmxw p0 d cs s1 V1) as (s2 & E2 & _ & F2 & _); [intros j Hj; apply Nk; now right|].
        rewrite E in E2. injection E2 as <-. apply (cf_pool _ _ F2). }
      destruct Q as [z Ez].
      csplit; auto.
      * intros x Hx. destruct (N2 x Hx) as [Hx'|Hx']; auto. destruct (N1 x Hx') as [Hx''|Hx'']; auto.
      * intros j V0 [<-|Hj] Cj; auto. destruct (C1 V0 Cj) as [H|(Bt & x & Hx & Ex)]; auto.
        destruct (HR i (or_introl eq_refl) Bt) as [Lr Hb]. apply M2, M1. rewrite <- Ex in Lr |- *. apply HA; auto.
        destruct Cj as (v & Cv & Bv). exists v. rewrite Ex. split; auto.
        assert (be P (n_bound x) (n_bound (d_nd d i))); [|vlia]. apply Hb; auto. rewrite Ez, Ep. apply in_or_app. left. apply in_or_app. auto.
Qed.

Lemma cut_loop_pool d : forall cs s s', cut_loop P d s cs = Ok s' -> exists y, s_pool s' = s_pool s ++ y.
Proof.
  induction cs as [|i cs IH]; intros s s' E; cbn [cut_loop] in E.
  - injection E as <-. exists []. now rewrite app_nil_r.
  - apply bind_ok in E as (s1 & E1 & E). destruct (IH s1 s' E) as [y ->].
    assert (Q : exists z, s_pool s1 = s_pool s ++ z).
    { unfold cut_step in E1. cbn zeta in E1. destruct (negb _); [injection E1 as <-; exists []; cbn; now rewrite app_nil_r|].
      apply bind_ok in E1 as ([[h k] dom] & _ & E1). destruct dom; [injection E1 as <-; exists []; cbn; now rewrite app_nil_r|].
      unfold cloneNode in E1. destruct (existsb _ _); injection E1 as <-; cbn; [exists []; now rewrite app_nil_r|eauto]. }
    destruct Q as [z ->]. exists (z ++ y). symmetry. apply app_assoc.
Qed.
Lemma bb_node_pool s q s' : bb_nodeD P lab srt dfuel mxw s q = Ok s' -> exists y, s_pool s' = s_pool s ++ y.
Proof.
  assert (Z : exists y, s_pool s = s_pool s ++ y) by (exists []; now rewrite app_nil_r).
  unfold bb_nodeD. cbn zeta. destruct (negb _); [intros [= <-]; exact Z|]. intros E.
  apply bind_ok in E as ([[d1 b1] db] & _ & E). destruct db; [|injection E as <-; exact Z].
  apply bind_ok in E as ([[d2 b2] pb] & _ & E). destruct (negb _ && negb _); [|injection E as <-; exact Z].
  apply bind_ok in E as (cs & _ & E). exact (cut_loop_pool d1 cs _ s' E).
Qed.

(** every node ever kept is covered *)
Definition covered (s : sst) : Prop := forall x V, In x (s_pool s) -> covers x V -> heldr s (rank (n_state x)) V.

Lemma genuine_rank rs rb rl s v l : I rs -> rs <> p_target P -> s <> p_target P -> genuine P rs rb rl s v l -> rank rs <= rank s /\ (s <> rs -> rank rs < rank s).
Proof.
  intros Is Nr Ns (ls & v' & _ & _ & H). clear - VM Is Nr Ns H. induction H as [|s l s' ls v t Hn Hl S Hp IH]; [split; [lia|congruence]|].
  assert (Is' : I s') by (exact (cl_step _ _ (vm_closed _ _ _ _ VM) s l s' Is Hn Hl S)).
  assert (s' <> p_target P).
  { intros ->. inversion Hp; subst; congruence. }
  destruct (IH Is' H Ns) as [A _]. pose proof (vm_layered _ _ _ _ VM s l s' Is Hn Hl S H). split; [lia|]. intros _. lia.
Qed.

Lemma bb_nodeD_seen s q s' : sinv s -> fst q < length (s_pool s) -> key_ok P (s_pool s) (b_primal (s_b s)) q -> bb_nodeD P lab srt dfuel mxw s q = Ok s' ->
  let from := pool_node P (s_pool s) (fst q) in
  (forall x V, In x (s_pool s) -> covers x V -> heldr s (rank (n_state x)) V \/ (rank (n_state x) <= rank (n_state from) /\ covers from V)) ->
  hist_ok P s' -> seen_ok P s' -> covered s'.
Proof.
  intros V Hq Kq E from HA HH HS. unfold bb_nodeD in E. cbn zeta in E. fold from in E.
  assert (Nf : node_ok from). { pose proof (i_pool _ _ _ V) as FP. rewrite Forall_forall in FP. apply FP. now apply pool_node_in. }
  destruct (i_log _ _ _ V) as [vs L]. pose proof (log_at _ _ _ _ L) as Ab.
  assert (Same : forall s', s_pool s' = s_pool s -> s_pq s' = s_pq s -> be P (b_primal (s_b s')) (b_primal (s_b s)) ->
    (forall V, covers from V -> be P (b_primal (s_b s')) V) -> covered s').
  { intros t Ep Eq Lp HF x V0 Hx Cx. rewrite Ep in Hx. destruct (HA x V0 Hx Cx) as [[H|(y & A & B & H)]|(A & H)].
    - left. vlia.
    - right. exists y. rewrite Ep, Eq. auto.
    - left. now apply HF. }
  destruct (isBetter P (snd q) (b_primal (s_b s))) eqn:C; cbn [negb] in E.
  2:{ apply isBetter_nbt in C. injection E as <-. apply Same; auto using be_refl. intros V0 (v & Cv & Bv). cbn.
      destruct (isBetter P (n_bound from + v) (b_primal (s_b s))) eqn:C2; [|apply isBetter_nbt in C2; vlia].
      apply isBetter_bt in C2. specialize (Kq v Cv C2). fold from in Kq. vlia. }
  destruct (apply_relaxedD P lab I rank N VM HI Hrange srt Hsrt dfuel Hfuel mxw Hmxw p0 DY Hp0 (s_w s) (s_relaxed s) from (s_b s) vs Nf L)
    as (d1 & b1 & db & vs1 & E1 & L1 & P1 & RX & DBF & DX & DI).
  rewrite E1 in E. cbn [bind] in E.
  destruct db.
  2:{ destruct (DBF eq_refl) as [-> DB]. injection E as <-. now apply Same. }
  destruct (apply_restrictedD P lab I rank N VM HI Hrange srt Hsrt dfuel Hfuel mxw Hmxw p0 DY Hp0 (s_restr s) from b1 vs1 Nf L1) as (d2 & b2 & pb & vs2 & E2 & L2 & P2 & RE).
  rewrite E2 in E. cbn [bind] in E.
  assert (P12 : be P (b_primal b2) (b_primal (s_b s))) by vlia.
  destruct (negb (d_exact d2) && negb (d_exact d1)) eqn:X.
  2:{ injection E as <-. apply Same; auto. intros V0 HV. cbn. apply andb_false_iff in X as [X|X]; apply negb_false_iff in X; auto.
      pose proof (DX X V0 HV). vlia. }
  apply andb_true_iff in X as [_ X]. apply negb_true_iff in X. pose proof (DI X) as ->.
  pose proof (node_ID P I rank N VM HI _ Nf) as Is.
  pose proof (q_range P lab I rank N VM HI Hrange p0 DY (b_primal (s_b s)) Ab _ Nf) as Rg. pose proof Nf as [G Nt].
  pose proof (dy_model _ _ _ _ _ _ DY (b_primal (s_b s)) Ab) as VQ. fold (cur P lab (s_b s)) in *. set (R := cur P lab (s_b s)) in *.
  pose proof (started_from R (s_relaxed s) from) as S0. assert (F : N + 1 < dfuel + rank (n_state from)) by lia.
  destruct (relaxed_cutset R I rank N VQ _ _ _ Nt Is Rg srt Hsrt dfuel _ (b_primal (s_b s)) (s_w s) d1 S0 F RX) as (cs & Ec & ND & CN & CC).
  rewrite Ec in E. cbn [bind] in E.
  set (s1 := run_upd s b2 d1 d2 (S (s_nNode s)) (S (s_ttl s)) ((d1, b_primal b2) :: s_hist s)) in *.
  assert (V1 : sinv s1) by (apply sinv_run; eauto).
  assert (GC : forall i, In i cs -> genuine P (n_state from) (n_bound from) (n_lab from) (n_state (d_nd d1 i)) (n_bound (d_nd d1 i)) (n_lab (d_nd d1 i))).
  { intros i Hi. destruct (CN i Hi) as (_ & B1 & _ & B2). exact (q_genuine P lab I rank N p0 DY _ Ab _ _ _ _ _ _ Is B2). }
  assert (NC : forall i, In i cs -> node_ok (d_nd d1 i)).
  { intros i Hi. destruct (CN i Hi) as (_ & B1 & _ & B2). split; auto. eapply genuine_trans; [exact G|]. now apply GC. }
  destruct (cut_loop_ok P I rank N VM HI srt Hsrt dfuel Hfuel mxw Hmxw p0 d1 cs s1 V1 NC) as (s2 & E' & V' & F' & _). rewrite E in E'. injection E' as <-.
  assert (Hd : In (d1, b_primal b2) (s_hist s')) by (rewrite (cf_hist _ _ F'); now left).
  assert (M0 : forall r V0, heldr s r V0 -> heldr s1 r V0). { intros r V0 [H|H]; [left; cbn; vlia|right; exact H]. }
  assert (RK : forall i, In i cs -> rank (n_state from) <= rank (n_state (d_nd d1 i)) /\ (n_state (d_nd d1 i) <> n_state from -> rank (n_state from) < rank (n_state (d_nd d1 i)))).
  { intros i Hi. destruct (CN i Hi) as (_ & B1 & _). exact (genuine_rank _ _ _ _ _ _ Is Nt B1 (GC i Hi)). }
  destruct (cut_loop_seen d1 (rank (n_state from)) cs s1 s' V1 NC) as (M2 & N2 & C2); auto.
  - intros i Hi v Cv Bv. cbn in Bv. destruct (CN i Hi) as (B1 & B2 & _ & _). pose proof (NC i Hi) as [Gi Ni].
    destruct (dy_keep _ _ _ _ _ _ DY (b_primal (s_b s)) (n_state (d_nd d1 i)) (n_bound (d_nd d1 i)) (n_lab (d_nd d1 i)) v Ab Gi Ni Cv) as (v' & Cv' & Bv'); [vlia|].
    assert (Y : be P (n_bb (d_nd d1 i)) v'); [|vlia].
    apply (relaxed_backward R I rank N VQ _ _ _ Nt Is Rg srt Hsrt dfuel _ (b_primal (s_b s)) (s_w s) d1 S0 F RX i v' B1); auto.
    + intros Et. destruct (relaxed_dual_bound R I rank N VQ _ _ _ Nt Is Rg srt Hsrt dfuel _ (b_primal (s_b s)) (s_w s) d1 S0 F RX) as (t & Et' & St' & _).
      unfold trg_node in Et'. rewrite Et in Et'. injection Et' as <-. auto.
    + change (bt P (n_bound (d_nd d1 i) + v') (b_primal (s_b s))). vlia.
  - intros x V0 Hx Lr Cx. cbn in Hx. destruct (HA x V0 Hx Cx) as [H|[H _]]; auto. lia.
  - intros i Hi Bt. cbn in Bt. destruct (HS d1 (b_primal b2) cs i Hd Ec Hi Bt) as [Q1 Q2]. split; auto.
    apply (RK i Hi). intros Es. apply Q1. destruct (CN i Hi) as (B1 & _).
    exact (relaxed_root R I rank N VQ _ _ _ Nt Is Rg srt Hsrt dfuel _ (b_primal (s_b s)) (s_w s) d1 S0 F RX i B1 Es).
  - assert (CF : forall V0, covers from V0 -> heldr s' (rank (n_state from)) V0).
    { intros V0 HV. destruct (isBetter P V0 (b_primal (s_b s))) eqn:CV.
      2:{ left. rewrite (cf_b _ _ F'). cbn. apply isBetter_nbt in CV. vlia. }
      apply isBetter_bt in CV. destruct (q_covers P lab I rank N dfuel Hfuel mxw Hmxw p0 DY (b_primal (s_b s)) Ab from V0 Nf HV CV) as (U & SV & LV).
      destruct (CC U SV) as [(i & v & Hi & Cv & Bv)|(i & l & sink & Hi & Xi & Tk & Hl & Hs & _ & Bv)].
      - change (bt P U (b_primal (s_b s))). vlia.
      - apply (heldr_le _ (rank (n_state (d_nd d1 i)))); [apply (RK i Hi)|]. apply C2; auto. change (be P (n_bound (d_nd d1 i) + v) U) in Bv.
        exists v. split; [|vlia]. apply (q_compl P lab I rank N p0 DY (b_primal (s_b s)) Ab); auto. apply (node_ID P I rank N VM HI); auto.
      - left. rewrite (cf_b _ _ F'). cbn.
        pose proof (HH _ _ Hd i l Hi Xi) as Hq2. change (be P (n_bound (d_nd d1 i) + p_cost P (n_state (d_nd d1 i)) l) U) in Bv.
        assert (Il : In l (p_labels P (n_state (d_nd d1 i)))). { exact (dy_sub _ _ _ _ _ _ DY _ _ _ Ab Hl). }
        specialize (Hq2 Il Hs). vlia. }
    intros x V0 Hx Cx. destruct (N2 x Hx) as [Hx'|Hx']; auto. cbn in Hx'. destruct (HA x V0 Hx' Cx) as [H|[H1 H2]]; [apply M2, M0, H|].
    apply (heldr_le _ (rank (n_state from))); auto.
Qed.

(** *** the loop *)
Variable lim : nat -> bool.
Lemma bb_loopD_seen : forall fuel k s s', sinv s -> keys_ok P s -> bb_loopD P lab srt dfuel lim fuel mxw k s = Ok (s', Emptied) -> covered s -> hist_ok P s' -> seen_ok P s' ->
  covered s' /\ entries (s_pq s') = [] /\ exists y, s_pool s' = s_pool s ++ y.
Proof.
  enough (X : forall fuel k s s', sinv s -> keys_ok P s -> bb_loopD P lab srt dfuel lim fuel mxw k s = Ok (s', Emptied) ->
    (exists x, s_hist s' = x ++ s_hist s) /\ (exists y, s_pool s' = s_pool s ++ y) /\ entries (s_pq s') = [] /\ (covered s -> hist_ok P s' -> seen_ok P s' -> covered s')).
  { intros fuel k s s' V K E C HH HS. destruct (X fuel k s s' V K E) as (_ & B & D & F). auto. }
  induction fuel as [|fuel IH]; intros k s s' V K E; cbn [SearchDyn.bb_loopD] in E.
  - destruct (heap_empty (s_pq s)) eqn:H0; [|discriminate]. injection E as <-. apply empty_elems in H0; [|apply (i_heap _ _ _ V)].
    csplit; auto; [exists []; auto|exists []; now rewrite app_nil_r|exact (f_equal (map snd) H0)].
  - destruct (heap_empty (s_pq s)) eqn:H0.
    + injection E as <-. apply empty_elems in H0; [|apply (i_heap _ _ _ V)].
      csplit; auto; [exists []; auto|exists []; now rewrite app_nil_r|exact (f_equal (map snd) H0)].
    + destruct (heap_extractMax (q_ord P) (s_pq s)) as [[q h]|] eqn:EX; [|discriminate].
      destruct (popped_ok P p0 s q h V EX) as (V1 & Pm & Hq & K1 & _). destruct (K1 K) as [K1a K1b].
      destruct (lim k); [discriminate|]. apply bind_ok in E as (s1 & E1 & E).
      destruct (bb_nodeD_ok P lab I rank N VM HI Hrange srt Hsrt dfuel Hfuel mxw Hmxw p0 DY Hp0 (popped s q h) q V1 Hq) as (s1' & E1' & V2 & F2 & K2 & _).
      rewrite E1 in E1'. injection E1' as <-.
      destruct (IH (S k) s1 s' V2 (K2 K1a) E) as ((x & X3) & (y & Y3) & Z3 & C3).
      assert (Y2 : exists z, s_pool s1 = s_pool s ++ z).
      { destruct (bb_node_pool (popped s q h) q s1 E1) as [z Ez]. eauto. }
      destruct Y2 as [z Ez]. destruct (nf_hist _ _ _ F2) as [x2 X2]. cbn in X2. csplit; auto.
      * exists (x ++ x2). rewrite X3, X2. apply app_assoc.
      * exists (z ++ y). rewrite Y3, Ez. symmetry. apply app_assoc.
      * intros C HH HS. apply C3; auto.
        assert (HH1 : hist_ok P s1). { intros d p Hd. apply HH. rewrite X3. apply in_or_app. auto. }
        assert (HS1 : seen_ok P s1).
        { intros d p cs i Hd Ec Hi Bt. destruct (HS d p cs i) as [A B]; auto; [rewrite X3; apply in_or_app; auto|]. split; auto.
          intros w Hw. apply B. rewrite Y3. apply in_or_app. auto. }
        apply (bb_nodeD_seen (popped s q h) q s1); auto.
        cbn [popped s_pool fst]. intros w V0 Hw Cw. destruct (C w V0 Hw Cw) as [H|(u & Hu & Lu & Cu)]; [left; now left|].
        apply (Permutation_in _ Pm) in Hu as [<-|Hu]; auto. left. right. exists u. cbn. auto.
Qed.
End Seen.

(** ** the statements *)
Section Statements.
Context {St : Type} (P : prob St) (I : St -> Prop) (rank : St -> nat) (N : nat) (srt : dd St -> list nat -> list nat) (dfuel mxw : nat).
Hypothesis SE : setting P I rank N srt dfuel mxw.
Hypothesis SD : p_sdom P = None.
Variable lim : nat -> bool.
Variable user : option Z.
Let p0 := match user with Some p => p | None => sentinel P end.
Hypothesis Hp0 : be P p0 (sentinel P).

Lemma searchD_optimal_seen lab (DY : dyn_ok P lab p0 I rank N) fuel s : searchD P lab srt dfuel lim fuel mxw user = Ok (s, Emptied) ->
  (forall V, solution P (p_init P) 0 V -> be P (initialWorst P) V) -> hist_ok P s -> seen_ok P s ->
  forall V, solution P (p_init P) 0 V -> be P (b_primal (s_b s)) V.
Proof.
  intros E HL HH HS V SV. pose proof SE as [A1 A2 A3 A4 A5 A6 A7]. pose proof Hp0 as Q. pose proof DY as DD. unfold p0 in Q, DD.
  fold (start_bound P user) in Q, DD. assert (Ea : start_bound P user = b_primal (attach P user)) by (unfold start_bound, attach; destruct user; reflexivity).
  rewrite Ea in Q, DD. destruct (start_root P mxw user) as [R1 R2].
  destruct (bb_loopD_seen P lab I rank N A1 A3 A4 srt A5 dfuel A6 mxw A7 _ DD Q SD lim fuel 0 _ s (start_inv P N A2 dfuel A6 lim mxw A7 user)
    (start_keys P I rank N A1 A3 mxw user HL) E) as (C & En & y & Ey); auto.
  - intros x V0 Hx Cx. right. destruct (start_entries P mxw user) as (key & Ee & _). exists (0, key). rewrite Ee. split; [now left|]. cbn [fst].
    destruct (start_proj P mxw user) as (Ep & _). rewrite Ep in Hx |- *. destruct Hx as [<-|[]]. split; auto.
  - destruct SV as (v & Cv & ->). set (x := pool_node P (s_pool (bb_start P mxw user)) 0) in *.
    assert (Hx : In x (s_pool s)).
    { rewrite Ey. apply in_or_app. left. apply pool_node_in. destruct (start_proj P mxw user) as (-> & _). cbn. lia. }
    destruct (C x (0 + v)%Z Hx) as [H|(q & Hq & _)]; auto.
    + exists v. rewrite R1, R2. split; auto. apply be_refl.
    + rewrite En in Hq. destruct Hq.
Qed.

(** labels that do not depend on the bound *)
Lemma static_dyn (VM : valid_model P I rank N) : dyn_ok P (fun _ => p_labels P) p0 I rank N.
Proof.
  assert (E : relabel P (p_labels P) = P) by apply relabel_same. constructor; intros; rewrite ?E; auto.
  exists v. split; auto. apply be_refl.
Qed.
Lemma search_optimal_seen fuel s : search P srt dfuel lim fuel mxw user = Ok (s, Emptied) ->
  (forall V, solution P (p_init P) 0 V -> be P (initialWorst P) V) -> hist_ok P s -> seen_ok P s ->
  forall V, solution P (p_init P) 0 V -> be P (b_primal (s_b s)) V.
Proof.
  intros E. rewrite <- searchD_static in E. revert E. apply searchD_optimal_seen. apply static_dyn. apply SE.
Qed.
End Statements.

(** ** executable version of seen_ok, for examples *)
Definition seen_okb {St} (P : prob St) (s : @sst St) : bool :=
  forallb (fun x => match computeCutSet (fst x) with
    | Ok cs => forallb (fun i => let n := d_nd (fst x) i in negb (isBetter P (n_bound n + n_bb n) (snd x)) ||
        (negb (is_ptr (d_root (fst x)) i) && forallb (fun y => negb (p_eqb P (n_state y) (n_state n)) || negb (isBetter P (n_bound n) (n_bound y))) (s_pool s))) cs
    | Err _ => true end) (s_hist s).
Lemma seen_okb_ok {St} (P : prob St) (s : @sst St) : (forall a, p_eqb P a a = true) -> seen_okb P s = true -> seen_ok P s.
Proof.
  intros HE H d p cs i Hin Hc Hi B. unfold seen_okb in H. rewrite forallb_forall in H. specialize (H _ Hin). cbn [fst snd] in H. rewrite Hc in H.
  rewrite forallb_forall in H. specialize (H _ Hi). cbn zeta in H. apply isBetter_bt in B. rewrite B in H. cbn [negb orb] in H.
  apply andb_true_iff in H as [H1 H2]. split.
  - intros E. rewrite E in H1. cbn [is_ptr] in H1. rewrite Nat.eqb_refl in H1. discriminate.
  - intros x Hx Ex. rewrite forallb_forall in H2. specialize (H2 _ Hx). rewrite Ex, HE in H2. cbn [negb orb] in H2. apply negb_true_iff in H2.
    now apply isBetter_nbt in H2.
Qed.
