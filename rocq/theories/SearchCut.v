(** The cut sets a search computes: their nodes are genuine, and with enough width for the children of a node no cut set contains the root of its
    diagram (used by C69, C70). *)
From Verif Require Import Base HeapModel HeapProofs DDModel DDSpec DDFrame DDInv DDLayer DDRestricted DDRestricted2 DDRelaxed DDPasses DDRelaxed2 DDRelaxedEnd DDWide DDRoot
  SearchModel SearchProofs SearchDyn SearchEx SearchSeen.

(** no state the search can be at has more labels than mxw *)
Definition fan_le {St} (P : prob St) (lab : Z -> St -> list Z) (p0 : Z) (w : nat) : Prop :=
  forall b s, at_bound P p0 b -> s <> p_target P -> (exists ls v, path P (p_init P) ls v s) -> length (lab b s) <= w.
(** a state other than the target is reached with one value only *)
Definition one_value {St} (P : prob St) : Prop :=
  forall ls v ls' v' s, s <> p_target P -> path P (p_init P) ls v s -> path P (p_init P) ls' v' s -> v = v'.
(** no node kept for the state of an improving cut set node is worse *)
Definition kept_best {St} (P : prob St) (s : @sst St) : Prop :=
  forall d p cs i, In (d, p) (s_hist s) -> computeCutSet d = Ok cs -> In i cs -> bt P (n_bound (d_nd d i) + n_bb (d_nd d i)) p ->
    forall x, In x (s_pool s) -> n_state x = n_state (d_nd d i) -> be P (n_bound x) (n_bound (d_nd d i)).

(** the cut set of the diagram contains its root *)
Definition cut_has_root {St} (d : dd St) : bool := match computeCutSet d with Ok cs => existsb (is_ptr (d_root d)) cs | Err _ => false end.

Section Cut.
Context {St : Type} (P : prob St) (lab : Z -> St -> list Z) (I : St -> Prop) (rank : St -> nat) (N : nat).
Hypothesis VM : valid_model P I rank N.
Hypothesis HI : I (p_init P).
Hypothesis Hrange : in_range P (p_init P) 0.
Variable srt : dd St -> list nat -> list nat.
Hypothesis Hsrt : forall d l, Permutation (srt d l) l.
Variable dfuel : nat.
Hypothesis Hfuel : N + 1 < dfuel.
Variable mxw : nat.
Hypothesis Hmxw : (N.of_nat mxw < 4294967296)%N.
Variable p0 : Z.
Hypothesis DY : dyn_ok P lab p0 I rank N.
Hypothesis Hp0 : be P p0 (sentinel P).
Notation sst := (@sst St).
Notation sinv := (sinv P p0).
Notation node_ok := (node_ok P).

Record cut_hist (s : sst) : Prop := {
  ch_w : s_w s = mxw + length (filter (fun x => cut_has_root (fst x)) (s_hist s));
  ch_ok : forall d p cs i, In (d, p) (s_hist s) -> computeCutSet d = Ok cs -> In i cs -> node_ok (d_nd d i) /\ (fan_le P lab p0 mxw -> d_root d <> Some i) }.

Lemma cut_loop_w d : forall cs s s', NoDup cs -> cut_loop P d s cs = Ok s' -> s_w s' = s_w s + (if existsb (is_ptr (d_root d)) cs then 1 else 0) /\ s_hist s' = s_hist s.
Proof.
  induction cs as [|i cs IH]; intros s s' ND E; cbn [cut_loop existsb] in *; [injection E as <-; auto|]. apply NoDup_cons_iff in ND as [Ni ND].
  apply bind_ok in E as (s1 & E1 & E). apply IH in E as [A1 A2]; auto.
  enough (s_w s1 = (if is_ptr (d_root d) i then S (s_w s) else s_w s) /\ s_hist s1 = s_hist s) as [B1 B2].
  { split; [|congruence]. rewrite A1, B1. destruct (is_ptr (d_root d) i) eqn:X; cbn [orb]; auto.
    replace (existsb (is_ptr (d_root d)) cs) with false; [lia|]. symmetry. apply not_true_is_false. intros Y. apply existsb_exists in Y as (j & Hj & Y).
    apply is_ptr_true in X, Y. assert (i = j) by congruence. subst j. auto. }
  clear - E1. unfold cut_step in E1. cbn zeta in E1.
  destruct (negb _); [injection E1 as <-; cbn; auto|].
  apply bind_ok in E1 as ([[h k] dom] & _ & E1). destruct dom; [injection E1 as <-; cbn; auto|].
  unfold cloneNode in E1. destruct (existsb _ _); injection E1 as <-; cbn; auto.
Qed.

Lemma bb_nodeD_cut s q s' : sinv s -> fst q < length (s_pool s) -> bb_nodeD P lab srt dfuel mxw s q = Ok s' -> cut_hist s -> cut_hist s'.
Proof.
  intros V Hq E [CW CO]. unfold bb_nodeD in E. cbn zeta in E. set (from := pool_node P (s_pool s) (fst q)) in *.
  assert (Nf : node_ok from). { pose proof (i_pool _ _ _ V) as FP. rewrite Forall_forall in FP. apply FP. now apply pool_node_in. }
  destruct (i_log _ _ _ V) as [vs L]. pose proof (log_at _ _ _ _ L) as Ab.
  destruct (negb _); [injection E as <-; constructor; cbn; auto|].
  destruct (apply_relaxedD P lab I rank N VM HI Hrange srt Hsrt dfuel Hfuel mxw Hmxw p0 DY Hp0 (s_w s) (s_relaxed s) from (s_b s) vs Nf L)
    as (d1 & b1 & db & vs1 & E1 & L1 & P1 & RX & DBF & DX & DI).
  rewrite E1 in E. cbn [bind] in E. destruct db; [|injection E as <-; constructor; cbn; auto].
  apply bind_ok in E as ([[d2 b2] pb] & _ & E). destruct (negb _ && negb _); [|injection E as <-; constructor; cbn; auto].
  apply bind_ok in E as (cs & Ec & E).
  pose proof (node_ID P I rank N VM HI _ Nf) as Is.
  pose proof (q_range P lab I rank N VM HI Hrange p0 DY (b_primal (s_b s)) Ab _ Nf) as Rg. pose proof Nf as [G Nt].
  pose proof (dy_model _ _ _ _ _ _ DY (b_primal (s_b s)) Ab) as VQ. fold (cur P lab (s_b s)) in *. set (R := cur P lab (s_b s)) in *.
  pose proof (started_from R (s_relaxed s) from) as S0. assert (F : N + 1 < dfuel + rank (n_state from)) by lia.
  destruct (relaxed_cutset R I rank N VQ _ _ _ Nt Is Rg srt Hsrt dfuel _ (b_primal (s_b s)) (s_w s) d1 S0 F RX) as (cs' & Ec' & ND & CN & _).
  rewrite Ec in Ec'. injection Ec' as <-. destruct (cut_loop_w _ _ _ _ ND E) as [W1 W2]. cbn in W1, W2.
  constructor; [rewrite W1, W2, CW; cbn [filter fst]; unfold cut_has_root at 2; rewrite Ec; destruct (existsb _ cs); cbn [length]; lia|]. rewrite W2. intros d p cs1 i [[= <- <-]|Hin] Ec1 Hi; [|exact (CO d p cs1 i Hin Ec1 Hi)].
  rewrite Ec in Ec1. injection Ec1 as <-. split.
  - destruct (CN i Hi) as (_ & B1 & _ & B2). split; auto. eapply genuine_trans; [exact G|]. exact (q_genuine P lab I rank N p0 DY _ Ab _ _ _ _ _ _ Is B2).
  - intros FL. apply (relaxed_root_uncut R I rank N VQ _ _ _ Nt Is Rg srt Hsrt (b_primal (s_b s)) dfuel _ d1 (s_w s) cs i S0 F); auto.
    transitivity mxw; [|lia]. apply (FL (b_primal (s_b s)) (n_state from) Ab Nt). destruct G as (ls & v & _ & _ & Hp). eauto.
Qed.

Variable lim : nat -> bool.
Lemma bb_loopD_cut : forall fuel k s s' e, sinv s -> bb_loopD P lab srt dfuel lim fuel mxw k s = Ok (s', e) -> cut_hist s -> cut_hist s' /\ sinv s'.
Proof.
  induction fuel as [|fuel IH]; intros k s s' e V E C; cbn [bb_loopD] in E.
  - destruct (heap_empty (s_pq s)); [|discriminate]. injection E as <- <-. auto.
  - destruct (heap_empty (s_pq s)); [injection E as <- <-; auto|].
    destruct (heap_extractMax (q_ord P) (s_pq s)) as [[q h]|] eqn:EX; [|discriminate].
    destruct (popped_ok P p0 s q h V EX) as (V1 & Pm & Hq & _).
    assert (C1 : cut_hist (popped s q h)) by (destruct C; constructor; auto).
    destruct (lim k); [injection E as <- <-; auto|]. apply bind_ok in E as (s1 & E1 & E).
    destruct (bb_nodeD_ok P lab I rank N VM HI Hrange srt Hsrt dfuel Hfuel mxw Hmxw p0 DY Hp0 (popped s q h) q V1 Hq) as (s1' & E1' & V2 & _).
    rewrite E1 in E1'. injection E1' as <-. apply (IH (S k) s1 s' e V2 E). apply (bb_nodeD_cut (popped s q h) q s1 V1 Hq E1 C1).
Qed.
End Cut.

Section Statements.
Context {St : Type} (P : prob St) (I : St -> Prop) (rank : St -> nat) (N : nat) (srt : dd St -> list nat -> list nat) (dfuel mxw : nat).
Hypothesis SE : setting P I rank N srt dfuel mxw.
Variable lim : nat -> bool.
Variable user : option Z.
Let p0 := match user with Some p => p | None => sentinel P end.
Hypothesis Hp0 : be P p0 (sentinel P).

Section Lab.
Variable lab : Z -> St -> list Z.
Hypothesis DY : dyn_ok P lab p0 I rank N.

Lemma searchD_cut fuel s e : searchD P lab srt dfuel lim fuel mxw user = Ok (s, e) -> cut_hist P lab mxw p0 s /\ sinv P p0 s.
Proof.
  intros E. pose proof SE as [A1 A2 A3 A4 A5 A6 A7]. pose proof Hp0 as Q. pose proof DY as DD. unfold p0 in Q, DD |- *.
  fold (start_bound P user) in Q, DD |- *. assert (Ea : start_bound P user = b_primal (attach P user)) by (unfold start_bound, attach; destruct user; reflexivity).
  rewrite Ea in Q, DD |- *.
  apply (bb_loopD_cut P lab I rank N A1 A3 A4 srt A5 dfuel A6 mxw A7 _ DD Q lim fuel 0 _ s e (start_inv P N A2 dfuel A6 lim mxw A7 user) E).
  destruct (start_proj P mxw user) as (_ & _ & _ & _ & _ & B6 & B7). constructor; [rewrite B6; cbn; lia|]. rewrite B6. intros d p cs i [].
Qed.
(** the width of the relaxed diagrams grows by one for each cut set that contains the root of its diagram *)
Lemma searchD_width fuel s e : searchD P lab srt dfuel lim fuel mxw user = Ok (s, e) -> s_w s = mxw + length (filter (fun x => cut_has_root (fst x)) (s_hist s)).
Proof. intros E. destruct (searchD_cut fuel s e E) as [C _]. apply (ch_w _ _ _ _ _ C). Qed.
(** no cut set contains the root of its diagram *)
Lemma searchD_uncut fuel s e : searchD P lab srt dfuel lim fuel mxw user = Ok (s, e) -> fan_le P lab p0 mxw ->
  forall d p cs i, In (d, p) (s_hist s) -> computeCutSet d = Ok cs -> In i cs -> d_root d <> Some i.
Proof. intros E FL d p cs i Hd Hc Hi. destruct (searchD_cut fuel s e E) as [C _]. exact (proj2 (ch_ok _ _ _ _ _ C d p cs i Hd Hc Hi) FL). Qed.
Lemma one_value_kept fuel s e : searchD P lab srt dfuel lim fuel mxw user = Ok (s, e) -> one_value P -> kept_best P s.
Proof.
  intros E OV d p cs i Hd Hc Hi _ x Hx Ex. destruct (searchD_cut fuel s e E) as [C V]. destruct (proj1 (ch_ok _ _ _ _ _ C d p cs i Hd Hc Hi)) as [(l1 & v1 & _ & E1 & P1) Nt].
  pose proof (i_pool _ _ _ V) as FP. rewrite Forall_forall in FP. destruct (FP x Hx) as [(l2 & v2 & _ & E2 & P2) _].
  rewrite Ex in P2. rewrite E1, E2, (OV l1 v1 l2 v2 _ Nt P1 P2). apply be_refl.
Qed.
Lemma searchD_optimal_fan fuel s : p_sdom P = None -> searchD P lab srt dfuel lim fuel mxw user = Ok (s, Emptied) ->
  (forall V, solution P (p_init P) 0 V -> be P (initialWorst P) V) -> fan_le P lab p0 mxw -> kept_best P s -> hist_ok P s ->
  forall V, solution P (p_init P) 0 V -> be P (b_primal (s_b s)) V.
Proof.
  intros SD E HL FL KB HH. apply (searchD_optimal_seen P I rank N srt dfuel mxw SE SD lim user Hp0 lab DY fuel s E HL HH).
  intros d p cs i Hd Hc Hi Bt. split; [exact (searchD_uncut fuel s Emptied E FL d p cs i Hd Hc Hi)|exact (KB d p cs i Hd Hc Hi Bt)].
Qed.
End Lab.

Lemma static_dyn' : dyn_ok P (fun _ => p_labels P) p0 I rank N.
Proof. exact (static_dyn P I rank N user (se_model _ _ _ _ _ _ _ SE)). Qed.
Lemma search_width fuel s e : search P srt dfuel lim fuel mxw user = Ok (s, e) -> s_w s = mxw + length (filter (fun x => cut_has_root (fst x)) (s_hist s)).
Proof. intros E. rewrite <- searchD_static in E. exact (searchD_width _ static_dyn' fuel s e E). Qed.
Lemma search_uncut fuel s e : search P srt dfuel lim fuel mxw user = Ok (s, e) -> fan_le P (fun _ => p_labels P) p0 mxw -> root_never_cut s.
Proof.
  intros E FL d p cs i Hd Hc Hi. rewrite <- searchD_static in E. pose proof (searchD_uncut _ static_dyn' fuel s e E FL d p cs i Hd Hc Hi) as Q.
  destruct (is_ptr (d_root d) i) eqn:X; auto. apply is_ptr_true in X. congruence.
Qed.
Lemma search_optimal_fan fuel s : p_sdom P = None -> search P srt dfuel lim fuel mxw user = Ok (s, Emptied) ->
  (forall V, solution P (p_init P) 0 V -> be P (initialWorst P) V) -> fan_le P (fun _ => p_labels P) p0 mxw -> kept_best P s -> hist_ok P s ->
  forall V, solution P (p_init P) 0 V -> be P (b_primal (s_b s)) V.
Proof. intros SD E. rewrite <- searchD_static in E. exact (searchD_optimal_fan _ static_dyn' fuel s SD E). Qed.
Lemma search_one_value fuel s e : search P srt dfuel lim fuel mxw user = Ok (s, e) -> one_value P -> kept_best P s.
Proof. intros E. rewrite <- searchD_static in E. exact (one_value_kept _ static_dyn' fuel s e E). Qed.
End Statements.
