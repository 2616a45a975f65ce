(** Branch and bound for problems whose local bound keeps a state of its own (misp4_lag.cpp:541-550: the Lagrangian multipliers [lambdas] are captured by
    reference; the local bound of a queued node (BBCtx) changes them, the local bound inside a diagram (DDCtx) reads them). *)
From Coq Require Import Sorted.
From Verif Require Import Base HeapModel HeapProofs DDModel DDSpec DDFrame DDRestricted DDRestricted2 DDRelaxedEnd DDWide SearchModel SearchProofs.

(** the problem with another local bound *)
Definition relocal {St} (P : prob St) (f : option (St -> bool -> Z)) : prob St :=
  mkProb St (p_init P) (p_target P) (p_labels P) (p_stf P) (p_cost P) (p_smf P) (p_eqs P) f (p_sdom P) (p_min P) (p_eqb P).

Section Model.
Context {St M : Type}.
Variable P : prob St.
Variable locD : M -> St -> Z.          (* local bound in DDCtx *)
Variable locB : M -> St -> Z * M.      (* local bound in BBCtx, with the new state *)
Variable srt : dd St -> list nat -> list nat.
Variable dfuel : nat.
Variable lim : nat -> bool.
(** the local bound while the state is m; true is DDCtx (src/dd.hpp:489-491), false BBCtx (src/search.cpp:48, 171) *)
Definition loc_at (m : M) (s : St) (ctx : bool) : Z := if ctx then locD m s else fst (locB m s).
Definition atm (m : M) : prob St := relocal P (Some (loc_at m)).

(** src/search.cpp:125-183, as SearchModel.cut_step; the local bound is called exactly when a node is created (166-172) *)
Definition cut_stepM (d : dd St) (x : sst * M) (i : nat) : res (sst * M) :=
  do s1 <- cut_step (atm (snd x)) d (fst x) i ;
  Ok (s1, if length (s_pool (fst x)) <? length (s_pool s1) then snd (locB (snd x) (n_state (d_nd d i))) else snd x).
(** src/search.cpp:121-184 *)
Fixpoint cut_loopM (d : dd St) (x : sst * M) (cs : list nat) : res (sst * M) :=
  match cs with [] => Ok x | i :: r => do x1 <- cut_stepM d x i ; cut_loopM d x1 r end.
(** src/search.cpp:100-188, as SearchModel.bb_node *)
Definition bb_nodeM (mxw : nat) (s : sst) (m : M) (q : qnode) : res (sst * M) :=
  let ttl := S (s_ttl s) in
  if negb (isBetter P (snd q) (b_primal (s_b s)))
  then Ok (run_upd s (s_b s) (s_relaxed s) (s_restr s) (s_nNode s) ttl (s_hist s), m)
  else
    let from := pool_node P (s_pool s) (fst q) in
    let nNode := S (s_nNode s) in
    do (d1, b1, dualBetter) <- apply (atm m) srt dfuel (SRelaxed (s_w s)) (s_relaxed s) from (s_b s) ;
    if dualBetter then
      do (d2, b2, _) <- apply (atm m) srt dfuel (SRestricted mxw) (s_restr s) from b1 ;
      if negb (d_exact d2) && negb (d_exact d1) then
        do cs <- computeCutSet d1 ;
        cut_loopM d1 (run_upd s b2 d1 d2 nNode ttl ((d1, b_primal b2) :: s_hist s), m) cs
      else Ok (run_upd s b2 d1 d2 nNode ttl (s_hist s), m)
    else Ok (run_upd s b1 d1 (s_restr s) nNode ttl (s_hist s), m).
(** src/search.cpp:59-189, as SearchModel.bb_loop *)
Fixpoint bb_loopM (fuel mxw k : nat) (s : sst) (m : M) : res (sst * M * ending) :=
  if heap_empty (s_pq s) then Ok (s, m, Emptied)
  else match fuel with
  | O => Err OutOfFuel
  | S f =>
    match heap_extractMax (q_ord P) (s_pq s) with
    | None => Err UB
    | Some (q, h) =>
      if lim k then Ok (popped s q h, m, Limited q)
      else do x <- bb_nodeM mxw (popped s q h) m q ; bb_loopM f mxw (S k) (fst x) (snd x)
    end
  end.
(** src/search.cpp:21-198; the local bound is called once for the root (47-48) *)
Definition searchM (m0 : M) (fuel mxw : nat) (user : option Z) : res (sst * M * ending) :=
  bb_loopM fuel mxw 0 (bb_start (atm m0) mxw user) (snd (locB m0 (p_init P))).
End Model.

(** when the state does not change it is the search of SearchModel.v *)
Lemma searchM_static {St M} (P : prob St) (locD : M -> St -> Z) (locB : M -> St -> Z * M) m srt dfuel lim fuel mxw user : (forall s, snd (locB m s) = m) ->
  searchM P locD locB srt dfuel lim m fuel mxw user = (do x <- search (atm P locD locB m) srt dfuel lim fuel mxw user ; Ok (fst x, m, snd x)).
Proof.
  intros Hm. unfold searchM, search. rewrite Hm. set (Q := atm P locD locB m).
  assert (LL : forall d cs s, cut_loopM P locD locB d (s, m) cs = (do s1 <- cut_loop Q d s cs ; Ok (s1, m))).
  { intros d. induction cs as [|i cs IH]; intros s; [reflexivity|]. cbn [cut_loopM cut_loop]. unfold cut_stepM. cbn [fst snd]. fold Q.
    destruct (cut_step Q d s i) as [s1|]; [|reflexivity]. cbn [bind]. rewrite Hm. replace (if _ <? _ then m else m) with m by now destruct (_ <? _). apply IH. }
  generalize 0 as k, (bb_start Q mxw user) as s. induction fuel as [|fuel IH]; intros k s; cbn [bb_loopM bb_loop].
  - destruct (heap_empty (s_pq s)); reflexivity.
  - destruct (heap_empty (s_pq s)); [reflexivity|]. change (q_ord Q) with (q_ord P).
    destruct (heap_extractMax (q_ord P) (s_pq s)) as [[q h]|]; [|reflexivity]. destruct (lim k); [reflexivity|].
    assert (E : bb_nodeM P locD locB srt dfuel mxw (popped s q h) m q = (do s1 <- bb_node Q srt dfuel mxw (popped s q h) q ; Ok (s1, m))).
    { unfold bb_nodeM, bb_node. fold Q. change (isBetter Q) with (isBetter P). cbn zeta. destruct (negb _); [reflexivity|].
      change (pool_node P (s_pool (popped s q h)) (fst q)) with (pool_node Q (s_pool (popped s q h)) (fst q)).
      destruct (apply Q srt dfuel (SRelaxed _) _ _ _) as [[[d1 b1] db]|]; [|reflexivity]. cbn [bind]. destruct db; [|reflexivity].
      destruct (apply Q srt dfuel (SRestricted _) _ _ _) as [[[d2 b2] pb]|]; [|reflexivity]. cbn [bind]. destruct (negb _ && negb _); [|reflexivity].
      destruct (computeCutSet d1) as [cs|]; [|reflexivity]. cbn [bind]. apply LL. }
    rewrite E. destruct (bb_node Q srt dfuel mxw (popped s q h) q); [|reflexivity]. cbn [bind fst snd]. apply IH.
Qed.

(** ** the vocabulary does not depend on the local bound *)
Section Transport.
Context {St : Type} (P : prob St) (f : option (St -> bool -> Z)).
Notation Q := (relocal P f).
Lemma rl_path s ls v t : path Q s ls v t <-> path P s ls v t.
Proof.
  split; induction 1 as [|s l s' ls v t Hn Hl S Hp IH]; [constructor| |constructor|].
  - exact (path_cons P s l s' ls v t Hn Hl S IH).
  - exact (path_cons Q s l s' ls v t Hn Hl S IH).
Qed.
Lemma rl_compl s v : compl Q s v <-> compl P s v.
Proof. split; intros (ls & H); exists ls; now apply rl_path. Qed.
Lemma rl_genuine a b c d e g : genuine Q a b c d e g <-> genuine P a b c d e g.
Proof. split; intros (ls & v & E1 & E2 & H); exists ls, v; csplit; auto; now apply rl_path. Qed.
Lemma rl_range s b : in_range Q s b <-> in_range P s b.
Proof. split; intros H ls v t Hp; apply (H ls v t); now apply rl_path. Qed.
Lemma rl_solution s b V : solution Q s b V <-> solution P s b V.
Proof. split; intros (v & C & E); exists v; split; auto; now apply rl_compl. Qed.
Lemma rl_relaxes a b : relaxes Q a b <-> relaxes P a b.
Proof. split; intros H v Hv; apply rl_compl in Hv; destruct (H v Hv) as (v' & C & B); exists v'; split; auto; now apply rl_compl. Qed.
Lemma rl_node n : node_ok Q n <-> node_ok P n.
Proof. split; intros [G T]; split; auto; now apply rl_genuine. Qed.
Lemma rl_log p0 b vs : log_of Q p0 b vs <-> log_of P p0 b vs.
Proof.
  split; intros (A & R); split; auto; clear R; induction A; constructor; auto; now apply rl_genuine.
Qed.
Lemma rl_sinv p0 s : sinv Q p0 s <-> sinv P p0 s.
Proof.
  split; intros [A1 A2 A3 A4 A5 (vs & A6)]; (constructor; auto; [eapply Forall_impl; [|exact A1]; intros n Hn; now apply rl_node|exists vs; now apply rl_log]).
Qed.
Lemma rl_covers n V : covers Q n V <-> covers P n V.
Proof. split; intros (v & C & B); exists v; split; auto; now apply rl_compl. Qed.
Lemma rl_qcovers pool es V : q_covers Q pool es V <-> q_covers P pool es V.
Proof. split; intros (q & H & C); exists q; split; auto; now apply rl_covers in C. Qed.
Lemma rl_held s V : held Q s V <-> held P s V.
Proof. split; (intros [H|H]; [now left|right; now apply rl_qcovers in H]). Qed.
Lemma rl_key pool p q : key_ok Q pool p q <-> key_ok P pool p q.
Proof. split; intros H v C; apply (H v); now apply rl_compl. Qed.
Lemma rl_keys s : keys_ok Q s <-> keys_ok P s.
Proof. split; intros H q Hq; apply rl_key; auto. Qed.
Lemma rl_qdom I : valid_qdom Q I <-> valid_qdom P I.
Proof. split; intros H sdom a b E Ia Ib Na Nb D; apply rl_relaxes; eapply H; eauto. Qed.
Lemma rl_narrow s w : narrow Q s w <-> narrow P s w.
Proof.
  split; intros Nw k l ND H; apply (Nw k l ND); intros x Hx; destruct (H x Hx) as [A (ls & v & B & C)]; (split; [exact A|]); exists ls, v; (split; [now apply rl_path|exact C]).
Qed.
(** validity of the other closures *)
Lemma rl_model I rank N : valid_model P I rank N -> (forall g s ctx v, f = Some g -> I s -> compl P s v -> be P (g s ctx) v) -> valid_model Q I rank N.
Proof.
  intros [A1 A2 A3 A4 A5 A6 A7 _] L. constructor; auto.
  - destruct A1. constructor; auto.
  - intros a b m Ia Ib Na Nb R E. destruct (A5 a b m Ia Ib Na Nb R E). split; now apply rl_relaxes.
  - intros sdom a b E Ia Ib Na Nb R D. apply rl_relaxes. eapply A6; eauto.
  - intros g s ctx v E Is C. apply (L g s ctx v E Is). now apply rl_compl in C.
Qed.
End Transport.

(** ** the search *)
Section Loc.
Context {St M : Type} (P : prob St) (I : St -> Prop) (rank : St -> nat) (N : nat).
Variables (locD : M -> St -> Z) (locB : M -> St -> Z * M) (Mok : M -> Prop).
Hypothesis VM : valid_model P I rank N.
Hypothesis HI : I (p_init P).
Hypothesis Hrange : in_range P (p_init P) 0.
Variable srt : dd St -> list nat -> list nat.
Hypothesis Hsrt : forall d l, Permutation (srt d l) l.
Variable dfuel : nat.
Hypothesis Hfuel : N + 1 < dfuel.
Variable mxw : nat.
Hypothesis Hmxw : (N.of_nat mxw < 4294967296)%N.
Variable p0 : Z.
Hypothesis Hp0 : be P p0 (sentinel P).
(** every state of the bound that can occur gives valid bounds *)
Hypothesis HL : forall m, Mok m -> forall s v, I s -> compl P s v -> be P (locD m s) v /\ be P (fst (locB m s)) v.
Hypothesis HM : forall m s, Mok m -> I s -> Mok (snd (locB m s)).
Notation atm := (atm P locD locB).
Notation sst := (@sst St).

Lemma at_model m : Mok m -> valid_model (atm m) I rank N.
Proof.
  intros Hm. apply rl_model; auto. intros g s ctx v E Is C. injection E as <-. destruct (HL m Hm s v Is C). destruct ctx; auto.
Qed.
Lemma at_init m : I (p_init (atm m)). Proof. exact HI. Qed.
Lemma at_range m : in_range (atm m) (p_init (atm m)) 0. Proof. now apply rl_range. Qed.
Lemma node_IM n : node_ok P n -> I (n_state n).
Proof. intros H. exact (node_I P I rank N VM HI n H). Qed.

Lemma cut_loopM_ok d : forall cs s m, Mok m -> sinv P p0 s -> (forall i, In i cs -> node_ok P (d_nd d i)) ->
  exists s' m', cut_loopM P locD locB d (s, m) cs = Ok (s', m') /\ Mok m' /\ sinv P p0 s' /\ cut_frame s s' /\
   ((forall i v, In i cs -> compl P (n_state (d_nd d i)) v -> bt P (n_bound (d_nd d i) + v) (b_primal (s_b s)) -> be P (n_bb (d_nd d i)) v) ->
    (keys_ok P s -> keys_ok P s') /\
    (valid_qdom P I -> s_seen s' = s_seen s -> forall V, held P s V \/ (exists i, In i cs /\ covers P (d_nd d i) V) -> held P s' V)).
Proof.
  induction cs as [|i cs IH]; intros s m Hm V Nk; cbn [cut_loopM].
  - exists s, m. csplit; auto using cut_frame_refl. intros _. split; auto. intros _ _ V0 [?|(? & [] & _)]; auto.
  - pose proof (Nk i (or_introl eq_refl)) as Ni.
    destruct (cut_step_ok (atm m) I rank N (at_model m Hm) (at_init m) srt Hsrt dfuel Hfuel mxw Hmxw p0 d s i) as (s1 & E1 & V1 & F1 & K1 & C1);
      [now apply rl_sinv|now apply rl_node|]. apply (proj1 (rl_sinv P _ _ _)) in V1.
    unfold cut_stepM. cbn [fst snd]. rewrite E1. cbn [bind].
    set (m1 := if length (s_pool s) <? length (s_pool s1) then snd (locB m (n_state (d_nd d i))) else m).
    assert (Hm1 : Mok m1). { unfold m1. destruct (_ <? _); auto. apply HM; auto. now apply node_IM. }
    destruct (IH s1 m1 Hm1 V1 (fun j Hj => Nk j (or_intror Hj))) as (s' & m' & E' & Hm' & V' & F' & X'). exists s', m'. csplit; auto.
    + eapply cut_frame_trans; eauto.
    + intros HB. destruct X' as [K' C'].
      { intros j v Hj. rewrite (cf_b _ _ F1). apply HB. now right. }
      assert (HBi : forall v, compl (atm m) (n_state (d_nd d i)) v -> bt (atm m) (n_bound (d_nd d i) + v) (b_primal (s_b s)) -> be (atm m) (n_bb (d_nd d i)) v).
      { intros v Cv Bv. apply (proj1 (rl_compl P _ _ _)) in Cv. apply (HB i v); auto. now left. }
      split.
      * intros K. apply K'. apply (proj1 (rl_keys P (Some (loc_at locD locB m)) s1)). apply K1; auto. now apply rl_keys.
      * intros QD Es V0 HV. pose proof (cf_seen _ _ F1). pose proof (cf_seen _ _ F').
        apply C'; auto; [lia|].
        destruct HV as [HV|(j & [<-|Hj] & HV)]; [left|left|right; eauto].
        -- apply (rl_held P (Some (loc_at locD locB m))). apply C1; auto; [now apply rl_qdom|lia|]. left. now apply rl_held.
        -- apply (rl_held P (Some (loc_at locD locB m))). apply C1; auto; [now apply rl_qdom|lia|]. right. now apply rl_covers.
Qed.

Lemma apply_relaxedM m w d from b vs : Mok m -> node_ok P from -> log_of P p0 b vs ->
  exists d1 b1 db vs1, apply (atm m) srt dfuel (SRelaxed w) d from b = Ok (d1, b1, db) /\ log_of P p0 b1 vs1 /\ be P (b_primal b1) (b_primal b) /\
    rx_compute (atm m) srt dfuel (initFrom (atm m) d from) (b_primal b) w = Ok d1 /\
    (db = false -> b1 = b /\ forall V, covers P from V -> be P (b_primal b1) V) /\
    (d_exact d1 = true -> forall V, covers P from V -> be P (b_primal b1) V) /\
    (d_exact d1 = false -> b1 = b).
Proof.
  intros Hm Nk L.
  destruct (apply_relaxed (atm m) I rank N (at_model m Hm) (at_init m) (at_range m) srt Hsrt dfuel Hfuel mxw Hmxw p0 Hp0 w d from b vs) as
    (d1 & b1 & db & vs1 & E1 & L1 & P1 & RX & DBF & DX & DI); [now apply rl_node|now apply rl_log|].
  exists d1, b1, db, vs1. csplit; auto.
  - exact (proj1 (rl_log P _ _ _ _) L1).
  - intros E. destruct (DBF E) as [E' H]. split; auto. intros V HV. apply H. now apply rl_covers.
  - intros E V HV. apply (DX E). now apply rl_covers.
Qed.
Lemma apply_restrictedM m d from b vs : Mok m -> node_ok P from -> log_of P p0 b vs ->
  exists d2 b2 pb vs2, apply (atm m) srt dfuel (SRestricted mxw) d from b = Ok (d2, b2, pb) /\ log_of P p0 b2 vs2 /\ be P (b_primal b2) (b_primal b) /\
    (d_exact d2 = true -> forall V, covers P from V -> be P (b_primal b2) V).
Proof.
  intros Hm Nk L.
  destruct (apply_restricted (atm m) I rank N (at_model m Hm) (at_init m) (at_range m) srt Hsrt dfuel Hfuel mxw Hmxw p0 Hp0 d from b vs) as
    (d2 & b2 & pb & vs2 & E2 & L2 & P2 & RE); [now apply rl_node|now apply rl_log|].
  exists d2, b2, pb, vs2. csplit; auto.
  - exact (proj1 (rl_log P _ _ _ _) L2).
  - intros E V HV. apply (RE E). now apply rl_covers.
Qed.

Lemma bb_nodeM_ok s m q : Mok m -> sinv P p0 s -> fst q < length (s_pool s) ->
  exists s' m', bb_nodeM P locD locB srt dfuel mxw s m q = Ok (s', m') /\ Mok m' /\ sinv P p0 s' /\ node_frame P s s' /\ (keys_ok P s -> keys_ok P s') /\
   (valid_qdom P I -> key_ok P (s_pool s) (b_primal (s_b s)) q -> s_seen s' = s_seen s -> hist_ok P s' ->
     forall V, held P s V \/ covers P (pool_node P (s_pool s) (fst q)) V -> held P s' V).
Proof.
  intros Hm V Hq. unfold bb_nodeM. cbn zeta. set (from := pool_node P (s_pool s) (fst q)).
  assert (Nf : node_ok P from). { pose proof (i_pool _ _ _ V) as FP. rewrite Forall_forall in FP. apply FP. now apply pool_node_in. }
  destruct (i_log _ _ _ V) as [vs L].
  destruct (isBetter P (snd q) (b_primal (s_b s))) eqn:C; cbn [negb].
  2:{ apply isBetter_nbt in C. eexists _, m. split; [reflexivity|]. split; auto. csplit.
      - apply sinv_run; eauto.
      - constructor; cbn; auto using be_refl. exists []; auto.
      - intros K. exact K.
      - intros _ K _ _ V0 [HV|(v & Cv & Bv)]; [exact HV|]. left. cbn.
        destruct (isBetter P (n_bound from + v) (b_primal (s_b s))) eqn:C2; [|apply isBetter_nbt in C2; vlia].
        apply isBetter_bt in C2. specialize (K v Cv C2). fold from in K. vlia. }
  destruct (apply_relaxedM m (s_w s) (s_relaxed s) from (s_b s) vs Hm Nf L) as (d1 & b1 & db & vs1 & E1 & L1 & P1 & RX & DBF & DX & DI).
  rewrite E1. cbn [bind].
  assert (Mono : forall s', s_pool s' = s_pool s -> s_pq s' = s_pq s -> be P (b_primal (s_b s')) (b_primal (s_b s)) ->
    (keys_ok P s -> keys_ok P s') /\ (forall V0, held P s V0 -> held P s' V0)).
  { intros s' Ep Eq Lp. unfold keys_ok, held. rewrite Ep, Eq. split.
    - intros K q' Hq'. eapply key_mono; eauto.
    - intros V0 [H|H]; auto. left. vlia. }
  destruct db.
  2:{ destruct (DBF eq_refl) as [-> DB]. eexists _, m. split; [reflexivity|]. split; auto.
      match goal with |- sinv _ _ ?s' /\ _ => destruct (Mono s' eq_refl eq_refl P1) as [M1 M2] end. csplit.
      - apply sinv_run; eauto.
      - constructor; cbn; auto. exists []; auto.
      - exact M1.
      - intros _ _ _ _ V0 [HV|HV]; auto. left. cbn. auto. }
  destruct (apply_restrictedM m (s_restr s) from b1 vs1 Hm Nf L1) as (d2 & b2 & pb & vs2 & E2 & L2 & P2 & RE). rewrite E2. cbn [bind].
  assert (P12 : be P (b_primal b2) (b_primal (s_b s))) by vlia.
  destruct (negb (d_exact d2) && negb (d_exact d1)) eqn:X.
  2:{ eexists _, m. split; [reflexivity|]. split; auto.
      match goal with |- sinv _ _ ?s' /\ _ => destruct (Mono s' eq_refl eq_refl P12) as [M1 M2] end. csplit.
      - apply sinv_run; eauto.
      - constructor; cbn; auto. exists []; auto.
      - exact M1.
      - intros _ _ _ _ V0 [HV|HV]; auto. left. cbn. apply andb_false_iff in X as [X|X]; apply negb_false_iff in X; auto.
        pose proof (DX X V0 HV). vlia. }
  apply andb_true_iff in X as [_ X]. apply negb_true_iff in X. pose proof (DI X) as ->.
  pose proof (node_IM _ Nf) as Is. pose proof Nf as [G Nt].
  pose proof (at_model m Hm) as VQ. set (R := atm m) in *.
  assert (Rg : in_range R (n_state from) (n_bound from)). { apply rl_range. eapply in_range_step; eauto. }
  pose proof (started_from R (s_relaxed s) from) as S0. assert (F : N + 1 < dfuel + rank (n_state from)) by lia.
  destruct (relaxed_cutset R I rank N VQ _ _ _ Nt Is Rg srt Hsrt dfuel _ (b_primal (s_b s)) (s_w s) d1 S0 F RX) as (cs & Ec & ND & CN & CC).
  rewrite Ec. cbn [bind].
  set (s1 := run_upd s b2 d1 d2 (S (s_nNode s)) (S (s_ttl s)) ((d1, b_primal b2) :: s_hist s)).
  destruct (Mono s1 eq_refl eq_refl P12) as [M1 M2].
  assert (V1 : sinv P p0 s1) by (apply sinv_run; eauto).
  assert (NC : forall i, In i cs -> node_ok P (d_nd d1 i)).
  { intros i Hi. destruct (CN i Hi) as (_ & B1 & _ & B2). split; auto. eapply genuine_trans; [exact G|]. apply (rl_genuine P (Some (loc_at locD locB m))). exact B2. }
  destruct (cut_loopM_ok d1 cs s1 m Hm V1 NC) as (s' & m' & E' & Hm' & V' & F' & X').
  exists s', m'. split; [exact E'|]. split; [exact Hm'|].
  destruct X' as [K' C'].
  { intros i v Hi Cv Bv. cbn in Bv. destruct (CN i Hi) as (B1 & B2 & _ & _).
    apply (relaxed_backward R I rank N VQ _ _ _ Nt Is Rg srt Hsrt dfuel _ (b_primal (s_b s)) (s_w s) d1 S0 F RX i v B1); auto.
    - intros Et. destruct (relaxed_dual_bound R I rank N VQ _ _ _ Nt Is Rg srt Hsrt dfuel _ (b_primal (s_b s)) (s_w s) d1 S0 F RX) as (t & Et' & St' & _).
      unfold trg_node in Et'. rewrite Et in Et'. injection Et' as <-. auto.
    - now apply rl_compl.
    - change (bt P (n_bound (d_nd d1 i) + v) (b_primal (s_b s))). vlia. }
  csplit; auto.
  - destruct F' as [f1 f2 f3 f4 f5 f6]. constructor; auto.
    + rewrite f1. exact P12.
    + rewrite f3. exists [(d1, b_primal b2)]. auto.
  - intros QD Kq Es HH V0 HV. apply C'; auto.
    destruct HV as [HV|HV]; [left; auto|].
    destruct HV as (v0 & Cv0 & LV). set (U := (n_bound from + v0)%Z) in *. assert (SV : solution R (n_state from) (n_bound from) U) by (exists v0; split; auto; now apply rl_compl).
    destruct (isBetter P U (b_primal (s_b s))) eqn:CV.
    2:{ left. left. cbn. apply isBetter_nbt in CV. vlia. }
    apply isBetter_bt in CV. destruct (CC U SV CV) as [(i & v & Hi & Cv & Bv)|(i & l & sink & Hi & Xi & _ & Hl & Hs & _ & Bv)].
    + right. exists i. split; auto. exists v. change (be P (n_bound (d_nd d1 i) + v) U) in Bv. split; [exact (proj1 (rl_compl P _ _ _) Cv)|vlia].
    + left. left. cbn. assert (Hd : In (d1, b_primal b2) (s_hist s')) by (rewrite (cf_hist _ _ F'); now left).
      pose proof (HH _ _ Hd i l Hi Xi Hl Hs) as Q. change (be P (n_bound (d_nd d1 i) + p_cost P (n_state (d_nd d1 i)) l) U) in Bv. vlia.
Qed.

Lemma bb_nodeM_wide s m q : Mok m -> sinv P p0 s -> fst q < length (s_pool s) -> key_ok P (s_pool s) (b_primal (s_b s)) q ->
  narrow P (n_state (pool_node P (s_pool s) (fst q))) (s_w s) ->
  exists s', bb_nodeM P locD locB srt dfuel mxw s m q = Ok (s', m) /\ s_pq s' = s_pq s /\ s_ttl s' = S (s_ttl s) /\
    forall V, covers P (pool_node P (s_pool s) (fst q)) V -> be P (b_primal (s_b s')) V.
Proof.
  intros Hm V Hq K Nw. unfold bb_nodeM. cbn zeta. set (from := pool_node P (s_pool s) (fst q)) in *.
  assert (Nf : node_ok P from). { pose proof (i_pool _ _ _ V) as FP. rewrite Forall_forall in FP. apply FP. now apply pool_node_in. }
  destruct (i_log _ _ _ V) as [vs L].
  destruct (isBetter P (snd q) (b_primal (s_b s))) eqn:C; cbn [negb].
  2:{ apply isBetter_nbt in C. eexists. split; [reflexivity|]. csplit; auto. intros V0 (v & Cv & Bv). cbn.
      destruct (isBetter P (n_bound from + v) (b_primal (s_b s))) eqn:C2; [|apply isBetter_nbt in C2; vlia].
      apply isBetter_bt in C2. specialize (K v Cv C2). fold from in K. vlia. }
  destruct (apply_relaxedM m (s_w s) (s_relaxed s) from (s_b s) vs Hm Nf L) as (d1 & b1 & db & vs1 & E1 & L1 & P1 & RX & DBF & DX & DI).
  rewrite E1. cbn [bind]. pose proof (node_IM _ Nf) as Is. pose proof Nf as [G Nt].
  assert (Rg : in_range (atm m) (n_state from) (n_bound from)). { apply rl_range. eapply in_range_step; eauto. }
  assert (X : d_exact d1 = true).
  { apply (relaxed_wide (atm m) I rank N (at_model m Hm) (n_state from) (n_bound from) (n_lab from) (proj2 Nf) Is Rg srt Hsrt (s_w s)
      (proj2 (rl_narrow P _ _ _) Nw) (b_primal (s_b s)) dfuel (initFrom (atm m) (s_relaxed s) from)); auto; [apply started_from|lia]. }
  destruct db.
  2:{ eexists. split; [reflexivity|]. csplit; auto. }
  destruct (apply_restrictedM m (s_restr s) from b1 vs1 Hm Nf L1) as (d2 & b2 & pb & vs2 & E2 & L2 & P2 & RE). rewrite E2. cbn [bind].
  rewrite X, andb_false_r. eexists. split; [reflexivity|]. csplit; auto. intros V0 HV. pose proof (DX X V0 HV). cbn. vlia.
Qed.

(** *** the loop *)
Variable lim : nat -> bool.
Notation bb_loopM := (bb_loopM P locD locB srt dfuel lim).
Lemma bb_loopM_ok : forall fuel k s m s' m' e, Mok m -> sinv P p0 s -> at_head s -> bb_loopM fuel mxw k s m = Ok (s', m', e) ->
  Mok m' /\ sinv P p0 s' /\ end_ok s' e /\ be P (b_primal (s_b s')) (b_primal (s_b s)) /\ s_seen s <= s_seen s' /\ (exists x, s_hist s' = x ++ s_hist s) /\
  (valid_qdom P I -> keys_ok P s -> s_seen s' = s_seen s -> hist_ok P s' -> forall V, held P s V -> held_end P s' e V).
Proof.
  induction fuel as [|fuel IH]; intros k s m s' m' e Hm V A E; cbn [SearchLoc.bb_loopM] in E.
  - destruct (heap_empty (s_pq s)) eqn:H0; [|discriminate]. injection E as <- <- <-. apply empty_elems in H0; [|apply (i_heap _ _ _ V)].
    csplit; auto using be_refl; [split; auto; unfold entries; exact (f_equal (map snd) H0)|exists []; auto|]. intros _ _ _ _ V0 HV. now left.
  - destruct (heap_empty (s_pq s)) eqn:H0.
    + injection E as <- <- <-. apply empty_elems in H0; [|apply (i_heap _ _ _ V)].
      csplit; auto using be_refl; [split; auto; unfold entries; exact (f_equal (map snd) H0)|exists []; auto|]. intros _ _ _ _ V0 HV. now left.
    + destruct (heap_extractMax (q_ord P) (s_pq s)) as [[q h]|] eqn:EX; [|discriminate].
      destruct (popped_ok P p0 s q h V EX) as (V1 & Pm & Hq & K1 & C1).
      destruct (lim k).
      * injection E as <- <- <-. assert (end_ok (popped s q h) (Limited q)) by (cbn; rewrite <- A; auto).
        csplit; auto using be_refl; try (exists []; reflexivity).
      * apply bind_ok in E as ([s1 m1] & E1 & E). cbn [fst snd] in E.
        destruct (bb_nodeM_ok (popped s q h) m q Hm V1 Hq) as (s1' & m1' & E1' & Hm1 & V2 & F2 & K2 & C2). rewrite E1 in E1'. injection E1' as <- <-.
        destruct (IH (S k) s1 m1 s' m' e Hm1 V2) as (Hm3 & V3 & E3 & P3 & S3 & (x & X3) & C3); auto.
        { unfold at_head. rewrite (nf_out _ _ _ F2), (nf_ttl _ _ _ F2). cbn. now rewrite <- A. }
        destruct F2 as [f1 f2 f3 f4 (y & f5)]. cbn in f3, f4, f5. csplit; auto; [vlia|lia|exists (x ++ y); rewrite X3, f5; apply app_assoc|].
        intros QD K Es HH V0 HV. destruct (K1 K) as [K1a K1b].
        assert (HH1 : hist_ok P s1). { intros d p Hd. apply HH. rewrite X3. apply in_or_app. auto. }
        apply C3; auto; [lia|]. apply C2; auto; cbn; lia.
Qed.
Lemma bb_loopM_total (L : list St) : (forall s, s <> p_target P -> (exists ls v, path P (p_init P) ls v s) -> In s L) ->
  forall fuel k s m, Mok m -> sinv P p0 s -> length L <= fuel + length (s_out s) -> exists s' m' e, bb_loopM fuel mxw k s m = Ok (s', m', e).
Proof.
  intros HLst. induction fuel as [|fuel IH]; intros k s m Hm V F; cbn [SearchLoc.bb_loopM].
  - destruct (heap_empty (s_pq s)) eqn:H0; [eauto|]. exfalso.
    assert (Q : length (s_out s ++ entries (s_pq s)) <= length L).
    { transitivity (length (s_pool s)).
      - rewrite <- (map_length (fst : qnode -> nat) (s_out s ++ entries (s_pq s))), <- (seq_length (length (s_pool s)) 0). apply NoDup_incl_length; [apply (i_ndq _ _ _ V)|].
        intros i Hi. apply in_map_iff in Hi as (q & <- & Hq). apply in_seq. pose proof (i_idx _ _ _ V q Hq). lia.
      - rewrite <- (map_length n_state (s_pool s)). apply NoDup_incl_length; [apply (i_nds _ _ _ V)|].
        intros x Hx. apply in_map_iff in Hx as (n & <- & Hn). pose proof (i_pool _ _ _ V) as FP. rewrite Forall_forall in FP.
        destruct (FP n Hn) as [(ls & v & _ & _ & Pt) Nt]. apply HLst; eauto. }
    rewrite app_length in Q.
    assert (entries (s_pq s) = []) by (destruct (entries (s_pq s)); auto; cbn in Q; lia).
    assert (heap_elems (s_pq s) = []) by (unfold entries in H; destruct (heap_elems (s_pq s)); auto; discriminate).
    apply (empty_elems (s_pq s)) in H1; [|apply (i_heap _ _ _ V)]. congruence.
  - destruct (heap_empty (s_pq s)) eqn:H0; [eauto|].
    destruct (extractMax_some (q_ord P) (s_pq s)) as (q & h & EX); [apply (i_heap _ _ _ V)| |].
    { intros H. apply (empty_elems (s_pq s)) in H; [|apply (i_heap _ _ _ V)]. congruence. }
    rewrite EX. destruct (lim k); [eauto|]. destruct (popped_ok P p0 s q h V EX) as (V1 & _ & Hq & _).
    destruct (bb_nodeM_ok (popped s q h) m q Hm V1 Hq) as (s1 & m1 & -> & Hm1 & V2 & F2 & _). cbn [bind fst snd]. apply IH; auto.
    rewrite (nf_out _ _ _ F2). cbn. lia.
Qed.
End Loc.

(** ** the statements *)
(** a local bound with state: each state that can occur gives valid bounds *)
Record loc_ok {St M} (P : prob St) (I : St -> Prop) (locD : M -> St -> Z) (locB : M -> St -> Z * M) (Mok : M -> Prop) : Prop := {
  lo_valid : forall m, Mok m -> forall s v, I s -> compl P s v -> be P (locD m s) v /\ be P (fst (locB m s)) v;
  lo_step : forall m s, Mok m -> I s -> Mok (snd (locB m s)) }.

Section Statements.
Context {St M : Type} (P : prob St) (locD : M -> St -> Z) (locB : M -> St -> Z * M) (Mok : M -> Prop).
Context (I : St -> Prop) (rank : St -> nat) (N : nat) (srt : dd St -> list nat -> list nat) (dfuel mxw : nat).
Hypothesis SE : setting P I rank N srt dfuel mxw.
Hypothesis LO : loc_ok P I locD locB Mok.
Variable lim : nat -> bool.
Variable user : option Z.
Let p0 := match user with Some p => p | None => sentinel P end.
Hypothesis Hp0 : be P p0 (sentinel P).
Variable m0 : M.
Hypothesis Hm0 : Mok m0.
Notation Q0 := (atm P locD locB m0).
Notation s0 := (bb_start (atm P locD locB m0) mxw user).
Lemma startM_inv : sinv P p0 s0.
Proof.
  destruct SE as [A1 A2 A3 A4 A5 A6 A7]. assert (E : p0 = b_primal (attach P user)) by (unfold p0, attach; destruct user; reflexivity). rewrite E.
  apply (rl_sinv P (Some (loc_at locD locB m0))). exact (start_inv Q0 N A2 dfuel A6 lim mxw A7 user).
Qed.
Lemma startM_keys : keys_ok P s0.
Proof.
  destruct SE as [A1 A2 A3 A4 A5 A6 A7]. intros q Hq. destruct (start_entries Q0 mxw user) as (key & E & Ek & _). destruct (start_root Q0 mxw user) as [R1 R2].
  rewrite E in Hq. destruct Hq as [<-|[]]. intros v. cbn [fst snd]. change (pool_node P) with (pool_node Q0). rewrite R1, R2. intros Cv _. rewrite Ek.
  cbn [atm relocal p_local]. rewrite Z.add_0_l. exact (proj2 (lo_valid _ _ _ _ _ LO m0 Hm0 _ v A3 Cv)).
Qed.
Lemma startM_held V : solution P (p_init P) 0 V -> held P s0 V.
Proof. intros SV. apply (rl_held P (Some (loc_at locD locB m0))). apply start_held. now apply rl_solution. Qed.
Lemma startM_mok : Mok (snd (locB m0 (p_init P))).
Proof. apply (lo_step _ _ _ _ _ LO); auto. exact (se_I _ _ _ _ _ _ _ SE). Qed.

Section Run.
Variables (fuel : nat) (s : @sst St) (m : M) (e : ending).
Hypothesis E : searchM P locD locB srt dfuel lim m0 fuel mxw user = Ok (s, m, e).
Lemma runM_facts : Mok m /\ sinv P p0 s /\ end_ok s e /\
  (valid_qdom P I -> s_seen s = 0 -> hist_ok P s -> forall V, solution P (p_init P) 0 V -> held_end P s e V).
Proof.
  pose proof SE as [A1 A2 A3 A4 A5 A6 A7].
  destruct (bb_loopM_ok P I rank N locD locB Mok A1 A3 A4 srt A5 dfuel A6 mxw A7 p0 Hp0 (lo_valid _ _ _ _ _ LO) (lo_step _ _ _ _ _ LO) lim fuel 0 _ _ s m e
    startM_mok startM_inv (at_head_start Q0 mxw user) E) as (B0 & B1 & B2 & _ & _ & _ & B3).
  csplit; auto. intros QD Es HH V SV. apply B3; auto.
  - exact startM_keys.
  - exact (startM_held V SV).
Qed.
Lemma searchM_genuine : (b_primal (s_b s) <> p0 -> genuine P (p_init P) 0 [] (p_target P) (b_primal (s_b s)) (b_inc (s_b s))) /\
  (forall ls, In ls (b_log (s_b s)) -> exists v, genuine P (p_init P) 0 [] (p_target P) v ls /\ bt P v p0).
Proof.
  destruct runM_facts as (_ & V & _). destruct (i_log _ _ _ V) as (vs & A1 & A2 & A3 & A4 & A5). split.
  - rewrite A4, A5. destruct A1; cbn; [congruence|auto].
  - intros ls Hl. clear - Hl A1 A3. induction A1 as [|x v l vs G A1 IH]; [destruct Hl|]. inversion A3; subst. destruct Hl as [<-|Hl]; eauto.
Qed.
Lemma searchM_optimal : e = Emptied -> valid_qdom P I -> s_seen s = 0 -> hist_ok P s ->
  forall V, solution P (p_init P) 0 V -> be P (b_primal (s_b s)) V.
Proof.
  intros Ee QD Es HH V SV. destruct runM_facts as (_ & _ & En & C). rewrite Ee in En. destruct En as [En _].
  destruct (C QD Es HH V SV) as [[C1|(q & Hq & _)]|C1]; auto.
  - rewrite En in Hq. destruct Hq.
  - rewrite Ee in C1. destruct C1.
Qed.
End Run.

Lemma searchM_total L : (forall s, s <> p_target P -> (exists ls v, path P (p_init P) ls v s) -> In s L) ->
  forall fuel, length L <= fuel -> exists s m e, searchM P locD locB srt dfuel lim m0 fuel mxw user = Ok (s, m, e).
Proof.
  intros HL fuel F. pose proof SE as [A1 A2 A3 A4 A5 A6 A7].
  apply (bb_loopM_total P I rank N locD locB Mok A1 A3 A4 srt A5 dfuel A6 mxw A7 p0 Hp0 (lo_valid _ _ _ _ _ LO) (lo_step _ _ _ _ _ LO) lim L HL fuel 0).
  - exact startM_mok.
  - exact startM_inv.
  - lia.
Qed.
Lemma searchM_narrow fuel : lim 0 = false -> narrow P (p_init P) mxw -> 1 <= fuel ->
  exists s m, searchM P locD locB srt dfuel lim m0 fuel mxw user = Ok (s, m, Emptied) /\ s_ttl s = 1 /\ (forall V, solution P (p_init P) 0 V -> be P (b_primal (s_b s)) V) /\
    (b_primal (s_b s) <> p0 -> genuine P (p_init P) 0 [] (p_target P) (b_primal (s_b s)) (b_inc (s_b s))).
Proof.
  intros L0 Nw F. destruct fuel as [|f]; [lia|].
  enough (X : exists s m, searchM P locD locB srt dfuel lim m0 (S f) mxw user = Ok (s, m, Emptied) /\ s_ttl s = 1 /\ forall V, solution P (p_init P) 0 V -> be P (b_primal (s_b s)) V).
  { destruct X as (s & m & E & T & O). exists s, m. csplit; auto. apply (proj1 (searchM_genuine (S f) s m Emptied E)). }
  pose proof SE as [A1 A2 A3 A4 A5 A6 A7]. pose proof startM_mok as Hm. set (m1 := snd (locB m0 (p_init P))) in *.
  unfold searchM. fold m1. pose proof startM_inv as V. pose proof startM_keys as K.
  destruct (start_entries Q0 mxw user) as (key & E & _ & Hh). destruct (start_proj Q0 mxw user) as (_ & _ & _ & Et & _ & _ & Ew). destruct (start_root Q0 mxw user) as [R1 R2].
  set (s0 := bb_start Q0 mxw user) in *. clearbody s0. cbn [bb_loopM].
  assert (Ne : heap_elems (s_pq s0) <> []) by (intros H; unfold entries in E; rewrite H in E; discriminate).
  destruct (heap_empty (s_pq s0)) eqn:H0. { apply (empty_elems (s_pq s0)) in H0; [|apply Hh]. exfalso. apply Ne, H0. }
  destruct (extractMax_some (q_ord P) (s_pq s0)) as (q & h & EX); [apply Hh|exact Ne|].
  rewrite EX, L0. destruct (popped_ok P _ s0 q h V EX) as (V1 & Pm & Hq & K1 & _). destruct (K1 K) as [_ Kq].
  rewrite E in Pm. apply Permutation_length_1_inv in Pm. injection Pm as -> Eh.
  destruct (bb_nodeM_wide P I rank N locD locB Mok A1 A3 A4 srt A5 dfuel A6 mxw A7 p0 Hp0 (lo_valid _ _ _ _ _ LO) (lo_step _ _ _ _ _ LO) (popped s0 (0, key) h) m1 (0, key) Hm V1 Hq Kq) as (s1 & E1 & B1 & B2 & B3).
  { cbn [popped s_pool s_w fst]. change (pool_node P) with (pool_node Q0). rewrite R1, Ew. exact Nw. }
  rewrite E1. cbn [bind fst snd].
  assert (H1 : heap_empty (s_pq s1) = true).
  { rewrite B1. cbn [popped s_pq]. apply (proj2 (empty_elems h (proj1 (i_heap _ _ _ V1)))). apply (map_eq_nil snd). exact Eh. }
  exists s1, m1. split; [destruct f; cbn [bb_loopM]; now rewrite H1|]. split; [rewrite B2; cbn; now rewrite Et|].
  intros V0 (v & Cv & ->). apply B3. exists v. cbn [popped s_pool fst]. change (pool_node P) with (pool_node Q0). rewrite R1, R2. split; auto. apply be_refl.
Qed.
End Statements.
