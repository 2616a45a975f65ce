(** Expansion of whole layers; the final diagram covers every improving solution. *)
From Verif Require Import Base DDModel DDSpec DDFrame DDInv DDLayer DDRestricted.
From Coq Require Import Sorting.Sorted.

Section Expand.
Context {St : Type}.
Variable P : prob St.
Variable I : St -> Prop.
Hypothesis HC : closed P I.
Notation dd := (dd St).
Variables (r t : nat) (rs : St) (rb : Z) (rl : list Z).
Hypothesis Hrs : rs <> p_target P.
Hypothesis Hrange : in_range P rs rb.
Variable rank : St -> nat.
Hypothesis Hlay : layered P I rank.
Hypothesis Hdom : valid_dom P I rank.
Hypothesis Hdt : dom_avoids_target P I rank.
Variable primal : Z.

Notation base := (base P I r t rs).
Notation gen := (gen P I r t rs rb rl).
Notation live := (live r).
Notation low := (low r t).
Notation EXPL := (EXPL P primal).
Notation linv mode := (linv P I r t rs rb rl rank primal mode).

(** start of the expansion of p *)
Lemma linv_begin mode d K p cur next : linv mode d K nobody nobody (p :: cur) next ->
  linv mode d K (eq p) nobody cur next.
Proof.
  intros H. destruct H. constructor; auto.
  - intros i Hi. apply l_cur. now right.
  - now inversion l_ndc.
  - intros C i Hi L N LK NC NP. apply l_exp; auto. intros [?|?]; auto.
Qed.
(** end of the expansion of p *)
Lemma linv_end mode d K p cur next : linv mode d K (eq p) nobody cur next ->
  (covers mode d -> forall l, In l (p_labels P (st d p)) -> EXPL d p l) ->
  linv mode d K nobody nobody cur next.
Proof.
  intros H E. destruct H. constructor; auto.
  intros C i Hi L N LK NC _ l Hl. destruct (Nat.eq_dec p i) as [<-|Ni]; auto.
Qed.
(** next layer *)
Lemma linv_shift mode d K next : linv mode d K nobody nobody [] next -> linv mode d (S K) nobody nobody next [].
Proof.
  intros H. destruct H. constructor; auto.
  - intros i [].
  - intros i Hi L N E. specialize (l_le i Hi N). lia.
  - intros C i Hi L N LK NC NP l Hl. apply l_exp; auto.
    destruct (Nat.eq_dec (lay d i) (S K)); [|lia]. exfalso. apply NC. auto.
Qed.

(** ** Restricted *)
Lemma rs_labels_linv : forall ls d K w cur q p,
  linv false d K (eq p) nobody cur q -> p < d_nn d -> live d p -> p <> t -> lay d p = K -> ~ In p cur ->
  (forall l, In l ls -> In l (p_labels P (st d p))) -> length q < w -> (N.of_nat w <= 4294967296)%N ->
  exists d' q' j, rs_labels P d primal w q p ls = Ok (d', q', j) /\ low K d d' /\
    (j = false -> linv false d' K (eq p) nobody cur q' /\ d_exact d' = d_exact d /\ st d' p = st d p /\ length q' < w /\
       (forall l, In l ls -> EXPL d' p l) /\ (forall l, EXPL d p l -> EXPL d' p l)) /\
    (j = true -> linv false d' K nobody nobody [] q' /\ d_exact d' = false /\ length q' <= w).
Proof.
  induction ls as [|l ls IH]; intros d K w cur q p H Hp Lp Np Kp Nc HL LQ LW; cbn [rs_labels].
  - exists d, q, false. split; auto. split; [apply low_refl|]. split; [|discriminate]. intros _. csplit; auto. intros l [].
  - destruct (step_arc_linv P I HC r t rs rb rl Hrs Hrange rank Hlay Hdom Hdt primal false d K (eq p) cur q p l H Hp Lp Np Kp Nc eq_refl (HL l (or_introl eq_refl)))
      as (d1 & enq & E & H1 & D1 & N1 & S1 & B1 & L1 & K1 & X1 & O1 & Y1 & _ & W1).
    rewrite E. cbn [bind].
    assert (Rec : forall q1, linv false d1 K (eq p) nobody cur q1 -> length q1 < w ->
      exists d' q' j, rs_labels P d1 primal w q1 p ls = Ok (d', q', j) /\ low K d d' /\
        (j = false -> linv false d' K (eq p) nobody cur q' /\ d_exact d' = d_exact d /\ st d' p = st d p /\ length q' < w /\
           (forall l', l = l' \/ In l' ls -> EXPL d' p l') /\ (forall l, EXPL d p l -> EXPL d' p l)) /\
        (j = true -> linv false d' K nobody nobody [] q' /\ d_exact d' = false /\ length q' <= w)).
    { intros q1 HQ LQ1. destruct (IH d1 K w cur q1 p HQ) as (d' & q' & j & E' & W' & J1 & J2); auto; try lia.
      { intros l' Hl'. rewrite S1. apply HL. now right. }
      exists d', q', j. split; auto. split; [eapply low_trans; eauto|]. split; auto. intros Hj.
      destruct (J1 Hj) as (A1 & A2 & A3 & A4 & A5 & A6).
      csplit; auto; try congruence. intros l' [<-|Hl']; auto. }
    destruct enq as [c|]; cbn [pushq] in H1; [|now apply Rec].
    assert (Pm : Permutation (c :: q) (q ++ [c])) by apply Permutation_cons_append.
    assert (H1' : linv false d1 K (eq p) nobody cur (q ++ [c])) by (eapply linv_perm; eauto).
    assert (Lq : length (q ++ [c]) = S (length q)) by (rewrite app_length; cbn; lia).
    cbn zeta. destruct (rs_full (rs_estimate d1 (q ++ [c])) w) eqn:RF.
    + exists (with_dexact d1 false), (q ++ [c]), true. split; auto. split.
      { intros i Hi L N LK. exact (W1 i Hi L N LK). }
      split; [discriminate|]. intros _.
      split; [|split; [reflexivity|lia]].
      destruct H1'. constructor; auto.
      * now apply gen_dexact.
      * intros i [].
      * constructor.
      * discriminate.
      * intros [?|?]; discriminate.
    + apply Rec; auto. rewrite Lq. enough (S (length q) <> w) by lia. intros Ew.
      assert (Es : rs_estimate d1 (q ++ [c]) = length (q ++ [c])).
      { unfold rs_estimate. destruct (q ++ [c]) as [|n0 q0] eqn:Q0; auto.
        assert (F : forall q', (forall i, In i q' -> lay d1 i = S K) -> lay d1 n0 = S K ->
           filter (fun i => lay d1 i =? lay d1 n0) q' = q').
        { clear. induction q' as [|a q' IHq]; intros F1 F2; cbn; auto. rewrite (F1 a (or_introl eq_refl)), F2, Nat.eqb_refl.
          f_equal. rewrite F2 in IHq. apply IHq; auto. intros; apply F1; now right. }
        rewrite F; auto; [|apply (l_next H1'); now left]. intros i Hi. apply (l_next H1' i Hi). }
      unfold rs_full in RF. rewrite Es, Lq, Ew in RF.
      assert (0 < w) by lia.
      replace (N.of_nat w + 4294967295)%N with (N.of_nat w - 1 + 1 * 4294967296)%N in RF by lia.
      rewrite N.mod_add, N.mod_small in RF by lia. lia.
Qed.

Lemma rs_layer_linv : forall lk d K w q,
  linv false d K nobody nobody lk q -> length q < w -> (N.of_nat w <= 4294967296)%N ->
  exists d' q', rs_layer P d primal w q lk = Ok (d', q') /\ linv false d' K nobody nobody [] q' /\ length q' <= w /\ low K d d'.
Proof.
  induction lk as [|p lk IH]; intros d K w q H LQ LW; cbn [rs_layer].
  - exists d, q. csplit; auto; [lia|apply low_refl].
  - destruct (l_cur H p (or_introl eq_refl)) as (Hp & Lp & Np & Kp & _).
    pose proof (l_ndc H) as ND. apply NoDup_cons_iff in ND as [ND _].
    destruct (rs_labels_linv (p_labels P (st d p)) d K w lk q p (linv_begin _ _ _ _ _ _ H) Hp Lp Np Kp ND (fun l h => h) LQ LW)
      as (d1 & q1 & j & E & W & J1 & J2). rewrite E. cbn [bind]. destruct j.
    + destruct (J2 eq_refl) as (A1 & A2 & A3). exists d1, q1. auto.
    + destruct (J1 eq_refl) as (A1 & A2 & A3 & A4 & A5 & A6).
      destruct (IH d1 K w q1) as (d' & q' & E' & B1 & B2 & B3); auto.
      * apply linv_end with p; auto. intros _ l Hl. rewrite A3 in Hl. auto.
      * exists d', q'. csplit; auto. eapply low_trans; eauto.
Qed.

(** nodes of one layer that belong to the diagram *)
Definition width_le (w : nat) (K : nat) (d : dd) : Prop := forall k ns, k <= K -> NoDup ns ->
  (forall i, In i ns -> i < d_nn d /\ live d i /\ i <> t /\ lay d i = k) -> length ns <= w.

Lemma width_low w K d d' : low K d d' -> width_le w K d -> width_le w K d'.
Proof.
  intros L W k ns Hk ND H. apply (W k ns Hk ND). intros i Hi. destruct (H i Hi) as (H1 & H2 & H3 & H4).
  destruct (L i H1 H2 H3 ltac:(lia)) as (A1 & A2 & A3 & _). csplit; auto. congruence.
Qed.
Lemma width_next mode w K d cur next : width_le w K d -> linv mode d K nobody nobody cur next -> length next <= w -> width_le w (S K) d.
Proof.
  intros W H L k ns Hk ND HN. destruct (Nat.eq_dec k (S K)) as [->|]; [|apply (W k ns); auto; lia].
  etransitivity; [|exact L]. apply NoDup_incl_length; auto. intros i Hi. destruct (HN i Hi) as (A1 & A2 & A3 & A4).
  apply (l_top H); auto.
Qed.

Notation depth_le := (depth_le P I rank).

Lemma same_layer_all (d : dd) cL q : (forall i, In i q -> lay d i = cL) -> same_layer_prefix d cL q = (q, []).
Proof.
  induction q as [|i q IH]; intros H; cbn [same_layer_prefix]; auto.
  rewrite (H i (or_introl eq_refl)), Nat.eqb_refl, IH; auto. intros; apply H; now right.
Qed.

Lemma next_depth mode d K cur next N i : linv mode d K nobody nobody cur next -> depth_le N -> In i cur -> rank rs + K <= N.
Proof.
  intros H D Hi. destruct (l_cur H i Hi) as (A1 & A2 & A3 & A4 & _). pose proof (g_base (l_gen H)) as B.
  rewrite <- A4, <- (l_rank H i) by auto. apply D; [now apply (b_I B)|]. now rewrite (st_target B A1).
Qed.

Lemma rs_loop_linv : forall fuel d K w q N,
  linv false d K nobody nobody q [] -> 1 <= w -> (N.of_nat w <= 4294967296)%N -> width_le w K d ->
  depth_le N -> N + 1 < fuel + (rank rs + K) ->
  exists d' K', rs_loop P fuel d primal w q = Ok d' /\ linv false d' K' nobody nobody [] [] /\ width_le w K' d'.
Proof.
  induction fuel as [|fuel IH]; intros d K w q N H Hw LW WL D F; destruct q as [|n q]; cbn [rs_loop].
  - exists d, K. auto.
  - pose proof (next_depth _ _ _ _ _ N n H D (or_introl eq_refl)). lia.
  - exists d, K. auto.
  - destruct (rs_pull P d n q) as [lk q1] eqn:PL. pose proof PL as PL'. apply rs_pull_perm in PL' as (a & Eq & Pm & _).
    assert (q1 = [] /\ a = q) as [-> ->].
    { unfold rs_pull in PL. rewrite same_layer_all in PL.
      - injection PL as <- <-. rewrite app_nil_r in Eq. auto.
      - intros i Hi. destruct (l_cur H n (or_introl eq_refl)) as (_ & _ & _ & -> & _).
        apply (l_cur H i). now right. }
    assert (H1 : linv false d K nobody nobody lk []).
    { eapply linv_perm; [| |exact H]; auto. now symmetry. }
    destruct (rs_layer_linv lk d K w [] H1) as (d1 & q2 & E & H2 & LQ & LO); auto.
    rewrite E. cbn [bind].
    destruct (IH d1 (S K) w q2 N) as (d' & K' & E' & H' & W'); auto.
    + now apply linv_shift.
    + eapply width_next; eauto. eapply width_low; eauto.
    + lia.
    + exists d', K'. auto.
Qed.

(** ** the final diagram covers every improving completion *)
Hypothesis Hloc : valid_local P I.

(** path of the diagram from node i to node j along edges es, with total cost v *)
Inductive gpath (d : dd) : nat -> list nat -> Z -> nat -> Prop :=
| gp_nil i : gpath d i [] 0 i
| gp_cons e es v j : e < d_ne d -> gpath d (to d e) es v j -> gpath d (from d e) (e :: es) (obj d e + v) j.

Lemma fold_max_le (f : nat -> nat) n i : i < n -> f i <= fold_right Nat.max 0 (map f (seq 0 n)).
Proof.
  intros H. assert (In i (seq 0 n)) by (apply in_seq; lia). revert H0. generalize (seq 0 n).
  induction l as [|a l IH]; cbn; [intros []|]. intros [->|Hi]; [lia|]. specialize (IH Hi). lia.
Qed.

(** from any node of the final diagram every improving completion is matched by a path to the sink *)
Lemma cover mode d K : linv mode d K nobody nobody [] [] -> covers mode d ->
  forall i v, i < d_nn d -> live d i -> i <> t -> compl P (st d i) v -> bt P (bd d i + v) primal ->
  exists es w e, gpath d i es w t /\ be P w v /\ In e es /\ to d e = t /\ e < d_ne d /\
     be P (bd d (from d e) + obj d e) (bd d i + v).
Proof.
  intros H C. pose proof (l_gen H) as G. pose proof (g_base G) as B. destruct (b_t B) as [Ht Et].
  assert (Z : forall n i v, S K - lay d i < n -> i < d_nn d -> live d i -> i <> t -> compl P (st d i) v -> bt P (bd d i + v) primal ->
    exists es w e, gpath d i es w t /\ be P w v /\ In e es /\ to d e = t /\ e < d_ne d /\
     be P (bd d (from d e) + obj d e) (bd d i + v)).
  { induction n as [|n IH]; intros i v Hn Hi L N Cv Bt; [lia|].
    assert (Nt : st d i <> p_target P) by (now rewrite (st_target B Hi)).
    destruct (compl_inv P _ _ Nt Cv) as (l & s' & v' & Hl & S & Cv' & ->).
    assert (LK : lay d i <= K).
    { pose proof (l_le H i Hi N). destruct (Nat.eq_dec (lay d i) (Datatypes.S K)) as [E|]; [|lia].
      destruct (l_top H i Hi L N E). }
    destruct (l_exp H C i Hi L N LK (fun f => f) (fun f => f) l Hl s' S) as [(loc & Eloc & NB)|(e & He & Eo & El & R)].
    - exfalso. apply NB. pose proof (Hloc loc s' true v' Eloc) as HB.
      assert (I s') by (eapply (cl_step P I HC); eauto; now apply (b_I B)).
      specialize (HB H0 Cv'). vlia.
    - apply (b_kids B) in He as HH; auto. destruct HH as [He' Fe]. destruct (b_ends B e He') as [_ Te].
      destruct (R v' Cv') as (v2 & C2 & B2). pose proof (l_M H e He') as M. rewrite Fe, Eo in M.
      destruct (Nat.eq_dec (to d e) t) as [Et'|Nt'].
      + rewrite Et', Et in C2. apply compl_target in C2. subst v2.
        exists [e], (obj d e + 0)%Z, e. csplit; auto.
        * rewrite <- Fe. constructor; auto. rewrite Et'. constructor.
        * rewrite Eo. vlia.
        * now left.
        * rewrite Eo, Fe. replace (bd d i + p_cost P (st d i) l)%Z with (bd d i + (p_cost P (st d i) l + 0))%Z by lia. vlia.
      + assert (Lm : live d (to d e)). { right. intros E0. apply (no_ptr_child P I r t rs d e (to d e) B He' Te E0 eq_refl). }
        pose proof (l_lbl H e He' Nt') as LL. rewrite Fe in LL.
        destruct (IH (to d e) v2) as (es & w & e' & A1 & A2 & A3 & A4 & A5 & A6); auto; try lia; try vlia.
        exists (e :: es), (obj d e + w)%Z, e'. csplit; auto.
        * rewrite <- Fe. constructor; auto.
        * rewrite Eo. vlia.
        * now right.
        * vlia. }
  intros i v. apply (Z (Datatypes.S (S K - lay d i))). lia.
Qed.

Lemma tighten_cover mode d K d' V : linv mode d K nobody nobody [] [] -> covers mode d -> tightened P d t d' ->
  bd d r = rb -> solution P rs rb V -> bt P V primal -> be P (bd d' t) V.
Proof.
  intros H C T Eb (v & Cv & ->) Bt. pose proof (g_base (l_gen H)) as B. destruct (b_r B) as [Hr Er].
  destruct (b_t B) as [Ht _].
  destruct (cover mode d K H C r v) as (es & w & e & _ & _ & _ & Te & He & Be); auto.
  - now left.
  - exact (base_rt Hrs B).
  - congruence.
  - now rewrite Eb.
  - rewrite Eb in Be. assert (Hin : In e (par d t)) by (apply (b_par B); auto).
    pose proof (proj2 (tg_le _ _ _ _ T) e Hin). vlia.
Qed.
End Expand.
