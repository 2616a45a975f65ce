(** Relaxed compilation of layered models: expansion, merging, termination, width. *)
From Verif Require Import Base DDModel DDSpec DDFrame DDInv DDLayer DDRestricted DDExpand DDMerge.

Section Relaxed.
Context {St : Type}.
Variable P : prob St.
Variable I : St -> Prop.
Hypothesis HC : closed P I.
Notation dd := (dd St).
Variables (r t : nat) (rs : St) (rb : Z) (rl : list Z).
Hypothesis Hrs : rs <> p_target P.
Hypothesis Hrange : in_range P rs rb.
Variable rank : St -> nat.
Hypothesis Hlay : layered P I rank.
Hypothesis Hdom : valid_dom P I rank.
Hypothesis Hdt : dom_avoids_target P I rank.
Hypothesis Hml : merge_layered P I rank.
Hypothesis Hvm : valid_merge P I rank.
Variable primal : Z.

Notation base := (base P I r t rs).
Notation live := (live r).
Notation low := (low r t).
Notation below := (below r t).
Notation fresh := (fresh r t).
Notation tidy := (tidy t rs rank).
Notation EXPL := (EXPL P primal).
Notation linv := (linv P I r t rs rb rl rank primal true).
Notation depth_le := (depth_le P I rank).

(** without dominance every node lies on its proper layer *)
Lemma step_arc_tidy (d : dd) K q p l d' enq : base d -> p_sdom P = None -> tidy d -> p < d_nn d -> p <> t -> lay d p = K ->
  In l (p_labels P (st d p)) -> step_arc P d primal q p l = Ok (d', enq) -> tidy d'.
Proof.
  intros B SD TD Hp Np Kp Hl E. destruct (b_t B) as [Ht Et].
  assert (Ntp : st d p <> p_target P) by (rewrite (st_target B Hp); auto).
  destruct (transition P d primal p l) as [d1 o] eqn:T.
  destruct (transition_spec P _ _ _ _ _ _ (eqb_next HC B Hp Ntp Hl) T) as [(-> & -> & _)|(c0 & s' & -> & S & Pr & M)].
  - rewrite (step_arc_none P _ _ _ _ _ _ T) in E. injection E as <- <-. auto.
  - rewrite (step_arc_some P _ _ _ _ _ _ _ T) in E. unfold dom_sel in E. rewrite SD in E. cbn [bind] in E.
    apply bind_ok in E as (d5 & E5 & E). apply arc_tail_arced in E5 as [Npc A].
    assert (d' = d5) as -> by (destruct (_ && _); injection E; auto).
    intros i Hi N. rewrite (a_nn A) in Hi. rewrite (a_st A).
    assert (Lp : lay d1 p = K) by (rewrite (m_lay M); auto).
    assert (Is : I s') by (eapply (cl_step P I HC); eauto; now apply (b_I B)).
    assert (Rk : i = c0 -> rank s' = rank rs + Datatypes.S K).
    { intros ->. rewrite (Hlay _ _ _ (b_I B p Hp) Ntp Hl S), (TD p Hp Np); [lia|].
      intros ->. apply N. destruct (m_c M) as [(C1&C2&C3)|(C1&C2&C3)]; [now apply (st_target B)|]. exfalso. eapply C3; eauto. }
    destruct (Nat.eq_dec i c0) as [->|Nc].
    + rewrite (a_layc A), (m_stc M), Lp. specialize (Rk eq_refl).
      destruct (m_c M) as [(C1&C2&C3)|(C1&C2&C3)].
      * rewrite (m_lay M) by auto. pose proof (TD c0 C1 N) as Q. rewrite C2 in Q. lia.
      * destruct (m_new M C1) as (_ & _ & -> & _). lia.
    + rewrite (a_lay A) by auto. assert (Hi' : i < d_nn d) by (destruct (m_c M) as [(?&?&?)|(?&?&?)]; lia).
      rewrite (m_st M), (m_lay M) by auto. now apply TD.
Qed.

Lemma rx_labels_linv : forall ls d K cur next p,
  linv d K (eq p) nobody cur next -> p < d_nn d -> live d p -> p <> t -> lay d p = K -> ~ In p cur ->
  (forall l, In l ls -> In l (p_labels P (st d p))) ->
  exists d' next', rx_labels P d primal (next, []) p ls = Ok (d', (next', [])) /\ low K d d' /\
    linv d' K (eq p) nobody cur next' /\ st d' p = st d p /\ (p_sdom P = None -> tidy d -> tidy d') /\
    (forall l, In l ls -> EXPL d' p l) /\ (forall l, EXPL d p l -> EXPL d' p l).
Proof.
  induction ls as [|l ls IH]; intros d K cur next p H Hp Lp Np Kp Nc HL; cbn [rx_labels].
  - exists d, next. csplit; auto using low_refl. intros l [].
  - destruct (step_arc_linv P I HC r t rs rb rl Hrs Hrange rank Hlay Hdom Hdt primal true d K (eq p) cur next p l H Hp Lp Np Kp Nc eq_refl (HL l (or_introl eq_refl)))
      as (d1 & enq & E & H1 & D1 & N1 & S1 & B1 & L1 & K1 & X1 & O1 & Y1 & _ & W1).
    cbn [fst]. rewrite E. cbn [bind].
    assert (Q : match enq with Some c => lq_enQueue d1 (next, []) c | None => (next, []) end = (pushq next enq, [])).
    { destruct enq as [c|]; auto. cbn [lq_enQueue pushq]. destruct next as [|f next]; auto.
      assert (lay d1 f = S K) as ->. { apply (l_next H1). cbn [pushq]. right. now left. }
      rewrite (Y1 c eq_refl), Nat.eqb_refl. auto. }
    rewrite Q.
    destruct (IH d1 K cur (pushq next enq) p H1) as (d' & next' & E' & W' & H' & S' & TD' & X' & O'); auto; try lia.
    { intros l' Hl'. rewrite S1. apply HL. now right. }
    exists d', next'. csplit; auto.
    + eapply low_trans; eauto.
    + congruence.
    + intros SD TD. apply TD'; auto. eapply (step_arc_tidy d K next p l d1 enq); eauto. apply (g_base (l_gen H)). apply HL. now left.
    + intros l' [<-|Hl']; auto.
Qed.

Lemma rx_layer_linv : forall lk d K next, linv d K nobody nobody lk next ->
  exists d' next', rx_layer P d primal (next, []) lk = Ok (d', (next', [])) /\ linv d' K nobody nobody [] next' /\ low K d d' /\
   (p_sdom P = None -> tidy d -> tidy d').
Proof.
  induction lk as [|p lk IH]; intros d K next H; cbn [rx_layer].
  - exists d, next. csplit; auto using low_refl.
  - destruct (l_cur H p (or_introl eq_refl)) as (Hp & Lp & Np & Kp & _).
    pose proof (l_ndc H) as ND. apply NoDup_cons_iff in ND as [ND _].
    destruct (rx_labels_linv (p_labels P (st d p)) d K lk next p
        (linv_begin P I r t rs rb rl rank primal true d K p lk next H) Hp Lp Np Kp ND (fun l h => h))
      as (d1 & q1 & E & W & A1 & A2 & A3 & A4 & A5). rewrite E. cbn [bind].
    destruct (IH d1 K q1) as (d' & q' & E' & B1 & B2 & B3); auto.
    + apply linv_end with p; auto. intros _ l Hl. rewrite A2 in Hl. auto.
    + exists d', q'. csplit; auto. eapply low_trans; eauto.
Qed.

Variable srt : dd -> list nat -> list nat.
Hypothesis Hsrt : forall d l, Permutation (srt d l) l.

Lemma below_low K (d d' : dd) : below (S K) d d' -> low K d d'.
Proof. intros H i Hi L N LK. apply H; auto. lia. Qed.

(** the nodes of layer K of a state in which layer K is about to be pulled *)
Lemma linv_fresh d K cur : (K = 0 -> cur = [r]) -> linv d K nobody nobody cur [] ->
  (K = 0 \/ forall i, i < d_nn d -> live d i -> i <> t -> lay d i = K -> In i cur) -> fresh d K cur.
Proof.
  intros E H [->|F]; auto. intros i Hi L N LK. rewrite (E eq_refl). left.
  pose proof (g_base (l_gen H)) as B. destruct L as [L|L]; auto.
  destruct (par d i) as [|e es] eqn:EP; [congruence|]. assert (In e (par d i)) as Hin by (rewrite EP; now left).
  apply (b_par B) in Hin as [He Et]; auto. pose proof (l_lbl H e He) as Q. rewrite Et in Q. specialize (Q N). lia.
Qed.

Lemma lq_pull_linv d K w q : linv d K nobody nobody q [] -> (0 < K -> fresh d K q) -> (K = 0 -> q = [r]) ->
  exists d' lk, lq_pull P srt (mfuel_std d q) d w (q, []) = Ok (d', lk, ([], [])) /\ linv d' K nobody nobody lk [] /\
    fresh d' K lk /\ below K d d' /\ (tidy d -> tidy d') /\ (tidy d -> merge_total P I rank -> length lk <= Nat.max w 1).
Proof.
  intros H Fr R. unfold lq_pull. destruct (Nat.eq_dec K 0) as [->|K0].
  - rewrite (R eq_refl) in *. assert (srt d [r] = [r]) as -> by (apply Permutation_length_1_inv; symmetry; apply Hsrt).
    rewrite (mergeLayer_single P I HC rs).
    + cbn [bind]. exists d, [r]. csplit; auto using below_refl; [|cbn; lia]. apply linv_fresh; auto.
    + unfold mfuel_std. lia.
    + apply (l_cur H). now left.
  - assert (H1 : linv d K nobody nobody ([] ++ srt d q) []) by (eapply linv_perm; [| |exact H]; auto; symmetry; apply Hsrt).
    destruct (mergeLayer_ok P I HC r t rs rb rl rank Hml Hvm primal true (mfuel_std d q) d K w (srt d q) [] H1) as (d' & lk & E & A1 & A2 & A3 & A4 & A5 & A6).
    + lia.
    + intros i Hi L N LK. cbn [app]. eapply Permutation_in; [symmetry; apply Hsrt|]. apply Fr; auto. lia.
    + rewrite (Permutation_length (Hsrt d q)). unfold mfuel_std. lia.
    + rewrite E. cbn [bind]. exists d', lk. csplit; auto.
Qed.

Lemma rx_loop_linv : forall fuel d K w q N,
  linv d K nobody nobody q [] -> fresh d K q -> (K = 0 -> q = [r]) ->
  depth_le N -> N + 1 < fuel + (rank rs + K) ->
  exists d' K', rx_loop P srt fuel mfuel_std d primal w (q, []) = Ok d' /\ linv d' K' nobody nobody [] [] /\
    (forall w', p_sdom P = None -> tidy d -> merge_total P I rank -> Nat.max w 1 <= w' ->
       (forall k ns, k < K -> NoDup ns -> (forall i, In i ns -> i < d_nn d /\ live d i /\ i <> t /\ lay d i = k) -> length ns <= w') ->
       width_le r t w' K' d').
Proof.
  induction fuel as [|fuel IH]; intros d K w q N H Fr R D F; cbn [rx_loop fst snd]; rewrite app_nil_r.
  - destruct q as [|n q].
    + exists d, K. csplit; auto. intros w' SD TD MT Hw WL k ns Hk ND HN. destruct (Nat.eq_dec k K) as [->|]; [|apply (WL k); auto; lia].
      destruct ns as [|i ns]; cbn; [lia|]. destruct (HN i (or_introl eq_refl)) as (A1 & A2 & A3 & A4). destruct (Fr i A1 A2 A3 A4).
    + pose proof (next_depth P I r t rs rb rl rank primal true _ _ _ _ N n H D (or_introl eq_refl)). lia.
  - destruct q as [|n q].
    + exists d, K. csplit; auto. intros w' SD TD MT Hw WL k ns Hk ND HN. destruct (Nat.eq_dec k K) as [->|]; [|apply (WL k); auto; lia].
      destruct ns as [|i ns]; cbn; [lia|]. destruct (HN i (or_introl eq_refl)) as (A1 & A2 & A3 & A4). destruct (Fr i A1 A2 A3 A4).
    + destruct (lq_pull_linv d K w (n :: q) H (fun _ => Fr) R) as (d1 & lk & E1 & H1 & Fr1 & BL & TD1 & W1).
      rewrite E1. cbn [bind]. destruct (rx_layer_linv lk d1 K [] H1) as (d2 & next & E2 & H2 & LO & TD2). rewrite E2. cbn [bind].
      pose proof (linv_shift P I r t rs rb rl rank primal true d2 K next H2) as H3.
      assert (Fr3 : fresh d2 (S K) next). { intros i Hi L Ni LK. apply (l_top H2); auto. }
      destruct (IH d2 (S K) w next N H3 Fr3) as (d' & K' & E' & H' & W'); auto; try lia.
      exists d', K'. csplit; auto. intros w' SD TD MT Hw WL. apply W'; auto.
      intros k ns Hk ND HN.
      assert (HN1 : forall i, In i ns -> i < d_nn d1 /\ live d1 i /\ i <> t /\ lay d1 i = k).
      { intros i Hi. destruct (HN i Hi) as (A1 & A2 & A3 & A4). destruct (LO i A1 A2 A3 ltac:(lia)) as (Q1 & Q2 & Q3 & _). csplit; auto. congruence. }
      destruct (Nat.eq_dec k K) as [->|].
      * transitivity (length lk); [|specialize (W1 TD MT); lia]. apply NoDup_incl_length; auto.
        intros i Hi. destruct (HN1 i Hi) as (A1 & A2 & A3 & A4). apply Fr1; auto.
      * apply (WL k); auto; try lia. intros i Hi. destruct (HN1 i Hi) as (A1 & A2 & A3 & A4).
        destruct (BL i A1 A2 A3 ltac:(lia)) as (Q1 & Q2 & Q3 & _). csplit; auto. congruence.
Qed.
End Relaxed.
