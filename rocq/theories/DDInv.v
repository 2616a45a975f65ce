(** Structural invariant of the store and genuineness of bounds and labels, for any model (layered or not). *)
From Verif Require Import Base DDModel DDSpec DDFrame.

Section Inv.
Context {St : Type}.
Variable P : prob St.
Variable I : St -> Prop.
Hypothesis HC : closed P I.
Notation dd := (dd St).
Let Heqb := cl_eqb P I HC.

(** root and target nodes; state, bound and labels of the root *)
Variables (r t : nat) (rs : St) (rb : Z) (rl : list Z).
Hypothesis Hrs : rs <> p_target P.

Record base (d : dd) : Prop := {
  b_uniq : forall i j, i < d_nn d -> j < d_nn d -> st d i = st d j -> i = j;
  b_I : forall i, i < d_nn d -> I (st d i);
  b_root : d_root d = Some r;
  b_trg : d_trg d = Some t;
  b_r : r < d_nn d /\ st d r = rs;
  b_t : t < d_nn d /\ st d t = p_target P;
  b_ends : forall e, e < d_ne d -> from d e < d_nn d /\ to d e < d_nn d;
  b_par : forall i e, i < d_nn d -> (In e (par d i) <-> e < d_ne d /\ to d e = i);
  b_kids : forall i e, i < d_nn d -> (In e (kids d i) <-> e < d_ne d /\ from d e = i);
  b_ndp : forall i, i < d_nn d -> NoDup (par d i);
  b_ndk : forall i, i < d_nn d -> NoDup (kids d i) }.

Lemma eqb_base d s : base d -> I s -> eqb_at P d s.
Proof. intros B Is j Hj. apply (cl_eqb P I HC); auto. now apply (b_I d B). Qed.
Lemma eqb_next d p l : base d -> p < d_nn d -> st d p <> p_target P -> In l (p_labels P (st d p)) ->
  forall s', p_stf P (st d p) l = Some s' -> eqb_at P d s'.
Proof. intros B Hp Np Hl s' E. apply eqb_base; auto. eapply (cl_step P I HC); eauto. now apply (b_I d B). Qed.

Definition live (d : dd) (i : nat) : Prop := i = r \/ par d i <> [].

Record gen (d : dd) : Prop := {
  g_base : base d;
  g_gen : forall i, i < d_nn d -> live d i -> exa d i = true -> genuine P rs rb rl (st d i) (bd d i) (lab d i);
  g_sent : par d t = [] -> bd d t = sentinel P;
  g_edge : forall e, e < d_ne d -> live d (from d e) /\ st d (from d e) <> p_target P /\
     In (lbl d e) (p_labels P (st d (from d e))) /\ obj d e = p_cost P (st d (from d e)) (lbl d e);
  g_trg : forall e, e < d_ne d -> to d e = t -> p_stf P (st d (from d e)) (lbl d e) = Some (p_target P) }.

Lemma base_rt d : base d -> r <> t.
Proof. intros B E. destruct (b_r d B) as [_ H1], (b_t d B) as [_ H2]. rewrite E in H1. congruence. Qed.

Lemma st_target d i : base d -> i < d_nn d -> st d i = p_target P <-> i = t.
Proof.
  intros B Hi. destruct (b_t d B) as [Ht E]. split; [|now intros ->]. intros S. apply (b_uniq d B); auto. congruence.
Qed.

Lemma base_made d s x d1 c : base d -> made P d s x d1 c -> I s -> base d1.
Proof.
  intros B M Is. pose proof (m_c M) as Hc. pose proof (b_r d B) as [R1 R2]. pose proof (b_t d B) as [T1 T2].
  assert (Hnn : forall i, i < d_nn d1 -> i < d_nn d \/ (i = c /\ c = d_nn d /\ forall j, j < d_nn d -> st d j <> s)).
  { intros i Hi. destruct Hc as [(? & ? & ?)|(? & ? & ?)]; [left; lia|]. destruct (Nat.eq_dec i c); [right; auto|left; lia]. }
  assert (Hup : forall i, i < d_nn d -> i < d_nn d1) by (intros; lia).
  assert (MC := m_stc M). assert (MS := m_st M).
  assert (MP := m_par M). assert (MK := m_kids M). assert (MN := m_new M).
  assert (BE := b_ends d B).
  constructor.
  - intros i j Hi Hj. destruct (Hnn i Hi) as [Hi'|(-> & E1 & U)]; destruct (Hnn j Hj) as [Hj'|(-> & E2 & U')]; auto.
    + rewrite (MS i Hi'), (MS j Hj'). apply (b_uniq d B); auto.
    + rewrite (MS i Hi'), MC. intros H. exfalso. eapply U'; eauto.
    + rewrite (MS j Hj'), MC. intros H. exfalso. eapply U; eauto.
  - intros i Hi. destruct (Hnn i Hi) as [Hi'|(-> & E1 & U)].
    + rewrite (MS i Hi'). now apply (b_I d B).
    + now rewrite MC.
  - rewrite (m_root M). apply B.
  - rewrite (m_trg M). apply B.
  - split; auto. now rewrite MS.
  - split; auto. now rewrite MS.
  - rewrite (m_ed M), (m_ne M). intros e He. destruct (BE e He). auto.
  - rewrite (m_ed M), (m_ne M). intros i e Hi. destruct (Hnn i Hi) as [Hi'|(-> & E1 & U)].
    + rewrite MP by auto. now apply (b_par d B).
    + destruct (MN E1) as [-> _]. split; [intros []|]. intros [He E]. destruct (BE e He). lia.
  - rewrite (m_ed M), (m_ne M). intros i e Hi. destruct (Hnn i Hi) as [Hi'|(-> & E1 & U)].
    + rewrite MK by auto. now apply (b_kids d B).
    + destruct (MN E1) as (_ & -> & _). split; [intros []|]. intros [He E]. destruct (BE e He). lia.
  - intros i Hi. destruct (Hnn i Hi) as [Hi'|(-> & E1 & U)].
    + rewrite MP by auto. now apply (b_ndp d B).
    + destruct (MN E1) as [-> _]. constructor.
  - intros i Hi. destruct (Hnn i Hi) as [Hi'|(-> & E1 & U)].
    + rewrite MK by auto. now apply (b_ndk d B).
    + destruct (MN E1) as (_ & -> & _). constructor.
Qed.

Lemma made_live d s x d1 c i : base d -> made P d s x d1 c -> i < d_nn d -> (live d1 i <-> live d i).
Proof. intros B M Hi. unfold live. now rewrite (m_par M). Qed.
Lemma made_newdead d s x d1 c : base d -> made P d s x d1 c -> c = d_nn d -> ~ live d1 c.
Proof.
  intros B M Hc [E|E].
  - destruct (b_r d B). lia.
  - apply E. now apply (m_new M).
Qed.

(** the made node starts from the sentinel unless it is live (or the sink, which has it until its first arc) *)
Lemma made_dead_sent d s x d1 c : gen d -> made P d s x d1 c -> ~ live d1 c -> bd d1 c = sentinel P.
Proof.
  intros G M NL. pose proof (g_base d G) as B. destruct (b_r d B) as [R1 R2]. destruct (b_t d B) as [T1 T2].
  assert (NR : c <> r) by (intros ->; apply NL; now left).
  assert (NP : par d1 c = []). { destruct (par d1 c) eqn:E; auto. exfalso. apply NL. right. congruence. }
  destruct (m_c M) as [(Hc & S & Hn)|(Hc & Hn & U)].
  - rewrite (m_par M) in NP by auto.
    destruct (Nat.eq_dec c t) as [->|NT].
    + destruct (m_keep M) as [-> _]; [|now apply (g_sent d G)].
      intros [?|(_ & _ & X)]; [lia|]. apply X, B.
    + apply (m_reset M). right. rewrite (b_root d B), (b_trg d B). csplit; auto; congruence.
  - apply (m_reset M). now left.
Qed.

Lemma made_keeps_live d s x d1 c i : base d -> made P d s x d1 c -> i < d_nn d -> live d i \/ i = t \/ i <> c ->
  bd d1 i = bd d i.
Proof.
  intros B M Hi H. destruct (Nat.eq_dec i c) as [->|N]; [|now apply (m_bd M)].
  apply (m_keep M). intros [E|(E1 & E2 & E3)]; [lia|].
  rewrite (b_root d B) in E2. rewrite (b_trg d B) in E3. destruct H as [[H|H]|[H|H]]; congruence.
Qed.

Lemma gen_made d s x d1 c : gen d -> made P d s x d1 c -> I s -> gen d1.
Proof.
  intros G M Is. pose proof (g_base d G) as B. pose proof (base_made _ _ _ _ _ B M Is) as B1.
  destruct (b_r d B) as [R1 R2]. destruct (b_t d B) as [T1 T2].
  assert (MS := m_st M).
  constructor; auto.
  - intros i Hi L X.
    assert (Hi' : i < d_nn d).
    { destruct (m_c M) as [(Hc & S & Hn)|(Hc & Hn & U)]; [lia|].
      destruct (Nat.eq_dec i c) as [->|]; [|lia]. exfalso. apply (made_newdead _ _ _ _ _ B M Hc). exact L. }
    assert (L' : live d i) by (now apply (made_live _ _ _ _ _ i B M Hi')).
    rewrite MS, (made_keeps_live _ _ _ _ _ i B M Hi' (or_introl L')), (m_lab M) by auto.
    apply (g_gen d G); auto.
    destruct (Nat.eq_dec i c) as [->|N].
    + rewrite (m_exc M) in X by auto. apply andb_true_iff in X; tauto.
    + now rewrite (m_ex M) in X by auto.
  - rewrite (m_par M) by auto. intros H. rewrite (made_keeps_live _ _ _ _ _ t B M) by auto. now apply (g_sent d G).
  - rewrite (m_ed M), (m_ne M). intros e He. destruct (b_ends d B e He) as [F _].
    rewrite MS by auto. destruct (g_edge d G e He) as (H1 & H2). split; [now apply (made_live _ _ _ _ _ _ B M F)|auto].
  - rewrite (m_ed M), (m_ne M). intros e He. destruct (b_ends d B e He) as [F _].
    rewrite MS by auto. now apply (g_trg d G).
Qed.

Lemma base_arced d p c l cost d' : base d -> arced P d p c l cost d' -> p < d_nn d -> c < d_nn d -> base d'.
Proof.
  intros B A Hp Hc. pose proof (b_r d B) as [R1 R2]. pose proof (b_t d B) as [T1 T2].
  assert (AN := a_nn A). assert (AE := a_ne A). assert (AS := a_st A).
  assert (ED := a_ed A). assert (EN := a_edn A).
  assert (BE := b_ends d B).
  constructor; rewrite ?AN, ?AE.
  - intros i j. rewrite !AS. apply (b_uniq d B).
  - intros i. rewrite AS. apply (b_I d B).
  - rewrite (a_root A). apply B.
  - rewrite (a_trg A). apply B.
  - now rewrite AS.
  - now rewrite AS.
  - intros e He. destruct (Nat.eq_dec e (d_ne d)) as [->|N]; [rewrite EN; auto|]. rewrite ED by auto. apply BE. lia.
  - intros i e Hi. destruct (Nat.eq_dec i c) as [->|N].
    + rewrite (a_parc A), in_app_iff, (b_par d B) by auto. cbn [In].
      destruct (Nat.eq_dec e (d_ne d)) as [->|N]; [rewrite EN; cbn; intuition lia|]. rewrite ED by auto. intuition lia.
    + rewrite (a_par A), (b_par d B) by auto.
      destruct (Nat.eq_dec e (d_ne d)) as [->|N']; [rewrite EN; cbn; intuition (try lia; congruence)|]. rewrite ED by auto. intuition lia.
  - intros i e Hi. destruct (Nat.eq_dec i p) as [->|N].
    + rewrite (a_kidsp A), in_app_iff, (b_kids d B) by auto. cbn [In].
      destruct (Nat.eq_dec e (d_ne d)) as [->|N]; [rewrite EN; cbn; intuition lia|]. rewrite ED by auto. intuition lia.
    + rewrite (a_kids A), (b_kids d B) by auto.
      destruct (Nat.eq_dec e (d_ne d)) as [->|N']; [rewrite EN; cbn; intuition (try lia; congruence)|]. rewrite ED by auto. intuition lia.
  - intros i Hi. destruct (Nat.eq_dec i c) as [->|N].
    + rewrite (a_parc A). apply Permutation_NoDup with (d_ne d :: par d c); [apply Permutation_cons_append|].
      constructor; [|now apply (b_ndp d B)]. intros H. apply (b_par d B) in H; auto. lia.
    + rewrite (a_par A) by auto. now apply (b_ndp d B).
  - intros i Hi. destruct (Nat.eq_dec i p) as [->|N].
    + rewrite (a_kidsp A). apply Permutation_NoDup with (d_ne d :: kids d p); [apply Permutation_cons_append|].
      constructor; [|now apply (b_ndk d B)]. intros H. apply (b_kids d B) in H; auto. lia.
    + rewrite (a_kids A) by auto. now apply (b_ndk d B).
Qed.

Lemma arced_live_c d p c l cost d' : arced P d p c l cost d' -> live d' c.
Proof. intros A. right. rewrite (a_parc A). destruct (par d c); discriminate. Qed.
Lemma arced_live d p c l cost d' i : arced P d p c l cost d' -> live d i -> live d' i.
Proof.
  intros A H. destruct (Nat.eq_dec i c) as [->|N]; [eapply arced_live_c; eauto|].
  unfold live. now rewrite (a_par A).
Qed.
Lemma arced_live_inv d p c l cost d' i : arced P d p c l cost d' -> live d' i -> i = c \/ live d i.
Proof.
  intros A H. destruct (Nat.eq_dec i c) as [->|N]; [now left|]. right.
  unfold live in *. now rewrite (a_par A) in H.
Qed.

Hypothesis Hrange : in_range P rs rb.

Lemma gen_arced d p c l d' :
  let cost := p_cost P (st d p) l in
  gen d -> arced P d p c l cost d' -> p < d_nn d -> c < d_nn d -> live d p ->
  st d p <> p_target P -> In l (p_labels P (st d p)) ->
  (p_stf P (st d p) l = Some (st d c) /\ (exa d c = true -> exa d p = true) /\ (~ live d c -> bd d c = sentinel P)) \/
  (live d c /\ c <> t /\ ~ bt P (bd d p + cost) (bd d c)) ->
  gen d'.
Proof.
  intros cost G A Hp Hc Lp Np Hl H. pose proof (g_base d G) as B. pose proof (base_arced _ _ _ _ _ _ B A Hp Hc) as B1.
  destruct (b_r d B) as [R1 R2]. destruct (b_t d B) as [T1 T2].
  assert (AN := a_nn A). assert (AE := a_ne A). assert (AS := a_st A).
  assert (ED := a_ed A). assert (EN := a_edn A).
  constructor; auto; rewrite ?AN, ?AE.
  - intros i Hi L X. rewrite AS. rewrite (a_ex A) in X.
    destruct (Nat.eq_dec i c) as [->|N].
    + destruct (a_bdc A) as [(Bt & -> & ->)|(NB & -> & ->)].
      * destruct H as [(S & Ex & _)|(_ & _ & NB)]; [|tauto].
        apply genuine_snoc with (s := st d p); auto. apply (g_gen d G); auto.
      * destruct H as [(S & Ex & Sn)|(Lc & _ & _)]; [|now apply (g_gen d G)].
        assert (Lc : live d c).
        { destruct (Nat.eq_dec c r) as [->|Nr]; [now left|]. destruct (par d c) eqn:EP; [|right; congruence].
          exfalso. apply NB. rewrite Sn by (intros [?|?]; congruence).
          destruct (g_gen d G p Hp Lp (Ex X)) as (ls & v & _ & -> & Pa).
          rewrite <- Z.add_assoc. eapply Hrange. eapply path_snoc; eauto. }
        now apply (g_gen d G).
    + rewrite (a_bd A), (a_lab A) by auto. apply (g_gen d G); auto.
      apply (arced_live_inv _ _ _ _ _ _ _ A) in L. tauto.
  - intros H0. destruct (Nat.eq_dec c t) as [->|N].
    + rewrite (a_parc A) in H0. destruct (par d t); discriminate.
    + rewrite (a_par A) in H0 by auto. rewrite (a_bd A) by auto. now apply (g_sent d G).
  - intros e He. rewrite !AS. destruct (Nat.eq_dec e (d_ne d)) as [->|N].
    + rewrite EN. cbn. csplit; auto. eapply arced_live; eauto.
    + rewrite ED by auto. destruct (g_edge d G e ltac:(lia)) as (L & H1). split; [eapply arced_live; eauto|auto].
  - intros e He. rewrite !AS. destruct (Nat.eq_dec e (d_ne d)) as [->|N].
    + rewrite EN. cbn. intros ->. destruct H as [(S & _)|(_ & N & _)]; [|tauto]. now rewrite T2 in S.
    + rewrite ED by auto. apply (g_trg d G). lia.
Qed.

(** ** one arc of Restricted/Relaxed *)
Definition openq (d : dd) (q : list nat) : Prop := forall i, In i q -> i < d_nn d /\ live d i /\ i <> t.

(** what never changes for existing nodes *)
Record grows (d d' : dd) : Prop := {
  gr_nn : d_nn d <= d_nn d';
  gr_st : forall i, i < d_nn d -> st d' i = st d i;
  gr_live : forall i, i < d_nn d -> live d i -> live d' i }.
Lemma grows_refl d : grows d d.
Proof. constructor; auto. Qed.
Lemma grows_trans d d1 d2 : grows d d1 -> grows d1 d2 -> grows d d2.
Proof.
  intros [A1 A2 A3] [B1 B2 B3]. constructor; [lia| |]; intros i Hi.
  - rewrite B2 by lia. auto.
  - intros L. apply B3; [lia|auto].
Qed.
Lemma openq_grows d d' q : grows d d' -> openq d q -> openq d' q.
Proof. intros [A1 A2 A3] H i Hi. destruct (H i Hi) as (H1 & H2 & H3). csplit; auto. lia. Qed.
Definition all_exact (d : dd) : Prop := forall i, i < d_nn d -> exa d i = true.

Lemma made_grows d s x d1 c : base d -> made P d s x d1 c -> grows d d1.
Proof.
  intros B M. constructor.
  - destruct (m_c M) as [(?&?&?)|(?&?&?)]; lia.
  - apply M.
  - intros i Hi. now apply (made_live d s x d1 c).
Qed.
Lemma arced_grows d p c l cost d' : arced P d p c l cost d' -> grows d d'.
Proof.
  intros A. constructor.
  - now rewrite (a_nn A).
  - intros. now rewrite (a_st A).
  - intros. eapply arced_live; eauto.
Qed.
Lemma made_all_exact d s x d1 c : all_exact d -> x = true -> made P d s x d1 c -> all_exact d1.
Proof.
  intros A -> M i Hi. destruct (m_c M) as [(Hc&S&Hn)|(Hc&Hn&U)].
  - destruct (Nat.eq_dec i c) as [->|N].
    + rewrite (m_exc M) by lia. rewrite A by lia. auto.
    + rewrite (m_ex M) by lia. apply A. lia.
  - destruct (Nat.eq_dec i c) as [->|N].
    + now apply (m_new M).
    + rewrite (m_ex M) by lia. apply A. lia.
Qed.

(** dominance selection only replaces the child and shortens the active list *)
Lemma dom_sel_inv d1 q p c0 ep d2 c nw : dom_sel P d1 q p c0 ep = Ok (d2, c, nw) ->
  (d2 = d1 /\ c = c0 /\ nw = (nbParents d1 c0 =? 0)) \/
  (exists sdom, p_sdom P = Some sdom /\ nbParents d1 c0 = 0 /\ In c q /\ sdom (st d1 c) (st d1 c0) = true /\
     be P (bd d1 c) ep /\ nw = false /\ d_an d1 <> [] /\ d2 = with_an d1 (removelast (d_an d1))).
Proof.
  unfold dom_sel. destruct (p_sdom P) as [sdom|]; [|intros [= <- <- <-]; auto].
  destruct (nbParents d1 c0 =? 0) eqn:N0; [|intros [= <- <- <-]; auto].
  destruct (checkDominance P d1 sdom q c0 ep) as [o|] eqn:CD; [|intros [= <- <- <-]; auto].
  intros E. apply bind_ok in E as (an & E1 & E2). injection E2 as <- <- <-.
  unfold an_pop in E1. destruct (d_an d1) as [|x xs] eqn:EA; [discriminate|]. injection E1 as <-.
  right. exists sdom. unfold checkDominance in CD. apply find_some in CD as [Hin HB].
  apply andb_true_iff in HB as [HB1 HB2]. apply isBetterEQ_be in HB1. apply Nat.eqb_eq in N0.
  csplit; auto; try discriminate.
Qed.

Lemma base_with_an d an : base d -> base (with_an d an).
Proof. intros [? ? ? ? ? ? ? ? ? ? ?]. constructor; auto. Qed.
Lemma gen_with_an d an : gen d -> gen (with_an d an).
Proof. intros [? ? ? ? ?]. constructor; auto. now apply base_with_an. Qed.

Lemma step_arc_gen d primal q p l d' enq :
  gen d -> openq d q -> p < d_nn d -> live d p -> p <> t -> In l (p_labels P (st d p)) ->
  step_arc P d primal q p l = Ok (d', enq) ->
  gen d' /\ grows d d' /\ d_exact d' = d_exact d /\ (all_exact d -> all_exact d') /\
  (forall c, enq = Some c -> c < d_nn d' /\ live d' c /\ c <> t).
Proof.
  intros G Q Hp Lp Np Hl E. pose proof (g_base d G) as B.
  assert (Nt : st d p <> p_target P) by (rewrite (st_target d p B Hp); auto).
  destruct (transition P d primal p l) as [d1 o] eqn:T.
  destruct (transition_spec P _ _ _ _ _ _ (eqb_next _ _ _ B Hp Nt Hl) T) as [(-> & -> & _)|(c0 & s' & -> & S & Pr & M)].
  - rewrite (step_arc_none P _ _ _ _ _ _ T) in E. injection E as <- <-.
    csplit; auto using grows_refl; try discriminate.
  - rewrite (step_arc_some P _ _ _ _ _ _ _ T) in E.
    apply bind_ok in E as ([[d2 c] nw] & DS & E). apply bind_ok in E as (d5 & AT & E).
    assert (Is : I s') by (eapply (cl_step P I HC); eauto; now apply (b_I d B)).
    pose proof (gen_made _ _ _ _ _ G M Is) as G1. pose proof (made_grows _ _ _ _ _ B M) as Gr1.
    assert (Hc0 : c0 < d_nn d1) by (destruct (m_c M) as [(?&?&?)|(?&?&?)]; lia).
    assert (Hp1 : p < d_nn d1) by (destruct Gr1; lia).
    assert (Sp : st d1 p = st d p) by (now apply Gr1).
    assert (Bp : bd d1 p = bd d p) by (eapply made_keeps_live; eauto).
    assert (Lp1 : live d1 p) by (apply Gr1; auto).
    assert (Q1 : openq d1 q) by (eapply openq_grows; eauto).
    apply arc_tail_arced in AT as [Npc A].
    assert (Xp : exa d1 c0 = true -> exa d1 p = true).
    { intros X. destruct (m_c M) as [(?&?&?)|(Hn&?&?)].
      - rewrite (m_exc M) in X by auto. apply andb_true_iff in X as [X1 X2].
        destruct (Nat.eq_dec p c0) as [->|N0]; [rewrite (m_exc M) by auto; now rewrite X1|].
        now rewrite (m_ex M) by auto.
      - destruct (m_new M Hn) as (_ & _ & _ & X2 & _). rewrite X2 in X.
        rewrite (m_ex M) by (auto; lia). auto. }
    assert (AX1 : all_exact d -> all_exact d1).
    { intros AX. exact (made_all_exact _ _ _ _ _ AX (AX p Hp) M). }
    assert (G5 : gen d5 /\ grows d1 d5 /\ d_exact d5 = d_exact d1 /\ (all_exact d1 -> all_exact d5) /\ (nw = true -> c = c0) /\ c < d_nn d5).
    { destruct (dom_sel_inv _ _ _ _ _ _ _ _ DS) as [(-> & -> & ->)|(sdom & _ & Z0 & Hin & _ & HB & -> & _ & ->)].
      - csplit.
        + eapply gen_arced with (d := d1); eauto; try congruence.
          left. rewrite Sp, (m_stc M). csplit; auto. exact (made_dead_sent _ _ _ _ _ G M).
        + apply (arced_grows _ _ _ _ _ _ A).
        + apply A.
        + intros AX i Hi. rewrite (a_ex A). apply AX. rewrite (a_nn A) in Hi. auto.
        + auto.
        + rewrite (a_nn A). auto.
      - destruct (Q1 c Hin) as (Hc & Lc & Nc).
        csplit.
        + eapply gen_arced with (d := with_an d1 (removelast (d_an d1))); eauto using gen_with_an; dsimp; try congruence.
          right. csplit; auto. vlia.
        + destruct (arced_grows _ _ _ _ _ _ A) as [X1 X2 X3]. constructor; auto.
        + apply A.
        + intros AX i Hi. rewrite (a_ex A). apply AX. rewrite (a_nn A) in Hi. auto.
        + discriminate.
        + rewrite (a_nn A). auto. }
    destruct G5 as (G5 & Gr5 & E5 & AX5 & Nw & Hc5).
    assert (Lc5 : live d5 c) by (eapply arced_live_c; eauto).
    destruct (negb (p_eqs P (st d5 c)) && nw) eqn:EN; injection E as <- <-.
    + csplit; auto; try (eapply grows_trans; eauto); try congruence.
      * rewrite E5. apply M.
      * intros c' [= <-]. csplit; auto. apply andb_true_iff in EN as [EN _]. apply negb_true_iff in EN.
        intros Ec. apply (st_target d5 c (g_base d5 G5) Hc5) in Ec.
        apply (cl_eqs P I HC) in Ec; [congruence|]. apply (b_I d5 (g_base d5 G5)); auto.
    + csplit; auto; try (eapply grows_trans; eauto); try congruence; try discriminate.
      rewrite E5. apply M.
Qed.

(** ** Restricted: everything stays genuine *)
Lemma base_dexact d b : base d -> base (with_dexact d b).
Proof. intros [? ? ? ? ? ? ? ? ? ? ?]. constructor; auto. Qed.
Lemma gen_dexact d b : gen d -> gen (with_dexact d b).
Proof. intros [? ? ? ? ?]. constructor; auto. now apply base_dexact. Qed.
Lemma grows_dexact d b : grows d (with_dexact d b).
Proof. constructor; auto. Qed.

Lemma openq_app d a b : openq d (a ++ b) <-> openq d a /\ openq d b.
Proof.
  unfold openq. split.
  - intros H. split; intros i Hi; apply H, in_or_app; auto.
  - intros [H1 H2] i Hi. apply in_app_or in Hi as [?|?]; auto.
Qed.

Lemma rs_labels_gen : forall ls d primal w q p d' q' j,
  gen d -> all_exact d -> openq d q -> p < d_nn d -> live d p -> p <> t ->
  (forall l, In l ls -> In l (p_labels P (st d p))) ->
  rs_labels P d primal w q p ls = Ok (d', q', j) ->
  gen d' /\ all_exact d' /\ grows d d' /\ openq d' q'.
Proof.
  induction ls as [|l ls IH]; intros d primal w q p d' q' j G AX Q Hp Lp Np HL E; cbn [rs_labels] in E.
  - injection E as <- <- <-. csplit; auto using grows_refl.
  - apply bind_ok in E as ([d1 enq] & ES & E).
    destruct (step_arc_gen _ _ _ _ _ _ _ G Q Hp Lp Np (HL l (or_introl eq_refl)) ES) as (G1 & Gr & _ & AX1 & Hq).
    assert (Q1 : openq d1 q) by (eapply openq_grows; eauto).
    assert (St1 : st d1 p = st d p) by (apply Gr; auto).
    assert (Rec : forall q1, openq d1 q1 -> rs_labels P d1 primal w q1 p ls = Ok (d', q', j) ->
       gen d' /\ all_exact d' /\ grows d d' /\ openq d' q').
    { intros q1 HQ E1. apply IH in E1; auto; try (destruct Gr; auto; lia).
      - destruct E1 as (? & ? & ? & ?). csplit; auto; try (eapply grows_trans; eauto).
      - intros l' Hl'. rewrite St1. apply HL. now right. }
    destruct enq as [c|]; [|eapply Rec; eauto].
    assert (Q1c : openq d1 (q ++ [c])).
    { apply openq_app. split; auto. intros i [<-|[]]. now apply Hq. }
    cbn zeta in E. destruct (rs_full _ _); [|eapply Rec; eauto].
    injection E as <- <- <-. split; [now apply gen_dexact|]. split; [exact (AX1 AX)|].
    split; [|exact Q1c]. eapply grows_trans; eauto. apply grows_dexact.
Qed.

Lemma rs_layer_gen : forall lk d primal w q d' q',
  gen d -> all_exact d -> openq d q -> openq d lk ->
  rs_layer P d primal w q lk = Ok (d', q') ->
  gen d' /\ all_exact d' /\ grows d d' /\ openq d' q'.
Proof.
  induction lk as [|p lk IH]; intros d primal w q d' q' G AX Q L E; cbn [rs_layer] in E.
  - injection E as <- <-. auto using grows_refl.
  - apply bind_ok in E as ([[d1 q1] j] & E1 & E).
    destruct (L p (or_introl eq_refl)) as (Hp & Lp & Np).
    eapply rs_labels_gen in E1 as (G1 & AX1 & Gr & Q1); eauto.
    destruct j.
    + injection E as <- <-. auto.
    + apply IH in E; auto.
      * destruct E as (? & ? & ? & ?). csplit; auto; try (eapply grows_trans; eauto).
      * eapply openq_grows; eauto. intros i Hi. apply L. now right.
Qed.

Lemma same_layer_prefix_app (d : dd) cL q a b : same_layer_prefix d cL q = (a, b) -> q = a ++ b.
Proof.
  revert a b. induction q as [|i q IH]; intros a b; cbn [same_layer_prefix].
  - intros [= <- <-]. auto.
  - destruct (lay d i =? cL).
    + destruct (same_layer_prefix d cL q) as [a1 b1]. intros [= <- <-]. cbn. f_equal. auto.
    + intros [= <- <-]. auto.
Qed.
End Inv.

Arguments b_uniq {St P I r t rs d} _.
Arguments b_I {St P I r t rs d} _.
Arguments b_root {St P I r t rs d} _.
Arguments b_trg {St P I r t rs d} _.
Arguments b_r {St P I r t rs d} _.
Arguments b_t {St P I r t rs d} _.
Arguments b_ends {St P I r t rs d} _.
Arguments b_par {St P I r t rs d} _.
Arguments b_kids {St P I r t rs d} _.
Arguments b_ndp {St P I r t rs d} _.
Arguments b_ndk {St P I r t rs d} _.
Arguments g_base {St P I r t rs rb rl d} _.
Arguments g_gen {St P I r t rs rb rl d} _.
Arguments g_sent {St P I r t rs rb rl d} _.
Arguments g_edge {St P I r t rs rb rl d} _.
Arguments g_trg {St P I r t rs rb rl d} _.
Arguments gr_nn {St r d d'} _.
Arguments gr_st {St r d d'} _.
Arguments gr_live {St r d d'} _.
Arguments eqb_base {St P I} _ {r t rs d s} _ _.
Arguments eqb_next {St P I} _ {r t rs d p l} _ _ _ _.
Arguments base_rt {St P I r t rs} _ {d} _.
Arguments st_target {St P I r t rs d i} _ _.
Arguments base_made {St P I} _ {r t rs d s x d1 c} _ _ _.
Arguments gen_made {St P I} _ {r t rs rb rl d s x d1 c} _ _ _.
Arguments made_live {St P I r t rs d s x d1 c i} _ _ _.
Arguments made_newdead {St P I} _ {r t rs d s x d1 c} _ _ _.
Arguments made_keeps_live {St P I} _ {r t rs d s x d1 c i} _ _ _.
Arguments made_dead_sent {St P I} _ {r t rs rb rl d s x d1 c} _ _ _.
Arguments gen_arced {St P I} _ {r t rs rb rl} _ {d p c l d'} _ _ _ _ _ _ _ _.
Arguments base_arced {St P I} _ {r t rs d p c l cost d'} _ _ _ _.
Arguments arced_live {St P r d p c l cost d' i} _ _.
Arguments arced_live_inv {St P r d p c l cost d' i} _ _.
Arguments arced_live_c {St P} r {d p c l cost d'} _.
