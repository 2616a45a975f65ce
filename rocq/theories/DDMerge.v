(** Merging of nodes on a layer keeps the layer invariant (Relaxed, layered models). *)
From Verif Require Import Base DDModel DDSpec DDFrame DDInv DDLayer.

Section Merge.
Context {St : Type}.
Variable P : prob St.
Variable I : St -> Prop.
Hypothesis HC : closed P I.
Notation dd := (dd St).
Let Heqb := cl_eqb P I HC.
Variables (r t : nat) (rs : St) (rb : Z) (rl : list Z).
Hypothesis Hrs : rs <> p_target P.
Variable rank : St -> nat.
Hypothesis Hml : merge_layered P I rank.
Hypothesis Hvm : valid_merge P I rank.
Variable primal : Z.
Variable mode : bool.

Notation base := (base P I r t rs).
Notation gen := (gen P I r t rs rb rl).
Notation live := (live r).
Notation low := (low r t).
Notation EXPL := (EXPL P primal).
Notation linv := (linv P I r t rs rb rl rank primal mode).

(** ** effect of transferArcs *)
Record moved (d : dd) (n m : nat) (d' : dd) : Prop := {
  mv_nn : d_nn d' = d_nn d; mv_ne : d_ne d' = d_ne d; mv_an : d_an d' = d_an d;
  mv_root : d_root d' = d_root d; mv_trg : d_trg d' = d_trg d; mv_dex : d_exact d' = d_exact d;
  mv_nd : forall i, i <> m -> i <> n -> d_nd d' i = d_nd d i;
  mv_m : d_nd d' m = nset_par (d_nd d m) (par d m ++ par d n);
  mv_n : d_nd d' n = nset_par (d_nd d n) [];
  mv_in : forall e, In e (par d n) -> d_ed d' e = mkEdge (from d e) m (obj d e) (lbl d e);
  mv_out : forall e, ~ In e (par d n) -> d_ed d' e = d_ed d e }.

Lemma redirect_ok : forall es (d : dd) m, NoDup es -> (forall e, In e es -> from d e <> m) ->
  exists d', redirect d es m = Ok d' /\ d_nn d' = d_nn d /\ d_ne d' = d_ne d /\ d_an d' = d_an d /\
    d_root d' = d_root d /\ d_trg d' = d_trg d /\ d_exact d' = d_exact d /\
    (forall i, i <> m -> d_nd d' i = d_nd d i) /\ d_nd d' m = nset_par (d_nd d m) (par d m ++ es) /\
    (forall e, In e es -> d_ed d' e = mkEdge (from d e) m (obj d e) (lbl d e)) /\
    (forall e, ~ In e es -> d_ed d' e = d_ed d e).
Proof.
  induction es as [|e es IH]; intros d m ND HF; cbn [redirect].
  - exists d. csplit; auto.
    + rewrite app_nil_r. now destruct (d_nd d m).
    + intros e [].
  - apply NoDup_cons_iff in ND as [Ne ND].
    destruct (Nat.eqb_spec (from d e) m) as [E|_]; [exfalso; apply (HF e); auto; now left|].
    set (d1 := with_edge d e (mkEdge (from d e) m (obj d e) (lbl d e))).
    set (d2 := with_node d1 m (nset_par (d_nd d1 m) (par d1 m ++ [e]))).
    destruct (IH d2 m ND) as (d' & E & F1 & F2 & F3 & F4 & F5 & F6 & F7 & F8 & F9 & F10).
    { intros e' He'. unfold d2, d1. dsimp. rewrite fupd_diff by congruence. apply HF. now right. }
    exists d'. split; [exact E|]. csplit; auto.
    + intros i Hi. rewrite F7 by auto. unfold d2; dsimp. now rewrite fupd_diff by auto.
    + rewrite F8. unfold d2, d1; dsimp. rewrite !fupd_same. dsimp. now rewrite <- app_assoc.
    + intros e' [<-|He'].
      * rewrite F10 by auto. unfold d2, d1; dsimp. now rewrite fupd_same.
      * rewrite F9 by auto. unfold d2, d1; dsimp. rewrite !fupd_diff by congruence. auto.
    + intros e' He'. rewrite F10 by (intros ?; apply He'; now right). unfold d2, d1; dsimp. rewrite fupd_diff; auto.
      intros ->. apply He'. now left.
Qed.

Lemma transferArcs_ok d n m : base d -> n < d_nn d -> m < d_nn d -> n <> m -> kids d m = [] ->
  exists d', transferArcs d n m = Ok d' /\ moved d n m d'.
Proof.
  intros B Hn Hm N K. unfold transferArcs.
  destruct (redirect_ok (par d n) d m (b_ndp B n Hn)) as (d1 & E & F1 & F2 & F3 & F4 & F5 & F6 & F7 & F8 & F9 & F10).
  { intros e He. apply (b_par B) in He as [He _]; auto. apply (no_ptr_parent P I r t rs); auto. }
  rewrite E. cbn [bind]. eexists. split; [reflexivity|].
  constructor; dsimp; auto; intros; fcase; auto; try congruence.
  rewrite F7; auto.
Qed.

Lemma an_remove_in l i j : NoDup l -> In i l -> (In j (an_remove l i) <-> In j l /\ j <> i).
Proof.
  intros ND Hi. unfold an_remove.
  assert (existsb (Nat.eqb i) l = true) as ->.
  { apply existsb_exists. exists i. split; auto. apply Nat.eqb_refl. }
  rewrite filter_In. rewrite negb_true_iff, Nat.eqb_neq. tauto.
Qed.
Lemma an_remove_nodup l i : NoDup l -> NoDup (an_remove l i).
Proof. intros ND. unfold an_remove. destruct existsb; [now apply NoDup_filter|constructor]. Qed.

Lemma NoDup_app_join {A} (a b : list A) : NoDup a -> NoDup b -> (forall x, In x a -> ~ In x b) -> NoDup (a ++ b).
Proof.
  induction a as [|x a IH]; cbn; auto. intros Ha Hb H. apply NoDup_cons_iff in Ha as [H1 H2]. constructor.
  - rewrite in_app_iff. intros [?|?]; auto. eapply H; eauto.
  - apply IH; auto.
Qed.

Lemma linv_moved d K (xa : nat -> Prop) cur next n m d1 d' cur' :
  linv d K nobody xa cur next -> moved d n m d1 -> d' = with_an d1 (an_remove (d_an d1) n) ->
  n <> m -> n < d_nn d -> m < d_nn d -> n <> r -> m <> r -> m <> t ->
  In n cur -> kids d m = [] -> lay d m = K -> rank (st d m) = rank rs + K ->
  relaxes P (st d m) (st d n) -> be P (bd d m) (bd d n) -> exa d m = false -> d_exact d = false ->
  (live d m \/ xa m) -> (forall i, xa i -> i = m) ->
  NoDup cur' -> (forall i, In i cur' <-> (In i cur /\ i <> n) \/ i = m) ->
  linv d' K nobody nobody cur' next /\ (forall i, live d' i -> (live d i /\ i <> n) \/ i = m) /\
   live d' m /\ (forall i, live d i -> i <> n -> live d' i).
Proof.
  intros H M Ed Nnm Hn Hm Nr Mr Mt Hin Km LYm Rkm Rx Bx Xm Dx Am Xa NDc HIc.
  pose proof (l_gen H) as G. pose proof (g_base G) as B.
  destruct (b_t B) as [Ht Et]. destruct (b_r B) as [Hr Er].
  destruct (l_cur H n Hin) as (_ & Ln & Nt & LYn & Kn).
  assert (Pn : par d n <> []) by (destruct Ln; [congruence|auto]).
  assert (NN : d_nn d' = d_nn d) by (subst d'; apply M).
  assert (NE : d_ne d' = d_ne d) by (subst d'; apply M).
  assert (ST : forall i, st d' i = st d i).
  { intros i. subst d'. dsimp. destruct (Nat.eq_dec i m) as [->|N1]; [now rewrite (mv_m _ _ _ _ M)|].
    destruct (Nat.eq_dec i n) as [->|N2]; [now rewrite (mv_n _ _ _ _ M)|]. now rewrite (mv_nd _ _ _ _ M). }
  assert (KD : forall i, kids d' i = kids d i).
  { intros i. subst d'. dsimp. destruct (Nat.eq_dec i m) as [->|N1]; [now rewrite (mv_m _ _ _ _ M)|].
    destruct (Nat.eq_dec i n) as [->|N2]; [now rewrite (mv_n _ _ _ _ M)|]. now rewrite (mv_nd _ _ _ _ M). }
  assert (BD : forall i, bd d' i = bd d i).
  { intros i. subst d'. dsimp. destruct (Nat.eq_dec i m) as [->|N1]; [now rewrite (mv_m _ _ _ _ M)|].
    destruct (Nat.eq_dec i n) as [->|N2]; [now rewrite (mv_n _ _ _ _ M)|]. now rewrite (mv_nd _ _ _ _ M). }
  assert (LB : forall i, lab d' i = lab d i).
  { intros i. subst d'. dsimp. destruct (Nat.eq_dec i m) as [->|N1]; [now rewrite (mv_m _ _ _ _ M)|].
    destruct (Nat.eq_dec i n) as [->|N2]; [now rewrite (mv_n _ _ _ _ M)|]. now rewrite (mv_nd _ _ _ _ M). }
  assert (LY : forall i, lay d' i = lay d i).
  { intros i. subst d'. dsimp. destruct (Nat.eq_dec i m) as [->|N1]; [now rewrite (mv_m _ _ _ _ M)|].
    destruct (Nat.eq_dec i n) as [->|N2]; [now rewrite (mv_n _ _ _ _ M)|]. now rewrite (mv_nd _ _ _ _ M). }
  assert (EX : forall i, exa d' i = exa d i).
  { intros i. subst d'. dsimp. destruct (Nat.eq_dec i m) as [->|N1]; [now rewrite (mv_m _ _ _ _ M)|].
    destruct (Nat.eq_dec i n) as [->|N2]; [now rewrite (mv_n _ _ _ _ M)|]. now rewrite (mv_nd _ _ _ _ M). }
  assert (PR : forall i, i <> m -> i <> n -> par d' i = par d i).
  { intros i N1 N2. subst d'. dsimp. now rewrite (mv_nd _ _ _ _ M). }
  assert (PM : par d' m = par d m ++ par d n) by (subst d'; dsimp; now rewrite (mv_m _ _ _ _ M)).
  assert (PN : par d' n = []) by (subst d'; dsimp; now rewrite (mv_n _ _ _ _ M)).
  assert (EI : forall e, e < d_ne d -> to d e = n -> d_ed d' e = mkEdge (from d e) m (obj d e) (lbl d e)).
  { intros e He E. subst d'; dsimp. apply (mv_in _ _ _ _ M). apply (b_par B); auto. }
  assert (EO : forall e, e < d_ne d -> to d e <> n -> d_ed d' e = d_ed d e).
  { intros e He E. subst d'; dsimp. apply (mv_out _ _ _ _ M). intros Hi. apply (b_par B) in Hi as [_ ?]; auto. }
  assert (FR : forall e, e < d_ne d -> from d' e = from d e /\ obj d' e = obj d e /\ lbl d' e = lbl d e).
  { intros e He. destruct (Nat.eq_dec (to d e) n) as [E|E]; [rewrite (EI e He E)|rewrite (EO e He E)]; auto. }
  assert (TO : forall e, e < d_ne d -> (to d e = n /\ to d' e = m) \/ (to d e <> n /\ to d' e = to d e)).
  { intros e He. destruct (Nat.eq_dec (to d e) n) as [E|E]; [rewrite (EI e He E)|rewrite (EO e He E)]; auto. }
  assert (Lm' : live d' m). { right. rewrite PM. intros E. apply app_eq_nil in E. tauto. }
  assert (Ln' : ~ live d' n) by (intros [?|?]; congruence).
  assert (Lup : forall i, live d i -> i <> n -> live d' i).
  { intros i L N. destruct (Nat.eq_dec i m) as [->|N']; auto. unfold DDInv.live. rewrite PR; auto. }
  assert (Ldn : forall i, live d' i -> (live d i /\ i <> n) \/ i = m).
  { intros i L. destruct (Nat.eq_dec i m) as [->|N']; auto. destruct (Nat.eq_dec i n) as [->|N'']; [tauto|].
    left. split; auto. unfold DDInv.live in *. now rewrite PR in L. }
  split; [|split; [exact Ldn|split; [exact Lm'|exact Lup]]].
  assert (B' : base d').
  { constructor; rewrite ?NN, ?NE.
    - intros i j. rewrite !ST. apply (b_uniq B).
    - intros i. rewrite ST. apply (b_I B).
    - subst d'; dsimp. rewrite (mv_root _ _ _ _ M). apply B.
    - subst d'; dsimp. rewrite (mv_trg _ _ _ _ M). apply B.
    - rewrite ST. auto.
    - rewrite ST. auto.
    - intros e He. destruct (FR e He) as (-> & _). destruct (b_ends B e He). split; auto. destruct (TO e He) as [(_ & ->)|(_ & ->)]; auto.
    - intros i e Hi. destruct (Nat.eq_dec i n) as [->|N1].
      + rewrite PN. split; [intros []|]. intros [He E]. destruct (TO e He) as [(E1 & E2)|(E1 & E2)]; congruence.
      + destruct (Nat.eq_dec i m) as [->|N2].
        * rewrite PM, in_app_iff, !(b_par B) by auto. split.
          -- intros [(He & E)|(He & E)]; split; auto; destruct (TO e He) as [(E1 & E2)|(E1 & E2)]; congruence.
          -- intros (He & E). destruct (TO e He) as [(E1 & E2)|(E1 & E2)]; auto. left. split; auto; congruence.
        * rewrite PR, (b_par B) by auto. split; intros (He & E); split; auto; destruct (TO e He) as [(E1 & E2)|(E1 & E2)]; congruence.
    - intros i e Hi. rewrite KD, (b_kids B) by auto. split; intros (He & E); split; auto; destruct (FR e He) as (E1 & _); congruence.
    - intros i Hi. destruct (Nat.eq_dec i n) as [->|N1]; [rewrite PN; constructor|].
      destruct (Nat.eq_dec i m) as [->|N2]; [|rewrite PR by auto; now apply (b_ndp B)].
      rewrite PM. apply NoDup_app_join; try (now apply (b_ndp B)). intros e H1 H2.
      apply (b_par B) in H1 as [_ E1]; auto. apply (b_par B) in H2 as [_ E2]; auto. congruence.
    - intros i Hi. rewrite KD. now apply (b_ndk B). }
  assert (G' : gen d').
  { constructor; auto; rewrite ?NN, ?NE.
    - intros i Hi L X. rewrite ST, BD, LB. rewrite EX in X. destruct (Ldn i L) as [(L' & _)| ->]; [|congruence]. now apply (g_gen G).
    - rewrite PR, BD by auto. apply (g_sent G).
    - intros e He. destruct (FR e He) as (-> & -> & ->). rewrite ST. destruct (g_edge G e He) as (L & Rest). split; auto.
      apply Lup; auto. apply (no_ptr_parent P I r t rs d e n B); auto.
    - intros e He E. destruct (FR e He) as (-> & _ & ->). rewrite ST. apply (g_trg G); auto.
      destruct (TO e He) as [(E1 & E2)|(E1 & E2)]; congruence. }
  constructor; auto.
  - intros i Hi. apply HIc in Hi. rewrite NN, LY, KD. destruct Hi as [(Hi & N)| ->].
    + destruct (l_cur H i Hi) as (A1 & A2 & A3 & A4 & A5). csplit; auto.
    + csplit; auto.
  - intros i Hi. destruct (l_next H i Hi) as (A1 & A2 & A3 & A4 & A5). rewrite NN, LY, KD. csplit; auto.
    apply Lup; auto. intros ->. lia.
  - apply (l_ndn H).
  - intros i Hi L N. rewrite ST, LY. rewrite NN in Hi. destruct (Ldn i L) as [(L' & _)| ->]; [now apply (l_rank H)|congruence].
  - intros i Hi N. rewrite LY. rewrite NN in Hi. now apply (l_le H).
  - intros i Hi L N E. rewrite LY in E. rewrite NN in Hi. destruct (Ldn i L) as [(L' & _)| ->]; [now apply (l_top H)|lia].
  - intros e He. rewrite NE in He. destruct (FR e He) as (-> & -> & _). rewrite !BD. pose proof (l_M H e He) as Me.
    destruct (TO e He) as [(E1 & ->)|(E1 & ->)]; auto. rewrite E1 in Me. vlia.
  - intros i. assert (AN : d_an d' = an_remove (d_an d) n) by (subst d'; dsimp; now rewrite (mv_an _ _ _ _ M)).
    rewrite AN, an_remove_in; [|apply (l_nda H)|rewrite (l_an H); auto]. rewrite (l_an H), NN. split.
    + intros ((Hi & [L|[->|X]]) & N); (split; [exact Hi|]); auto. apply Xa in X. subst i. auto.
    + intros (Hi & [L|[->|[]]]).
      * destruct (Ldn i L) as [(L' & N)| ->]; [auto|]. split; auto. split; auto. destruct Am; auto.
      * auto.
  - assert (AN : d_an d' = an_remove (d_an d) n) by (subst d'; dsimp; now rewrite (mv_an _ _ _ _ M)).
    rewrite AN. apply an_remove_nodup. apply (l_nda H).
  - intros e He. rewrite NE in He. destruct (FR e He) as (-> & _ & _). rewrite !LY.
    destruct (TO e He) as [(E1 & ->)|(E1 & ->)]; intros N.
    + rewrite LYm, <- LYn, <- E1. apply (l_lbl H); auto. congruence.
    + now apply (l_lbl H).
  - intros e He. rewrite NE in He. destruct (FR e He) as (-> & _ & _). rewrite !EX. intros E. apply (l_txm H); auto.
    destruct (TO e He) as [(E1 & E2)|(E1 & E2)]; congruence.
  - assert (d_exact d' = d_exact d) as -> by (subst d'; apply M). congruence.
  - unfold covers. assert (d_exact d' = d_exact d) as -> by (subst d'; apply M). intros C i Hi L N LK NC NP l Hl.
    rewrite NN in Hi. rewrite ST in Hl. rewrite LY in LK.
    assert (i <> m) by (intros ->; apply NC, HIc; auto).
    destruct (Ldn i L) as [(L' & N')|?]; [|congruence].
    assert (NCi : ~ In i cur) by (intros Hi'; apply NC, HIc; auto).
    apply (EXPL_mono P primal d); auto; [|now apply (l_exp H)].
    intros e He. rewrite KD. apply (b_kids B) in He as HH; auto. destruct HH as [He' _].
    destruct (FR e He') as (_ & -> & ->). csplit; auto. rewrite ST.
    destruct (TO e He') as [(E1 & ->)|(E1 & ->)]; [rewrite E1; auto|apply relaxes_refl].
  - rewrite BD, LB, EX. apply (l_root H).
Qed.

(** ** the merged node's bound, labels, layer and flags *)
Record touched (d : dd) (m K : nat) (d' : dd) : Prop := {
  tc_nn : d_nn d' = d_nn d; tc_ne : d_ne d' = d_ne d; tc_an : d_an d' = d_an d; tc_ed : d_ed d' = d_ed d;
  tc_root : d_root d' = d_root d; tc_trg : d_trg d' = d_trg d; tc_dex : d_exact d' = false;
  tc_nd : forall i, i <> m -> d_nd d' i = d_nd d i;
  tc_st : st d' m = st d m; tc_par : par d' m = par d m; tc_kids : kids d' m = kids d m;
  tc_lay : lay d' m = K; tc_ex : exa d' m = false; tc_bd : be P (bd d' m) (bd d m) }.

Lemma linv_touched d K xa cur next m d' : linv d K nobody xa cur next -> touched d m K d' ->
  m < d_nn d -> m <> r -> m <> t -> kids d m = [] -> rank (st d m) = rank rs + K -> (live d m -> In m cur) ->
  linv d' K nobody xa cur next.
Proof.
  intros H T Hm Mr Mt Km Rk Mc. pose proof (l_gen H) as G. pose proof (g_base G) as B.
  destruct (b_t B) as [Ht Et]. destruct (b_r B) as [Hr Er].
  assert (ST : forall i, st d' i = st d i) by (intros i; destruct (Nat.eq_dec i m) as [->|N]; [apply T|now rewrite (tc_nd _ _ _ _ T)]).
  assert (PR : forall i, par d' i = par d i) by (intros i; destruct (Nat.eq_dec i m) as [->|N]; [apply T|now rewrite (tc_nd _ _ _ _ T)]).
  assert (KD : forall i, kids d' i = kids d i) by (intros i; destruct (Nat.eq_dec i m) as [->|N]; [apply T|now rewrite (tc_nd _ _ _ _ T)]).
  assert (NN := tc_nn _ _ _ _ T). assert (NE := tc_ne _ _ _ _ T). assert (ED := tc_ed _ _ _ _ T).
  assert (ND := tc_nd _ _ _ _ T). assert (LYm := tc_lay _ _ _ _ T). assert (EXm := tc_ex _ _ _ _ T).
  assert (LV : forall i, live d' i <-> live d i) by (intros i; unfold DDInv.live; rewrite PR; tauto).
  assert (LY : forall i, i < d_nn d -> live d i -> i <> t -> lay d' i = lay d i).
  { intros i Hi L N. destruct (Nat.eq_dec i m) as [->|N']; [|now rewrite ND].
    rewrite LYm. pose proof (l_rank H m Hi L N). lia. }
  assert (B' : base d').
  { destruct B. constructor; rewrite ?NN, ?NE, ?ED; auto.
    - intros i j. rewrite !ST. auto.
    - intros i. rewrite ST. auto.
    - rewrite (tc_root _ _ _ _ T). auto.
    - rewrite (tc_trg _ _ _ _ T). auto.
    - rewrite ST. auto.
    - rewrite ST. auto.
    - intros i. rewrite PR. auto.
    - intros i. rewrite KD. auto.
    - intros i. rewrite PR. auto.
    - intros i. rewrite KD. auto. }
  assert (G' : gen d').
  { constructor; auto; rewrite ?NN, ?NE, ?ED.
    - intros i Hi L X. destruct (Nat.eq_dec i m) as [->|N]; [congruence|]. rewrite !ND by auto. rewrite ND in X by auto.
      apply (g_gen G); auto. now apply LV.
    - rewrite ND by auto. apply (g_sent G).
    - intros e He. rewrite ST. destruct (g_edge G e He) as (L & Rest). split; auto. now apply LV.
    - intros e He. rewrite ST. now apply (g_trg G). }
  constructor; auto; rewrite ?NN, ?NE, ?ED.
  - intros i Hi. destruct (l_cur H i Hi) as (A1 & A2 & A3 & A4 & A5). rewrite KD, LY by auto. csplit; auto. now apply LV.
  - intros i Hi. destruct (l_next H i Hi) as (A1 & A2 & A3 & A4 & A5). rewrite KD, LY by auto. csplit; auto. now apply LV.
  - apply (l_ndc H).
  - apply (l_ndn H).
  - intros i Hi L N. apply LV in L. rewrite ST, LY by auto. now apply (l_rank H).
  - intros i Hi N. destruct (Nat.eq_dec i m) as [->|N']; [lia|]. rewrite ND by auto. now apply (l_le H).
  - intros i Hi L N E. apply LV in L. rewrite LY in E by auto. now apply (l_top H).
  - intros e He. rewrite (ND (from d e)) by (apply (no_ptr_parent P I r t rs d e m B); auto).
    pose proof (l_M H e He) as Me. destruct (Nat.eq_dec (to d e) m) as [E|N']; [|now rewrite ND].
    rewrite E in *. pose proof (tc_bd _ _ _ _ T). vlia.
  - intros i. rewrite (tc_an _ _ _ _ T), (l_an H), LV. reflexivity.
  - rewrite (tc_an _ _ _ _ T). apply (l_nda H).
  - intros e He N. destruct (g_edge G e He) as (L & _). destruct (b_ends B e He) as [F T'].
    rewrite (ND (from d e)) by (apply (no_ptr_parent P I r t rs d e m B); auto). rewrite LY; auto; [now apply (l_lbl H)|].
    right. intros E. apply (no_ptr_child P I r t rs d e (to d e) B He T' E eq_refl).
  - intros e He E. rewrite !ND; auto; [now apply (l_txm H)|]. apply (no_ptr_parent P I r t rs d e m B); auto.
  - rewrite (tc_dex _ _ _ _ T). discriminate.
  - intros [C|C]; [|rewrite (tc_dex _ _ _ _ T) in C; discriminate].
    intros i Hi L N LK NC NP l Hl. apply LV in L. rewrite LY in LK by auto. rewrite ST in Hl.
    assert (E0 : EXPL d i l) by (apply (l_exp H); auto; now left).
    destruct (Nat.eq_dec i m) as [->|N'].
    + exfalso. auto.
    + apply (EXPL_mono P primal d); auto; try now rewrite ND.
      intros e He. rewrite KD, ED. csplit; auto. rewrite ST. apply relaxes_refl.
  - destruct (l_root H) as (R1 & R2 & R3). rewrite ND by auto. auto.
Qed.

Lemma linv_xa d K pe (xa xa' : nat -> Prop) cur next : (forall i, xa i <-> xa' i) -> linv d K pe xa cur next -> linv d K pe xa' cur next.
Proof.
  intros W H. destruct H. constructor; auto.
  intros i. rewrite l_an, (W i). reflexivity.
Qed.

(** what a donation leaves alone *)
Record kept (d d' : dd) : Prop := {
  kp_nn : d_nn d' = d_nn d; kp_st : forall i, st d' i = st d i; kp_kids : forall i, kids d' i = kids d i;
  kp_bd : forall i, bd d' i = bd d i; kp_lay : forall i, lay d' i = lay d i; kp_ex : forall i, exa d' i = exa d i;
  kp_dex : d_exact d' = d_exact d }.
Lemma moved_kept d n m d1 l : moved d n m d1 -> kept d (with_an d1 l).
Proof.
  intros M. constructor; dsimp; try apply M; intros i; destruct (Nat.eq_dec i m) as [->|N1];
    try (now rewrite (mv_m _ _ _ _ M)); (destruct (Nat.eq_dec i n) as [->|N2]; [now rewrite (mv_n _ _ _ _ M)|now rewrite (mv_nd _ _ _ _ M)]).
Qed.

Lemma donor_ok d K (xa : nat -> Prop) cur next m n : linv d K nobody xa cur next ->
  0 < K -> m < d_nn d -> m <> r -> m <> t -> kids d m = [] -> lay d m = K -> rank (st d m) = rank rs + K ->
  exa d m = false -> d_exact d = false -> (live d m \/ xa m) -> (forall i, xa i -> i = m) ->
  (live d m -> ~ xa m) -> In n cur -> relaxes P (st d m) (st d n) -> be P (bd d m) (bd d n) ->
  exists d' cur', mp_donor d m n = Ok (d', n =? m) /\ linv d' K nobody nobody cur' next /\
    NoDup cur' /\ (forall i, In i cur' <-> (In i cur /\ i <> n) \/ i = m) /\ kept d d' /\
    (forall i, live d' i <-> (live d i /\ i <> n) \/ i = m).
Proof.
  intros H K0 Hm Mr Mt Km LYm Rkm Xm Dx Am Xa NX Hin Rx Bx. unfold mp_donor.
  pose proof (g_base (l_gen H)) as B. destruct (l_cur H n Hin) as (Hn & Ln & Nt & LYn & Kn).
  destruct (Nat.eqb_spec n m) as [->|N].
  - exists d, cur. split; auto. split; [|split; [apply (l_ndc H)|split; [|split; [constructor; auto|]]]].
    + eapply linv_xa; [|exact H]. intros i. split; [|intros []]. intros X. rewrite (Xa i X) in X. now apply NX.
    + intros i. destruct (Nat.eq_dec i m) as [->|]; tauto.
    + intros i. destruct (Nat.eq_dec i m) as [->|]; tauto.
  - assert (Nr : n <> r).
    { intros ->. pose proof (l_rank H r Hn Ln Nt) as E. rewrite (proj2 (b_r B)), LYn in E. lia. }
    destruct (transferArcs_ok d n m B Hn Hm N Km) as (d1 & E & M). rewrite E. cbn [bind].
    set (cur' := if in_dec Nat.eq_dec m cur then remove Nat.eq_dec n cur else m :: remove Nat.eq_dec n cur).
    assert (HIc : forall i, In i cur' <-> (In i cur /\ i <> n) \/ i = m).
    { intros i. assert (HR : In i (remove Nat.eq_dec n cur) <-> In i cur /\ i <> n).
      { split; [apply in_remove|]. intros [? ?]. now apply in_in_remove. }
      unfold cur'. destruct (in_dec Nat.eq_dec m cur) as [Hi|Hi].
      - rewrite HR. split; [auto|]. intros [?| ->]; auto.
      - cbn [In]. rewrite HR. intuition. }
    assert (NDr : NoDup (remove Nat.eq_dec n cur)).
    { pose proof (l_ndc H) as ND. clear - ND. induction cur as [|a l IH]; cbn; auto. inversion ND; subst.
      destruct (Nat.eq_dec n a); auto. constructor; auto. intros Hi. apply in_remove in Hi. tauto. }
    assert (NDc : NoDup cur').
    { unfold cur'. destruct (in_dec Nat.eq_dec m cur) as [Hi|Hi]; auto. constructor; auto. intros Hx. apply in_remove in Hx. tauto. }
    destruct (linv_moved d K xa cur next n m d1 (with_an d1 (an_remove (d_an d1) n)) cur' H M eq_refl) as (H' & L1 & L2 & L3); auto.
    exists (with_an d1 (an_remove (d_an d1) n)), cur'. csplit; auto.
    + eapply moved_kept; eauto.
    + intros i. split; auto. intros [(L & Ni)| ->]; auto.
Qed.

(** the part of mergePair before the arcs are moved *)
Definition mp_pre (d : dd) (m n1 : nat) : dd :=
  let newNode := nbParents d m =? 0 in
  let l1 := lay d n1 in
  let d1 := if newNode then with_node d m (nset_layer (d_nd d m) l1) else d in
  with_dexact (with_node d1 m (nset_exact (nset_layer (d_nd d1 m) (Nat.max (lay d1 m) (lay d1 n1))) false)) false.

Definition fresh (d : dd) (K : nat) (cur : list nat) : Prop :=
  forall i, i < d_nn d -> live d i -> i <> t -> lay d i = K -> In i cur.

Lemma copy_step (d0 : dd) n m :
  let d2 := if isBetter P (bd d0 n) (bd d0 m) then copyBL d0 m n else d0 in
  d_nn d2 = d_nn d0 /\ d_ne d2 = d_ne d0 /\ d_an d2 = d_an d0 /\ d_ed d2 = d_ed d0 /\ d_root d2 = d_root d0 /\ d_trg d2 = d_trg d0 /\
  (forall i, i <> m -> d_nd d2 i = d_nd d0 i) /\ st d2 m = st d0 m /\ par d2 m = par d0 m /\ kids d2 m = kids d0 m /\
  lay d2 m = lay d0 m /\ be P (bd d2 m) (bd d0 m) /\ be P (bd d2 m) (bd d0 n).
Proof.
  cbn zeta. destruct (isBetter P (bd d0 n) (bd d0 m)) eqn:E.
  - apply isBetter_bt in E. unfold copyBL; dsimp. rewrite fupd_same. dsimp. csplit; auto.
    + intros i Hi. now rewrite fupd_diff.
    + vlia.
    + apply be_refl.
  - apply isBetter_nbt in E. csplit; auto. vlia.
Qed.
Lemma merge_bounds (d0 : dd) n1 n2 m :
  let d2 := if isBetter P (bd d0 n1) (bd d0 m) then copyBL d0 m n1 else d0 in
  let d3 := if isBetter P (bd d2 n2) (bd d2 m) then copyBL d2 m n2 else d2 in
  d_nn d3 = d_nn d0 /\ d_ne d3 = d_ne d0 /\ d_an d3 = d_an d0 /\ d_ed d3 = d_ed d0 /\ d_root d3 = d_root d0 /\ d_trg d3 = d_trg d0 /\
  (forall i, i <> m -> d_nd d3 i = d_nd d0 i) /\ st d3 m = st d0 m /\ par d3 m = par d0 m /\ kids d3 m = kids d0 m /\
  lay d3 m = lay d0 m /\ be P (bd d3 m) (bd d0 m) /\ be P (bd d3 m) (bd d0 n1) /\ be P (bd d3 m) (bd d0 n2).
Proof.
  intros d2 d3.
  destruct (copy_step d0 n1 m) as (A1 & A2 & A3 & A4 & A5 & A6 & A7 & A8 & A9 & A10 & A11 & A12 & A13). fold d2 in A1, A2, A3, A4, A5, A6, A7, A8, A9, A10, A11, A12, A13.
  destruct (copy_step d2 n2 m) as (C1 & C2 & C3 & C4 & C5 & C6 & C7 & C8 & C9 & C10 & C11 & C12 & C13). fold d3 in C1, C2, C3, C4, C5, C6, C7, C8, C9, C10, C11, C12, C13.
  clearbody d2 d3.
  assert (B2 : be P (bd d2 n2) (bd d0 n2)). { destruct (Nat.eq_dec n2 m) as [->|N]; auto. rewrite A7 by auto. apply be_refl. }
  csplit; try congruence; try vlia. intros i Hi. rewrite C7, A7; auto.
Qed.

Lemma merge_pre d K cur next n1 n2 d1 m : linv d K nobody nobody cur next -> 0 < K -> fresh d K cur ->
  In n1 cur -> In n2 cur -> merge P d n1 n2 = Some (d1, m) ->
  exists d3 xa, mp_pre d1 m n1 = d3 /\ linv d3 K nobody xa cur next /\
    m < d_nn d3 /\ m <> r /\ m <> t /\ kids d3 m = [] /\ lay d3 m = K /\ rank (st d3 m) = rank rs + K /\ exa d3 m = false /\
    d_exact d3 = false /\ (live d3 m \/ xa m) /\ (forall i, xa i -> i = m) /\ (live d3 m -> ~ xa m) /\
    (forall n, n = n1 \/ n = n2 -> relaxes P (st d3 m) (st d3 n) /\ be P (bd d3 m) (bd d3 n)) /\
    ((nbParents d1 m =? 0) = true <-> ~ live d3 m) /\ (if nbParents d1 m =? 0 then lay d1 n1 else lay d1 m) = lay d1 n1 /\
    (forall i, i < d_nn d -> (live d3 i <-> live d i) /\ (i <> m -> d_nd d3 i = d_nd d i)) /\ d_nn d <= d_nn d3 /\
    (forall i, i < d_nn d3 -> live d3 i -> i < d_nn d) /\ (live d3 m -> In m cur) /\
    (forall i, i < d_nn d3 -> i < d_nn d \/ i = m).
Proof.
  intros H K0 Fr H1 H2 E. pose proof (l_gen H) as G. pose proof (g_base G) as B.
  destruct (l_cur H n1 H1) as (N1 & L1 & T1 & Y1 & C1). destruct (l_cur H n2 H2) as (N2 & L2 & T2 & Y2 & C2).
  assert (R1 : n1 <> r). { intros ->. pose proof (l_rank H r N1 L1 T1) as Q. rewrite (proj2 (b_r B)), Y1 in Q. lia. }
  unfold merge in E. destruct (p_smf P (st d n1) (st d n2)) as [vs|] eqn:SM; [|discriminate].
  destruct (match hasNode P d vs with Some m0 => _ | None => false end) eqn:RF; [discriminate|].
  destruct (makeNode P d vs true) as [d0 m0] eqn:MK.
  pose proof (l_rank H n1 N1 L1 T1) as Q1. pose proof (l_rank H n2 N2 L2 T2) as Q2. rewrite Y1 in Q1. rewrite Y2 in Q2.
  assert (I1 := b_I B n1 N1). assert (I2 := b_I B n2 N2).
  assert (S1 : st d n1 <> p_target P) by (now rewrite (st_target B N1)).
  assert (S2 : st d n2 <> p_target P) by (now rewrite (st_target B N2)).
  destruct (Hml _ _ _ I1 I2 S1 S2 ltac:(congruence) SM) as (Iv & Vt & Rv).
  pose proof (makeNode_made P _ _ _ _ _ (eqb_base HC B Iv) MK) as M.
  destruct (Hvm _ _ _ I1 I2 S1 S2 ltac:(congruence) SM) as (X1 & X2).
  destruct (merge_bounds d0 n1 n2 m0) as (F1 & F2 & F3 & F4 & F5 & F6 & A1 & A2 & A3 & A4 & A5 & A6 & A7 & A8).
  cbn zeta in *. injection E as <- <-. set (d1 := if isBetter P _ _ then _ else _) in *.
  assert (H0 : linv d0 K nobody (fun i => i = m0 /\ resets d m0) cur next).
  { eapply (linv_made P I HC); eauto. }
  pose proof (l_gen H0) as G0. pose proof (g_base G0) as B0.
  assert (Hm0 : m0 < d_nn d0) by (destruct (m_c M) as [(?&?&?)|(?&?&?)]; lia).
  assert (Nn : d_nn d <= d_nn d0) by (destruct (m_c M) as [(?&?&?)|(?&?&?)]; lia).
  assert (Mr : m0 <> r).
  { intros ->. assert (Q : st d0 r = vs) by apply M. rewrite (proj2 (b_r B0)) in Q. subst vs. lia. }
  assert (Mt : m0 <> t). { rewrite <- (st_target B0 Hm0), (m_stc M). auto. }
  assert (Lv : forall i, i < d_nn d -> live d0 i <-> live d i) by (intros i Hi; now apply (made_live B M)).
  assert (LvO : forall i, i < d_nn d0 -> live d0 i -> i < d_nn d).
  { intros i Hi L. destruct (m_c M) as [(?&?&?)|(Q&?&?)]; [lia|]. destruct (Nat.eq_dec i m0) as [->|]; [|lia].
    exfalso. now apply (made_newdead HC B M Q). }
  assert (LK : live d0 m0 -> lay d0 m0 = K).
  { intros L. pose proof (l_rank H0 m0 Hm0 L Mt) as Q. rewrite (m_stc M) in Q. lia. }
  assert (Mc : live d0 m0 -> In m0 cur).
  { intros L. pose proof (LvO m0 Hm0 L) as Hi. apply Fr; auto; [now apply Lv|]. rewrite <- (m_lay M) by auto. auto. }
  assert (Km : kids d0 m0 = []).
  { destruct (live_dec r d0 m0) as [L|L]; [apply (l_cur H0 m0 (Mc L))|apply (dead_kids G0 Hm0); auto]. }
  assert (Y1' : lay d1 n1 = K).
  { destruct (Nat.eq_dec n1 m0) as [->|N]; [|rewrite A1, (m_lay M) by auto; auto].
    rewrite A5. apply LK. now apply Lv. }
  assert (NP : (nbParents d1 m0 =? 0) = true <-> ~ live d0 m0).
  { rewrite Nat.eqb_eq, nbParents_zero, A3. unfold DDInv.live. split.
    - intros Q [?|?]; congruence.
    - intros Q. destruct (par d0 m0) eqn:EP; auto. exfalso. apply Q. right. congruence. }
  assert (YY : (if nbParents d1 m0 =? 0 then lay d1 n1 else lay d1 m0) = K).
  { destruct (nbParents d1 m0 =? 0) eqn:Z; auto. rewrite A5. apply LK. destruct (live_dec r d0 m0); auto. exfalso.
    apply NP in H3. congruence. }
  assert (TC : touched d0 m0 K (mp_pre d1 m0 n1)).
  { assert (Nz : nbParents d1 m0 =? 0 = true -> n1 <> m0).
    { intros Z ->. apply NP in Z. apply Z. now apply Lv. }
    unfold mp_pre. destruct (nbParents d1 m0 =? 0) eqn:Z.
    - specialize (Nz eq_refl). constructor; dsimp; auto; intros; fcase; dsimp; auto; try congruence.
      + lia.
    - constructor; dsimp; auto; intros; fcase; dsimp; auto; try congruence; try lia. }
  set (d3 := mp_pre d1 m0 n1) in *.
  assert (H3 : linv d3 K nobody (fun i => i = m0 /\ resets d m0) cur next).
  { eapply linv_touched; eauto. rewrite (m_stc M). lia. }
  assert (L3 : forall i, live d3 i <-> live d0 i).
  { intros i. unfold DDInv.live. destruct (Nat.eq_dec i m0) as [->|N]; [rewrite (tc_par _ _ _ _ TC)|rewrite (tc_nd _ _ _ _ TC) by auto]; tauto. }
  exists d3, (fun i => i = m0 /\ resets d m0).
  assert (RL : live d0 m0 <-> ~ resets d m0).
  { pose proof (l_an H0 m0) as Q. split.
    - intros L [Q1'|(Q2' & _)].
      + pose proof (LvO m0 Hm0 L). lia.
      + apply Lv in L; [|now apply LvO]. destruct L; congruence.
    - intros NR. destruct (live_dec r d0 m0) as [L|L]; auto. exfalso. apply NR.
      destruct (m_c M) as [(Q1' & _)|(Q1' & _)]; [|now left]. right. rewrite (b_root B), (b_trg B). csplit; try congruence.
      destruct (par d m0) eqn:EP; auto. exfalso. apply L. apply Lv; auto. right. congruence. }
  assert (ST3 : forall i, i < d_nn d -> st d3 i = st d i).
  { intros i Hi. destruct (Nat.eq_dec i m0) as [->|N]; [rewrite (tc_st _ _ _ _ TC)|rewrite (tc_nd _ _ _ _ TC) by auto]; now apply (m_st M). }
  assert (BD3 : bd d3 m0 = bd d1 m0).
  { unfold d3, mp_pre. destruct (nbParents d1 m0 =? 0); dsimp; rewrite !fupd_same; dsimp; rewrite ?fupd_same; auto. }
  assert (BDn : forall n, n < d_nn d -> live d n -> be P (bd d0 n) (bd d3 n) -> bd d0 n = bd d3 n \/ n = m0).
  { intros n Hn Ln _. destruct (Nat.eq_dec n m0) as [->|N]; auto. left. now rewrite (tc_nd _ _ _ _ TC). }
  csplit; auto.
  - rewrite (tc_nn _ _ _ _ TC). auto.
  - now rewrite (tc_kids _ _ _ _ TC).
  - apply TC.
  - rewrite (tc_st _ _ _ _ TC), (m_stc M). lia.
  - apply TC.
  - rewrite L3. destruct (live_dec r d0 m0) as [L|L]; auto. right. split; auto.
    destruct (m_c M) as [(Q1' & _)|(Q1' & _)]; [|now left]. right. rewrite (b_root B), (b_trg B). csplit; try congruence.
    destruct (par d m0) eqn:EP; auto. exfalso. apply L. apply Lv; auto. right. congruence.
  - tauto.
  - rewrite L3. intros L [_ R]. now apply RL in L.
  - intros n Hn. assert (Hn' : n < d_nn d /\ live d n) by (destruct Hn as [->| ->]; auto). destruct Hn' as [Hn1 Hn2].
    rewrite (ST3 n) by auto. rewrite (tc_st _ _ _ _ TC), (m_stc M). split; [destruct Hn as [->| ->]; auto|].
    destruct (Nat.eq_dec n m0) as [->|N]; [apply be_refl|]. rewrite BD3, (tc_nd _ _ _ _ TC n) by auto.
    destruct Hn as [->| ->]; auto.
  - rewrite L3. auto.
  - rewrite YY. auto.
  - intros i Hi. rewrite L3. split; auto. intros N. rewrite (tc_nd _ _ _ _ TC) by auto.
    (* makeNode leaves the other nodes alone *)
    clear - MK N Hi. unfold makeNode in MK. destruct (hasNode P d vs) as [a|] eqn:Ha.
    + destruct ((nbParents d a =? 0) && negb (is_ptr (d_root d) a) && negb (is_ptr (d_trg d) a)); injection MK as <- <-; dsimp; rewrite !fupd_diff by auto; auto.
    + injection MK as <- <-. unfold alloc. dsimp. now rewrite fupd_diff by auto.
  - rewrite (tc_nn _ _ _ _ TC). auto.
  - intros i. rewrite (tc_nn _ _ _ _ TC), L3. auto.
  - rewrite L3. auto.
  - intros i. rewrite (tc_nn _ _ _ _ TC). intros Hi. destruct (m_c M) as [(?&?&?)|(?&?&?)]; [left; lia|].
    destruct (Nat.eq_dec i m0); [now right|left; lia].
Qed.

Lemma erase1_in l i j : NoDup l -> (In j (erase1 i l) <-> In j l /\ j <> i).
Proof.
  induction l as [|a l IH]; intros ND; cbn [erase1 In]; [tauto|]. apply NoDup_cons_iff in ND as [N ND].
  destruct (Nat.eqb_spec a i) as [->|Ne].
  - split; [|intuition; congruence]. intros Hj. split; auto. intros ->. auto.
  - cbn [In]. rewrite (IH ND). intuition; congruence.
Qed.
Lemma erase1_nodup l i : NoDup l -> NoDup (erase1 i l).
Proof.
  induction l as [|a l IH]; intros ND; cbn [erase1]; auto. apply NoDup_cons_iff in ND as [N ND].
  destruct (Nat.eqb_spec a i) as [->|Ne]; auto. constructor; auto. rewrite erase1_in; tauto.
Qed.
Lemma erase1_length l i : In i l -> S (length (erase1 i l)) = length l.
Proof.
  induction l as [|a l IH]; cbn [In]; [tauto|]. cbn [erase1]. destruct (Nat.eqb_spec a i) as [->|Ne]; auto.
  intros [?|H]; [congruence|]. cbn [length]. rewrite IH; auto.
Qed.

Definition merged_layer (act : ndaction) (m n2 : nat) (rest : list nat) : list nat :=
  match act with InFront => m :: erase1 n2 rest | _ => erase1 n2 rest end.

(** nothing below layer K changes *)
Definition below (K : nat) (d d' : dd) : Prop := forall i, i < d_nn d' -> live d' i -> i <> t -> lay d' i < K ->
  i < d_nn d /\ live d i /\ lay d' i = lay d i /\ exa d' i = exa d i.
Lemma below_refl K d : below K d d.
Proof. intros i; auto. Qed.
Lemma below_trans K d d1 d2 : below K d d1 -> below K d1 d2 -> below K d d2.
Proof.
  intros A B i Hi L N LK. destruct (B i Hi L N LK) as (H1 & H2 & H3 & H3'). rewrite H3 in LK.
  destruct (A i H1 H2 N LK) as (H4 & H5 & H6 & H6'). csplit; auto; congruence.
Qed.

(** every node, dead or alive, lies on the layer its state belongs to *)
Definition tidy (d : dd) : Prop := forall i, i < d_nn d -> i <> t -> rank (st d i) = rank rs + lay d i.

Lemma merge_step d K skip n1 rest n2 d1 m :
  linv d K nobody nobody (skip ++ n1 :: rest) [] -> 0 < K -> fresh d K (skip ++ n1 :: rest) -> In n2 rest ->
  merge P d n1 n2 = Some (d1, m) ->
  exists d2 act, mergePair d1 m n1 n2 = Ok (d2, act) /\ act <> Delay /\
    linv d2 K nobody nobody (skip ++ merged_layer act m n2 rest) [] /\ fresh d2 K (skip ++ merged_layer act m n2 rest) /\
    below K d d2 /\ d_nn d <= d_nn d2 /\ (tidy d -> tidy d2).
Proof.
  intros H K0 Fr H2 E. set (cur := skip ++ n1 :: rest) in *.
  pose proof (l_ndc H) as ND.
  assert (I1 : In n1 cur) by (apply in_app_iff; right; now left).
  assert (I2 : In n2 cur) by (apply in_app_iff; right; now right).
  assert (ND1 := ND). apply NoDup_remove in ND1 as [ND1 NI]. assert (N12 : n2 <> n1).
  { intros ->. apply NI. apply in_app_iff. now right. }
  assert (NDr : NoDup rest /\ (forall x, In x skip -> ~ In x rest) /\ NoDup skip).
  { clear - ND1. induction skip as [|a sk IH]; cbn in *; [csplit; auto; constructor|].
    apply NoDup_cons_iff in ND1 as [A1 A2]. destruct (IH A2) as (B1 & B2 & B3). rewrite in_app_iff in A1. csplit; auto.
    - intros x [<-|Hx]; auto.
    - constructor; tauto. }
  destruct NDr as (NDr & NDx & NDs).
  destruct (merge_pre d K cur [] n1 n2 d1 m H K0 Fr I1 I2 E)
    as (d3 & xa & Ed3 & H3 & Hm & Mr & Mt & Km & Ym & Rm & Xm & Dx & Am & Xa & NX & RB & NP & LE & Old & Nn & LvO & Mc & New).
  destruct (donor_ok d3 K xa cur [] m n1 H3 K0 Hm Mr Mt Km Ym Rm Xm Dx Am Xa NX I1) as (d4 & cur4 & E4 & H4 & ND4 & C4 & K4 & V4);
    try (apply RB; auto).
  assert (I2' : In n2 cur4) by (apply C4; left; auto).
  destruct (RB n2 (or_intror eq_refl)) as [Rx2 Be2].
  destruct (donor_ok d4 K nobody cur4 [] m n2 H4 K0) as (d5 & cur5 & E5 & H5 & ND5 & C5 & K5 & V5); auto.
  { now rewrite (kp_nn _ _ K4). }
  { now rewrite (kp_kids _ _ K4). }
  { now rewrite (kp_lay _ _ K4). }
  { now rewrite (kp_st _ _ K4). }
  { now rewrite (kp_ex _ _ K4). }
  { now rewrite (kp_dex _ _ K4). }
  { left. apply V4. now right. }
  { intros i []. }
  { now rewrite !(kp_st _ _ K4). }
  { now rewrite !(kp_bd _ _ K4). }
  assert (C : forall i, In i cur5 <-> (In i cur /\ i <> n1 /\ i <> n2) \/ i = m).
  { intros i. rewrite C5, C4. tauto. }
  assert (V : forall i, live d5 i <-> (live d3 i /\ i <> n1 /\ i <> n2) \/ i = m).
  { intros i. rewrite V5, V4. tauto. }
  set (nw := nbParents d1 m =? 0) in *.
  exists d5, (if nw || ((n1 =? m) || (n2 =? m)) then InFront else Noop).
  split.
  { unfold mergePair. fold nw. unfold mp_pre in Ed3. fold nw in Ed3.
    set (d1' := if nw then with_node d1 m (nset_layer (d_nd d1 m) (lay d1 n1)) else d1) in *.
    rewrite Ed3, E4. cbn [bind]. rewrite E5. cbn [bind].
    assert ((lay d1' m =? lay d1' n1) = true) as ->; auto.
    apply Nat.eqb_eq. unfold d1'. destruct nw; auto. dsimp. rewrite fupd_same. dsimp.
    destruct (Nat.eq_dec n1 m) as [->|Nm]; [rewrite fupd_same; auto|now rewrite fupd_diff by auto]. }
  assert (ML : forall i, In i (skip ++ merged_layer (if nw || ((n1 =? m) || (n2 =? m)) then InFront else Noop) m n2 rest) <->
     (In i cur /\ i <> n1 /\ i <> n2) \/ i = m).
  { intros i. rewrite in_app_iff.
    assert (Hc : In i cur <-> In i skip \/ i = n1 \/ In i rest). { unfold cur. rewrite in_app_iff. cbn [In]. split; intros [?|[?|?]]; auto. }
    assert (Hs1 : In i skip -> i <> n1). { intros Hi ->. apply NI. apply in_app_iff. now left. }
    assert (Hs2 : In i skip -> i <> n2). { intros Hi ->. apply (NDx n2); auto. }
    assert (Hr1 : In i rest -> i <> n1). { intros Hi ->. apply NI. apply in_app_iff. now right. }
    destruct (nw || ((n1 =? m) || (n2 =? m))) eqn:EA; cbn [merged_layer]; rewrite ?(erase1_in rest n2 i NDr).
    - cbn [In]. rewrite (erase1_in rest n2 i NDr), Hc. clear - Hs1 Hs2 Hr1. split.
      + intros [?|[?|[? ?]]]; auto; left; csplit; auto.
      + intros [([?|[?|?]] & ? & ?)|?]; auto; tauto.
    - assert (Hm' : In m cur /\ m <> n1 /\ m <> n2).
      { apply orb_false_iff in EA as [EA1 EA2]. apply orb_false_iff in EA2 as [EA2 EA3].
        apply Nat.eqb_neq in EA2, EA3. csplit; auto. apply Mc. destruct (live_dec r d3 m) as [L|L]; auto.
        apply NP in L. congruence. }
      rewrite Hc. clear - Hs1 Hs2 Hr1 Hm' Hc. split.
      + intros [?|[? ?]]; left; csplit; auto.
      + intros [([?|[?|?]] & ? & ?)|?]; auto; try tauto. subst i. destruct Hm' as (A1 & A2 & A3). apply Hc in A1. tauto. }
  assert (NDl : NoDup (skip ++ merged_layer (if nw || ((n1 =? m) || (n2 =? m)) then InFront else Noop) m n2 rest)).
  { assert (Nb : NoDup (skip ++ erase1 n2 rest)).
    { apply NoDup_app_join; auto; [now apply erase1_nodup|]. intros x Hx Hy. apply erase1_in in Hy as [Hy _]; auto. apply (NDx x); auto. }
    destruct (nw || ((n1 =? m) || (n2 =? m))) eqn:EA; cbn [merged_layer]; auto.
    apply NoDup_Add with (a := m) (l := skip ++ erase1 n2 rest); [apply Add_app|]. split; auto.
    intros Hi. assert (Hs : In m cur /\ m <> n2).
    { apply in_app_iff in Hi as [Hi|Hi].
      - split; [apply in_app_iff; now left|]. intros ->. apply (NDx n2); auto.
      - apply erase1_in in Hi as [Hi ?]; auto. split; auto. apply in_app_iff. right. now right. }
    assert (M1 : m <> n1).
    { intros ->. apply in_app_iff in Hi as [Hi|Hi]; [apply NI; apply in_app_iff; now left|].
      apply erase1_in in Hi as [Hi ?]; auto. apply NI; apply in_app_iff; now right. }
    destruct (n1 =? m) eqn:E1; [apply Nat.eqb_eq in E1; congruence|].
    destruct (n2 =? m) eqn:E2; [apply Nat.eqb_eq in E2; destruct Hs; congruence|].
    cbn in EA. rewrite orb_false_r in EA. apply NP in EA. apply EA. apply (l_cur H3). apply Hs. }
  split; [destruct (nw || _); discriminate|]. split; [|split; [|split; [|split]]].
  - eapply linv_perm; [|apply Permutation_refl|exact H5]. apply NoDup_Permutation; auto. intros i. rewrite C, ML. reflexivity.
  - intros i Hi L N LK. apply ML. apply V in L as [(L & A1 & A2)|L]; auto.
    destruct (Nat.eq_dec i m) as [|Nm]; auto. left. csplit; auto.
    rewrite (kp_nn _ _ K5), (kp_nn _ _ K4) in Hi. rewrite (kp_lay _ _ K5), (kp_lay _ _ K4) in LK.
    pose proof (LvO i Hi L) as Hi'. destruct (Old i Hi') as [O1 O2]. rewrite O2 in LK by auto. apply Fr; auto. now apply O1.
  - intros i Hi L N LK. rewrite (kp_nn _ _ K5), (kp_nn _ _ K4) in Hi. rewrite (kp_lay _ _ K5), (kp_lay _ _ K4) in LK.
    rewrite (kp_lay _ _ K5), (kp_lay _ _ K4). apply V in L as [(L & A1 & A2)|L]; [|subst i; lia].
    destruct (Nat.eq_dec i m) as [->|Nm]; [lia|].
    pose proof (LvO i Hi L) as Hi'. destruct (Old i Hi') as [O1 O2]. rewrite (kp_ex _ _ K5), (kp_ex _ _ K4). rewrite O2 by auto. csplit; auto. now apply O1.
  - rewrite (kp_nn _ _ K5), (kp_nn _ _ K4). auto.
  - intros TD i Hi N. rewrite (kp_nn _ _ K5), (kp_nn _ _ K4) in Hi.
    rewrite (kp_lay _ _ K5), (kp_lay _ _ K4), (kp_st _ _ K5), (kp_st _ _ K4).
    destruct (Nat.eq_dec i m) as [->|Nm]; [lia|]. destruct (New i Hi) as [Hi'|]; [|congruence].
    destruct (Old i Hi') as [_ O2]. rewrite O2 by auto. now apply TD.
Qed.

Lemma find_partner_some (d : dd) n1 : forall rest n2 x, find_partner P d n1 rest = Some (n2, x) ->
  In n2 rest /\ merge P d n1 n2 = Some x.
Proof.
  induction rest as [|a rest IH]; cbn [find_partner]; intros n2 x E; [discriminate|].
  destruct (negb (nbChildren d a =? 0) || negb (lay d n1 =? lay d a)).
  - destruct (IH _ _ E). split; auto. now right.
  - destruct (merge P d n1 a) eqn:M.
    + injection E as <- <-. split; auto. now left.
    + destruct (IH _ _ E). split; auto. now right.
Qed.
Lemma find_partner_none (d : dd) n1 : forall rest, find_partner P d n1 rest = None ->
  forall n2, In n2 rest -> kids d n2 = [] -> lay d n1 = lay d n2 -> merge P d n1 n2 = None.
Proof.
  induction rest as [|a rest IH]; cbn [find_partner]; intros E n2 Hin K Y; [destruct Hin|].
  destruct (negb (nbChildren d a =? 0) || negb (lay d n1 =? lay d a)) eqn:C.
  - destruct Hin as [->|Hin]; auto. exfalso. apply orb_true_iff in C as [C|C]; apply negb_true_iff, Nat.eqb_neq in C; auto.
    apply C. now apply nbChildren_zero.
  - destruct (merge P d n1 a) eqn:M; [discriminate|]. destruct Hin as [->|Hin]; auto.
Qed.

(** merging is possible at will: the merge closure is total on states of one depth *)
Definition merge_total : Prop := forall a b, I a -> I b -> a <> p_target P -> b <> p_target P -> rank a = rank b -> p_smf P a b <> None.

Lemma merge_some d K cur next n1 n2 : linv d K nobody nobody cur next -> In n1 cur -> In n2 cur -> tidy d -> merge_total ->
  merge P d n1 n2 <> None.
Proof.
  intros H H1 H2 TD MT. pose proof (l_gen H) as G. pose proof (g_base G) as B.
  destruct (l_cur H n1 H1) as (N1 & L1 & T1 & Y1 & C1). destruct (l_cur H n2 H2) as (N2 & L2 & T2 & Y2 & C2).
  pose proof (TD n1 N1 T1) as Q1. pose proof (TD n2 N2 T2) as Q2.
  assert (I1 := b_I B n1 N1). assert (I2 := b_I B n2 N2).
  assert (S1 : st d n1 <> p_target P) by (now rewrite (st_target B N1)).
  assert (S2 : st d n2 <> p_target P) by (now rewrite (st_target B N2)).
  unfold merge. pose proof (MT _ _ I1 I2 S1 S2 ltac:(congruence)) as NN.
  destruct (p_smf P (st d n1) (st d n2)) as [vs|] eqn:SM; [|congruence].
  destruct (Hml _ _ _ I1 I2 S1 S2 ltac:(congruence) SM) as (Iv & Vt & Rv).
  destruct (hasNode P d vs) as [m|] eqn:HN.
  - destruct (hasNode_some P d vs m (eqb_base HC B Iv) HN) as [Hm Es].
    assert (Mt : m <> t) by (rewrite <- (st_target B Hm), Es; auto).
    pose proof (TD m Hm Mt) as Q. rewrite Es in Q.
    destruct (lay d m <? Nat.max (lay d n1) (lay d n2)) eqn:LT; [apply Nat.ltb_lt in LT; lia|].
    destruct (makeNode P d vs true). discriminate.
  - destruct (makeNode P d vs true). discriminate.
Qed.

Lemma mergeLayer_ok : forall fuel d K w layer skip, linv d K nobody nobody (skip ++ layer) [] -> 0 < K ->
  fresh d K (skip ++ layer) -> length layer <= fuel ->
  exists d' lk, mergeLayer P fuel d w layer skip = Ok (d', lk) /\ linv d' K nobody nobody lk [] /\ fresh d' K lk /\
    below K d d' /\ d_nn d <= d_nn d' /\ (tidy d -> tidy d') /\
    (tidy d -> merge_total -> skip = [] -> length lk <= Nat.max w 1).
Proof.
  induction fuel as [|fuel IH]; intros d K w layer skip H K0 Fr F.
  - destruct layer; [|cbn in F; lia]. cbn [mergeLayer]. exists d, skip. rewrite app_nil_r in *. csplit; auto using below_refl.
    intros _ _ ->. cbn; lia.
  - destruct layer as [|n1 rest]; cbn [mergeLayer].
    + exists d, skip. rewrite app_nil_r in *. csplit; auto using below_refl. intros _ _ ->. cbn; lia.
    + destruct (length skip + length (n1 :: rest) <=? w) eqn:LW.
      { exists d, (skip ++ n1 :: rest). csplit; auto using below_refl. intros _ _ _. rewrite app_length. lia. }
      apply Nat.leb_gt in LW. unfold mergeOne.
      assert (K1 : nbChildren d n1 = 0). { apply nbChildren_zero. apply (l_cur H n1). apply in_app_iff. right. now left. }
      rewrite K1. cbn [Nat.eqb negb].
      destruct (find_partner P d n1 rest) as [[n2 [d1 m]]|] eqn:FP.
      * apply find_partner_some in FP as [Hn2 M].
        destruct (merge_step d K skip n1 rest n2 d1 m H K0 Fr Hn2 M) as (d2 & act & E & NA & H2 & Fr2 & BL & NN & TD2).
        rewrite E. cbn [bind].
        assert (LL : length (merged_layer act m n2 rest) <= fuel).
        { pose proof (erase1_length rest n2 Hn2). cbn [length] in F. destruct act; cbn [merged_layer length]; lia. }
        destruct (IH d2 K w (merged_layer act m n2 rest) skip H2 K0 Fr2 LL) as (d' & lk & E' & H' & Fr' & BL' & NN' & TD' & W').
        exists d', lk. split.
        { destruct act; [congruence| |]; cbn [bind merged_layer] in *; exact E'. }
        csplit; auto; [|lia]. eapply below_trans; eauto.
      * cbn [bind]. destruct (IH d K w rest (skip ++ [n1])) as (d' & lk & E' & H' & Fr' & BL' & NN' & TD' & W').
        { now rewrite <- app_assoc. }
        { auto. }
        { now rewrite <- app_assoc. }
        { cbn in F; lia. }
        exists d', lk. csplit; auto. intros TD MT ->. cbn [app length] in *.
        (* a single node is left: nothing to merge it with *)
        destruct rest as [|n2 rest].
        { destruct fuel; cbn [mergeLayer] in E'; injection E' as <- <-; cbn; lia. }
        exfalso. apply (merge_some d K _ _ n1 n2 H); auto; [now left|right; now left|].
        eapply find_partner_none; eauto; [now left|apply (l_cur H); right; now left|].
        transitivity K; [|symmetry]; apply (l_cur H); [now left|right; now left].
Qed.

(** the root layer has nothing to merge *)
Lemma mergeLayer_single fuel d w n1 : 1 <= fuel -> kids d n1 = [] -> mergeLayer P fuel d w [n1] [] = Ok (d, [n1]).
Proof.
  intros F K. destruct fuel; [lia|]. cbn [mergeLayer length]. destruct (0 + 1 <=? w); auto. unfold mergeOne.
  assert (nbChildren d n1 = 0) as -> by (now apply nbChildren_zero). cbn. destruct fuel; reflexivity.
Qed.
End Merge.
