(** The layer-by-layer invariant of Restricted and Relaxed compilation on layered models. *)
From Verif Require Import Base DDModel DDSpec DDFrame DDInv.

Section Layer.
Context {St : Type}.
Variable P : prob St.
Variable I : St -> Prop.
Hypothesis HC : closed P I.
Notation dd := (dd St).
Let Heqb := cl_eqb P I HC.
Variables (r t : nat) (rs : St) (rb : Z) (rl : list Z).
Hypothesis Hrs : rs <> p_target P.
Hypothesis Hrange : in_range P rs rb.
Variable rank : St -> nat.
Hypothesis Hlay : layered P I rank.
Hypothesis Hdom : valid_dom P I rank.
Hypothesis Hdt : dom_avoids_target P I rank.
Variable primal : Z.
(** true: every arc is kept (Relaxed); false: only claimed while the diagram is exact (Restricted) *)
Variable mode : bool.

Notation base := (base P I r t rs).
Notation gen := (gen P I r t rs rb rl).
Notation live := (live r).

Definition covers (d : dd) : Prop := mode = true \/ d_exact d = true.

(** label l of node i is accounted for: infeasible, pruned by the local bound, or represented by an arc to a relaxing state *)
Definition EXPL (d : dd) (i : nat) (l : Z) : Prop := forall s', p_stf P (st d i) l = Some s' ->
  (exists loc, p_local P = Some loc /\ ~ bt P (bd d i + p_cost P (st d i) l + loc s' true) primal) \/
  (exists e, In e (kids d i) /\ obj d e = p_cost P (st d i) l /\ lbl d e = l /\ relaxes P (st d (to d e)) s').

Record linv (d : dd) (K : nat) (pe xa : nat -> Prop) (cur next : list nat) : Prop := {
  l_gen : gen d;
  l_cur : forall i, In i cur -> i < d_nn d /\ live d i /\ i <> t /\ lay d i = K /\ kids d i = [];
  l_next : forall i, In i next -> i < d_nn d /\ live d i /\ i <> t /\ lay d i = S K /\ kids d i = [];
  l_ndc : NoDup cur;
  l_ndn : NoDup next;
  l_rank : forall i, i < d_nn d -> live d i -> i <> t -> rank (st d i) = rank rs + lay d i;
  l_le : forall i, i < d_nn d -> i <> t -> lay d i <= S K;
  l_top : forall i, i < d_nn d -> live d i -> i <> t -> lay d i = S K -> In i next;
  l_M : forall e, e < d_ne d -> be P (bd d (to d e)) (bd d (from d e) + obj d e);
  l_an : forall i, In i (d_an d) <-> i < d_nn d /\ (live d i \/ i = t \/ xa i);
  l_nda : NoDup (d_an d);
  l_lbl : forall e, e < d_ne d -> to d e <> t -> lay d (to d e) = S (lay d (from d e));
  l_txm : forall e, e < d_ne d -> to d e = t -> exa d t = true -> exa d (from d e) = true;
  l_dx : d_exact d = true -> all_exact d;
  l_exp : covers d -> forall i, i < d_nn d -> live d i -> i <> t -> lay d i <= K -> ~ In i cur -> ~ pe i ->
     forall l, In l (p_labels P (st d i)) -> EXPL d i l;
  l_root : bd d r = rb /\ lab d r = rl /\ exa d r = true }.

Arguments l_gen {d K pe xa cur next} _.
Arguments l_cur {d K pe xa cur next} _.
Arguments l_next {d K pe xa cur next} _.
Arguments l_ndc {d K pe xa cur next} _.
Arguments l_ndn {d K pe xa cur next} _.
Arguments l_rank {d K pe xa cur next} _.
Arguments l_le {d K pe xa cur next} _.
Arguments l_top {d K pe xa cur next} _.
Arguments l_M {d K pe xa cur next} _.
Arguments l_an {d K pe xa cur next} _.
Arguments l_nda {d K pe xa cur next} _.
Arguments l_lbl {d K pe xa cur next} _.
Arguments l_txm {d K pe xa cur next} _.
Arguments l_dx {d K pe xa cur next} _.
Arguments l_exp {d K pe xa cur next} _.
Arguments l_root {d K pe xa cur next} _.

Definition nobody : nat -> Prop := fun _ => False.

Lemma live_dec (d : dd) i : live d i \/ ~ live d i.
Proof.
  unfold DDInv.live. destruct (Nat.eq_dec i r); [auto|]. destruct (par d i); [right|left; right; discriminate].
  intros [?|?]; congruence.
Qed.

Lemma dead_kids d i : gen d -> i < d_nn d -> ~ live d i \/ i = t -> kids d i = [].
Proof.
  intros G Hi H. pose proof (g_base G) as B.
  destruct (kids d i) as [|e es] eqn:E; auto. exfalso.
  assert (Hin : In e (kids d i)) by (rewrite E; now left).
  apply (b_kids B) in Hin as [He F]; auto.
  destruct (g_edge G e He) as (L & N & _). rewrite F in L, N. destruct H as [H|H]; [tauto|].
  subst i. apply N. rewrite (proj2 (b_t B)). reflexivity.
Qed.

(** an arc label accounted for stays accounted for when the node keeps its bound and its arcs *)
Lemma EXPL_mono d d' i l : st d' i = st d i -> bd d' i = bd d i ->
  (forall e, In e (kids d i) -> In e (kids d' i) /\ obj d' e = obj d e /\ lbl d' e = lbl d e /\
     relaxes P (st d' (to d' e)) (st d (to d e))) ->
  EXPL d i l -> EXPL d' i l.
Proof.
  intros S B K H s'. rewrite S, B. intros E. destruct (H s' E) as [?|(e & H1 & H2 & H3 & H4)]; [auto|right].
  destruct (K e H1) as (K1 & K2 & K3 & K4). exists e. csplit; try congruence. eapply relaxes_trans; eauto.
Qed.

Lemma linv_perm d K pe xa cur next cur' next' : Permutation cur cur' -> Permutation next next' ->
  linv d K pe xa cur next -> linv d K pe xa cur' next'.
Proof.
  intros P1 P2 H. destruct H. constructor; auto.
  - intros i Hi. apply l_cur0. eapply Permutation_in; [symmetry|]; eauto.
  - intros i Hi. apply l_next0. eapply Permutation_in; [symmetry|]; eauto.
  - eapply Permutation_NoDup; eauto.
  - eapply Permutation_NoDup; eauto.
  - intros. eapply Permutation_in; eauto.
  - intros C i Hi L N LK NC. apply l_exp0; auto. intros Hin. apply NC. eapply Permutation_in; eauto.
Qed.

(** exempting more nodes weakens the invariant *)
Lemma linv_pe d K (pe pe' : nat -> Prop) xa cur next : (forall i, pe i -> pe' i) ->
  linv d K pe xa cur next -> linv d K pe' xa cur next.
Proof. intros W H. destruct H. constructor; auto. Qed.

Lemma no_ptr_parent d e c : base d -> e < d_ne d -> c < d_nn d -> kids d c = [] -> from d e <> c.
Proof.
  intros B He Hc E F. assert (In e (kids d c)) by (apply (b_kids B); auto). rewrite E in H. destruct H.
Qed.
Lemma no_ptr_child d e c : base d -> e < d_ne d -> c < d_nn d -> par d c = [] -> to d e <> c.
Proof.
  intros B He Hc E F. assert (In e (par d c)) by (apply (b_par B); auto). rewrite E in H. destruct H.
Qed.

(** ** makeNode *)
Lemma linv_made d K pe cur next s x d1 c : linv d K pe nobody cur next -> made P d s x d1 c -> I s ->
  (x = true \/ (c < d_nn d -> kids d c = [])) -> (d_exact d = true -> x = true) -> (c = r -> x = true) ->
  linv d1 K pe (fun i => i = c /\ resets d c) cur next.
Proof.
  intros H M Is X DX XR. pose proof (l_gen H) as G. pose proof (g_base G) as B.
  pose proof (gen_made HC G M Is) as G1.
  pose proof (g_base G1) as B1.
  destruct (b_t B) as [Ht Et]. destruct (b_r B) as [Hr Er].
  assert (MS := m_st M). assert (ML := m_lay M). assert (MK := m_kids M).
  assert (ME := m_ed M). assert (MN := m_ne M).
  assert (Lv : forall i, i < d_nn d -> live d1 i <-> live d i).
  { intros i Hi. now apply (made_live B M). }
  assert (Old : forall i, i < d_nn d1 -> i < d_nn d \/ (i = c /\ c = d_nn d /\ ~ live d1 i)).
  { intros i Hi. destruct (m_c M) as [(?&?&?)|(?&?&?)]; [left; lia|].
    destruct (Nat.eq_dec i c) as [->|]; [right; split; auto|left; lia]. split; auto.
    now apply (made_newdead HC B M). }
  assert (OldL : forall i, i < d_nn d1 -> live d1 i \/ i = t -> i < d_nn d).
  { intros i Hi [L| ->]; auto. destruct (Old i Hi) as [?|(_&_&?)]; tauto. }
  assert (Nn : d_nn d <= d_nn d1) by (destruct (m_c M) as [(?&?&?)|(?&?&?)]; lia).
  assert (BD : forall i, i < d_nn d -> live d i \/ i = t \/ i <> c -> bd d1 i = bd d i).
  { intros i Hi L. now apply (made_keeps_live HC B M). }
  constructor; auto.
  - intros i Hi. destruct (l_cur H i Hi) as (H1 & H2 & H3 & H4 & H5).
    rewrite ML, MK by auto. csplit; auto; try lia. now apply Lv.
  - intros i Hi. destruct (l_next H i Hi) as (H1 & H2 & H3 & H4 & H5).
    rewrite ML, MK by auto. csplit; auto; try lia. now apply Lv.
  - apply (l_ndc H).
  - apply (l_ndn H).
  - intros i Hi L N. assert (Hi' : i < d_nn d) by auto. rewrite MS, ML by auto. apply (l_rank H); auto. now apply Lv.
  - intros i Hi N. destruct (Old i Hi) as [Hi'|(-> & E & _)]; [rewrite ML by auto; now apply (l_le H)|].
    destruct (m_new M E) as (_&_&->&_). lia.
  - intros i Hi L N E. assert (Hi' : i < d_nn d) by auto. rewrite ML in E by auto. apply (l_top H); auto. now apply Lv.
  - rewrite ME, MN. intros e He. destruct (b_ends B e He) as [F T].
    destruct (g_edge G e He) as (L & _).
    rewrite !BD; auto.
    + now apply (l_M H).
    + left. right. intros E. apply (no_ptr_child d e (to d e) B He T E eq_refl).
  - intros i. destruct (Nat.eq_dec i c) as [->|Nc].
    + assert (D : resets d c \/ ~ resets d c).
      { unfold resets. destruct (Nat.eq_dec c (d_nn d)); [auto|].
        destruct (par d c) eqn:E; [|right; intros [?|(?&?&?)]; [lia|congruence]].
        destruct (Nat.eq_dec c r) as [->|N1]; [right; intros [?|(_&E1&_)]; [lia|]; apply E1; apply B|].
        destruct (Nat.eq_dec c t) as [->|N2]; [right; intros [?|(_&_&E1)]; [lia|]; apply E1; apply B|].
        left; right. rewrite (b_root B), (b_trg B). csplit; auto; congruence. }
      destruct D as [D|D].
      * destruct (m_reset M D) as [_ ->]. rewrite in_app_iff. cbn [In].
        split; [intros _|auto]. split; [|auto]. destruct (m_c M) as [(?&?&?)|(?&?&?)]; lia.
      * destruct (m_keep M D) as [_ ->]. rewrite (l_an H).
        assert (c < d_nn d). { destruct (m_c M) as [(?&?&?)|(?&?&?)]; [auto|]. exfalso. apply D. now left. }
        rewrite Lv by auto. unfold nobody. intuition lia.
    + assert (In i (d_an d1) <-> In i (d_an d)) as ->.
      { assert (D : d_an d1 = d_an d \/ d_an d1 = d_an d ++ [c]).
        { destruct (m_c M) as [(C1&C2&C3)|(C1&C2&C3)].
          - destruct (par d c) eqn:E.
            + destruct (Nat.eq_dec c r) as [->|N1].
              { left. apply (m_keep M). intros [?|(_&E1&_)]; [lia|]; apply E1; apply B. }
              destruct (Nat.eq_dec c t) as [->|N2].
              { left. apply (m_keep M). intros [?|(_&_&E1)]; [lia|]; apply E1; apply B. }
              right. apply (m_reset M). right. rewrite (b_root B), (b_trg B). csplit; auto; congruence.
            + left. apply (m_keep M). intros [?|(?&?&?)]; [lia|congruence].
          - right. apply (m_reset M). now left. }
        destruct D as [-> | ->]; [tauto|]. rewrite in_app_iff. cbn [In]. intuition congruence. }
      rewrite (l_an H). unfold nobody. split.
      * intros (Hi & [L|[->|[]]]); split; try lia; auto. left. now apply Lv.
      * intros (Hi & [L|[->|[? _]]]); [|auto|congruence]. assert (i < d_nn d) by auto. split; auto. left. now apply Lv.
  - assert (ND := l_nda H).
    assert (D : d_an d1 = d_an d \/ (resets d c /\ d_an d1 = d_an d ++ [c])).
    { destruct (m_c M) as [(C1&C2&C3)|(C1&C2&C3)].
      - destruct (par d c) eqn:E.
        + destruct (Nat.eq_dec c r) as [->|N1].
          { left. apply (m_keep M). intros [?|(_&E1&_)]; [lia|]; apply E1; apply B. }
          destruct (Nat.eq_dec c t) as [->|N2].
          { left. apply (m_keep M). intros [?|(_&_&E1)]; [lia|]; apply E1; apply B. }
          right. assert (R : resets d c). { right. rewrite (b_root B), (b_trg B). csplit; auto; congruence. }
          split; auto. now apply (m_reset M).
        + left. apply (m_keep M). intros [?|(?&?&?)]; [lia|congruence].
      - right. split; [now left|]. apply (m_reset M). now left. }
    destruct D as [->|(R & ->)]; auto.
    eapply Permutation_NoDup; [apply Permutation_cons_append|]. constructor; auto.
    rewrite (l_an H). intros (Hc & [L|[->|[]]]).
    + destruct R as [?|(R1 & R2 & R3)]; [lia|]. destruct L as [->|L]; [apply R2; apply B|tauto].
    + destruct R as [?|(R1 & R2 & R3)]; [lia|]. apply R3, B.
  - rewrite ME, MN. intros e He N. destruct (b_ends B e He) as [F T]. rewrite !ML by auto. now apply (l_lbl H).
  - rewrite ME, MN. intros e He E Xt. destruct (b_ends B e He) as [F T].
    assert (Xt' : exa d t = true).
    { destruct (Nat.eq_dec t c) as [->|N].
      - rewrite (m_exc M) in Xt by auto. apply andb_true_iff in Xt; tauto.
      - now rewrite (m_ex M) in Xt by auto. }
    pose proof (l_txm H e He E Xt') as Xf.
    destruct (Nat.eq_dec (from d e) c) as [Ec|N].
    + destruct X as [-> |X].
      * rewrite Ec, (m_exc M) by lia. rewrite <- Ec, Xf. auto.
      * exfalso. apply (no_ptr_parent d e c B He); auto; [lia|]. apply X. lia.
    + now rewrite (m_ex M) by auto.
  - rewrite (m_dex M). intros D. apply (made_all_exact P I HC s d s x d1 c); auto. now apply (l_dx H).
  - unfold covers. rewrite (m_dex M). intros C i Hi L N LK NC NP l Hl.
    assert (Hi' : i < d_nn d) by auto. rewrite ML in LK by auto. rewrite MS in Hl by auto. apply Lv in L; auto.
    apply (EXPL_mono d); auto.
    + intros e He. rewrite MK, ME by auto. csplit; auto.
      apply (b_kids B) in He as [He _]; auto. destruct (b_ends B e He) as [F T].
      rewrite MS by auto. apply relaxes_refl.
    + apply (l_exp H); auto.
  - destruct (l_root H) as (R1 & R2 & R3). rewrite BD, (m_lab M) by (auto; left; now left). csplit; auto.
    destruct (Nat.eq_dec r c) as [->|N]; [rewrite (m_exc M), R3, XR by auto; auto|]. now rewrite (m_ex M) by auto.
Qed.

(** ** a new arc *)
Lemma linv_arced d K (pe xa : nat -> Prop) cur next p c l d' next' :
  let cost := p_cost P (st d p) l in
  linv d K pe xa cur next -> arced P d p c l cost d' ->
  p < d_nn d -> live d p -> p <> t -> lay d p = K -> ~ In p cur -> pe p -> In l (p_labels P (st d p)) ->
  c < d_nn d -> p <> c -> kids d c = [] -> (forall i, xa i -> i = c) -> (live d c \/ c = t \/ xa c) ->
  (c = t -> exa d t = true -> exa d p = true) ->
  (c <> t -> c <> r /\ rank (st d c) = rank rs + S K) ->
  ((p_stf P (st d p) l = Some (st d c) /\ (exa d c = true -> exa d p = true) /\ (~ live d c -> bd d c = sentinel P)) \/
   (live d c /\ c <> t /\ ~ bt P (bd d p + cost) (bd d c))) ->
  ((c = t \/ In c next) /\ next' = next) \/ (~ live d c /\ c <> t /\ next' = c :: next) ->
  linv d' K pe nobody cur next'.
Proof.
  intros cost H A Hp Lp Np Kp Ncur Pp Hl Hc Npc Kc Xc Ac Xt Rc Hk Hn.
  pose proof (l_gen H) as G. pose proof (g_base G) as B.
  assert (Ntp : st d p <> p_target P) by (rewrite (st_target B Hp); auto).
  assert (G' : gen d') by (apply (gen_arced HC Hrange G A); auto).
  pose proof (g_base G') as B'.
  destruct (b_t B) as [Ht Et]. destruct (b_r B) as [Hr Er].
  assert (AN := a_nn A). assert (AE := a_ne A). assert (AS := a_st A). assert (ED := a_ed A). assert (EN := a_edn A).
  assert (AK := a_kids A). assert (AL := a_lay A). assert (AB := a_bd A). assert (AX := a_ex A).
  assert (Lc' : live d' c) by (eapply arced_live_c; eauto).
  assert (Lup : forall i, live d i -> live d' i) by (intros i; apply (arced_live A)).
  assert (Ldn : forall i, live d' i -> i = c \/ live d i) by (intros i; apply (arced_live_inv A)).
  assert (LYc : c <> t -> lay d' c = S K).
  { intros N. rewrite (a_layc A), Kp. pose proof (l_le H c Hc N). lia. }
  assert (Ncc : ~ In c cur).
  { intros Hin. destruct (l_cur H c Hin) as (_ & L & N & E & _).
    destruct Hn as [([->|Hin'] & _)|(NL & _)]; auto. destruct (l_next H c Hin') as (_ & _ & _ & E' & _). lia. }
  assert (Ncn : In c next -> c <> t) by (intros Hin; apply (l_next H c Hin)).
  assert (Inn : forall i, In i next -> In i next').
  { intros i Hi. destruct Hn as [(_ & ->)|(_ & _ & ->)]; cbn; auto. }
  assert (Inc : c <> t -> In c next').
  { intros N. destruct Hn as [([?|?] & ->)|(_ & _ & ->)]; cbn; auto. congruence. }
  assert (Inn' : forall i, In i next' -> In i next \/ (i = c /\ c <> t)).
  { intros i Hi. destruct Hn as [(_ & ->)|(_ & N & ->)]; auto. destruct Hi as [<-|Hi]; auto. }
  constructor; auto.
  - intros i Hi. destruct (l_cur H i Hi) as (H1 & H2 & H3 & H4 & H5).
    assert (i <> c) by congruence. assert (i <> p) by congruence. rewrite AN, AL, AK by auto. csplit; auto.
  - intros i Hi. destruct (Inn' i Hi) as [Hi'|(-> & N)].
    + destruct (l_next H i Hi') as (H1 & H2 & H3 & H4 & H5). assert (i <> p) by (intros ->; lia).
      rewrite AN, AK by auto. csplit; auto. destruct (Nat.eq_dec i c) as [->|]; auto. rewrite AL; auto.
    + rewrite AN, AK by auto. csplit; auto.
  - apply (l_ndc H).
  - destruct Hn as [(_ & ->)|(NL & N & ->)]; [apply (l_ndn H)|]. constructor; [|apply (l_ndn H)].
    intros Hin. apply NL. apply (l_next H c Hin).
  - intros i Hi L N. rewrite AS. rewrite AN in Hi. destruct (Nat.eq_dec i c) as [->|Nc].
    + rewrite LYc by auto. now apply Rc.
    + rewrite AL by auto. destruct (Ldn i L); [congruence|]. now apply (l_rank H).
  - intros i Hi N. rewrite AN in Hi. destruct (Nat.eq_dec i c) as [->|Nc]; [rewrite LYc; auto|]. rewrite AL by auto. now apply (l_le H).
  - intros i Hi L N E. rewrite AN in Hi. destruct (Nat.eq_dec i c) as [->|Nc]; auto.
    rewrite AL in E by auto. destruct (Ldn i L); [congruence|]. apply Inn. now apply (l_top H).
  - intros e He. rewrite AE in He. destruct (Nat.eq_dec e (d_ne d)) as [->|Ne].
    + rewrite EN. cbn [e_to e_from e_obj]. rewrite (AB p) by auto.
      destruct (a_bdc A) as [(_ & -> & _)|(NB & -> & _)]; [apply be_refl|]. vlia.
    + rewrite ED by auto. pose proof (l_M H e ltac:(lia)) as Me.
      rewrite (AB (from d e)) by (apply no_ptr_parent; auto; lia).
      destruct (Nat.eq_dec (to d e) c) as [Ec|Nc].
      * rewrite Ec in *. destruct (a_bdc A) as [(Bt & -> & _)|(NB & -> & _)]; auto. fold cost in Bt. vlia.
      * now rewrite AB by auto.
  - intros i. rewrite (a_an A), (l_an H), AN. split.
    + intros (Hi & [L|[->|X]]); split; auto. left. apply Xc in X. now subst.
    + intros (Hi & [L|[->|[]]]); split; auto. destruct (Ldn i L) as [->|L']; auto.
  - rewrite (a_an A). apply (l_nda H).
  - intros e He. rewrite AE in He. destruct (Nat.eq_dec e (d_ne d)) as [->|Ne].
    + rewrite EN. cbn [e_to e_from e_obj]. intros N. rewrite (AL p), LYc by auto. congruence.
    + rewrite ED by auto. intros N. destruct (b_ends B e ltac:(lia)) as [F T].
      rewrite (AL (from d e)) by (apply no_ptr_parent; auto; lia).
      destruct (Nat.eq_dec (to d e) c) as [Ec|Nc].
      * rewrite <- (l_lbl H e ltac:(lia) N). rewrite Ec in *. rewrite LYc by auto. symmetry.
        assert (L : live d c). { right. intros E. apply (no_ptr_child d e c B ltac:(lia) Hc E). auto. }
        pose proof (l_rank H c Hc L N). destruct (Rc N). lia.
      * rewrite AL by auto. apply (l_lbl H); [lia|auto].
  - intros e He. rewrite AE in He. rewrite !AX. destruct (Nat.eq_dec e (d_ne d)) as [->|Ne].
    + rewrite EN. cbn [e_to e_from e_obj]. auto.
    + rewrite ED by auto. apply (l_txm H). lia.
  - rewrite (a_dex A). intros D i Hi. rewrite AX. rewrite AN in Hi. now apply (l_dx H).
  - unfold covers. rewrite (a_dex A), AN. intros C i Hi L N LK NC NP l' Hl'. rewrite AS in Hl'.
    assert (Nc : i <> c). { intros ->. rewrite LYc in LK by auto. lia. }
    assert (Nip : i <> p) by congruence.
    apply (EXPL_mono d); auto.
    + intros e He. rewrite AK by auto. apply (b_kids B) in He as HH; auto. destruct HH as [He' _].
      rewrite ED by lia. csplit; auto. rewrite AS. apply relaxes_refl.
    + rewrite AL in LK by auto. apply (l_exp H); auto. destruct (Ldn i L); [congruence|auto].
  - destruct (l_root H) as (R1 & R2 & R3). pose proof (base_rt Hrs B) as Nrt.
    assert (Ncr : r <> c) by (intros <-; destruct (Rc Nrt); congruence).
    rewrite AB, (a_lab A), AX by auto. auto.
Qed.

(** the processed label is accounted for, the other labels stay accounted for *)
Lemma EXPL_arced d p c l s' d' : base d -> p <> c -> arced P d p c l (p_cost P (st d p) l) d' ->
  p_stf P (st d p) l = Some s' -> relaxes P (st d c) s' -> EXPL d' p l.
Proof.
  intros B N A S R s2. rewrite (a_st A). intros S2. right. exists (d_ne d).
  rewrite (a_kidsp A), (a_edn A), in_app_iff. cbn. csplit; auto. rewrite (a_st A). rewrite S in S2. injection S2 as <-. exact R.
Qed.
Lemma EXPL_arced_old d p c l cost d' l' : base d -> p < d_nn d -> p <> c -> arced P d p c l cost d' -> EXPL d p l' -> EXPL d' p l'.
Proof.
  intros B Hp N A H. apply (EXPL_mono d); auto; try apply A; auto.
  intros e He. rewrite (a_kidsp A), in_app_iff. apply (b_kids B) in He as HH; auto. destruct HH as [He' _].
  rewrite (a_ed A) by lia. csplit; auto. rewrite (a_st A). apply relaxes_refl.
Qed.
Lemma EXPL_made d s x d1 c p l : base d -> p < d_nn d -> live d p -> made P d s x d1 c -> EXPL d p l -> EXPL d1 p l.
Proof.
  intros B Hp L M H. apply (EXPL_mono d); auto.
  - now apply (m_st M).
  - apply (made_keeps_live HC B M); auto.
  - intros e He. rewrite (m_kids M), (m_ed M) by auto. apply (b_kids B) in He as HH; auto. destruct HH as [He' _].
    destruct (b_ends B e He') as [F T]. csplit; auto. rewrite (m_st M) by auto. apply relaxes_refl.
Qed.

(** the nodes of the layers up to K are those there were before, as exact as before *)
Definition low (K : nat) (d d' : dd) : Prop := forall i, i < d_nn d' -> live d' i -> i <> t -> lay d' i <= K ->
  i < d_nn d /\ live d i /\ lay d' i = lay d i /\ exa d' i = exa d i.
Lemma low_refl K d : low K d d.
Proof. intros i; auto. Qed.
Lemma low_trans K d d1 d2 : low K d d1 -> low K d1 d2 -> low K d d2.
Proof.
  intros A B i Hi L N LK. destruct (B i Hi L N LK) as (H1 & H2 & H3 & H3'). rewrite H3 in LK.
  destruct (A i H1 H2 N LK) as (H4 & H5 & H6 & H6'). csplit; auto; congruence.
Qed.
Lemma low_made K d s x d1 c : base d -> made P d s x d1 c -> (c < d_nn d -> c = t \/ ~ live d c \/ K < lay d c) -> low K d d1.
Proof.
  intros B M Hc i Hi L N LK.
  assert (Hi' : i < d_nn d).
  { destruct (m_c M) as [(?&?&?)|(C&?&?)]; [lia|]. destruct (Nat.eq_dec i c) as [->|]; [|lia].
    exfalso. now apply (made_newdead HC B M). }
  csplit; auto; [now apply (made_live B M) in L|now apply (m_lay M)|].
  apply (m_ex M); auto. intros ->. rewrite (m_lay M) in LK by auto. apply (made_live B M) in L; auto. destruct (Hc Hi') as [?|[?|?]]; auto. lia.
Qed.
Lemma low_arced K d p c l cost d' : arced P d p c l cost d' -> (c = t \/ lay d p = K) -> low K d d'.
Proof.
  intros A H i Hi L N LK. rewrite (a_nn A) in Hi. destruct (arced_live_inv A L) as [->|L'].
  - rewrite (a_layc A) in LK. destruct H; [congruence|lia].
  - destruct (Nat.eq_dec i c) as [->|Nc].
    + rewrite (a_layc A) in LK. destruct H; [congruence|lia].
    + csplit; auto; [now apply (a_lay A)|apply (a_ex A)].
Qed.

(** ** one arc: always succeeds and keeps the invariant *)
Definition pushq (q : list nat) (enq : option nat) : list nat := match enq with Some c => c :: q | None => q end.

Lemma step_arc_linv d K (pe : nat -> Prop) cur next p l :
  linv d K pe nobody cur next -> p < d_nn d -> live d p -> p <> t -> lay d p = K -> ~ In p cur -> pe p ->
  In l (p_labels P (st d p)) ->
  exists d' enq, step_arc P d primal next p l = Ok (d', enq) /\
    linv d' K pe nobody cur (pushq next enq) /\ d_exact d' = d_exact d /\
    d_nn d <= d_nn d' /\ st d' p = st d p /\ bd d' p = bd d p /\ live d' p /\ lay d' p = K /\
    EXPL d' p l /\ (forall l', EXPL d p l' -> EXPL d' p l') /\
    (forall c, enq = Some c -> lay d' c = S K) /\
    (forall i, i < d_nn d -> exa d i = true -> d_exact d = true -> exa d' i = true) /\ low K d d'.
Proof.
  intros H Hp Lp Np Kp Ncur Pp Hl. pose proof (l_gen H) as G. pose proof (g_base G) as B.
  destruct (b_t B) as [Ht Et]. destruct (b_r B) as [Hr Er].
  assert (Ntp : st d p <> p_target P) by (rewrite (st_target B Hp); auto).
  destruct (transition P d primal p l) as [d1 o] eqn:T.
  destruct (transition_spec P _ _ _ _ _ _ (eqb_next HC B Hp Ntp Hl) T) as [(-> & -> & Why)|(c0 & s' & -> & S & Pr & M)].
  - exists d, None. rewrite (step_arc_none P _ _ _ _ _ _ T). csplit; auto using low_refl; try discriminate.
    intros s' S'. destruct Why as [?|(s2 & loc & S2 & ? & ?)]; [congruence|]. left. exists loc. split; auto. congruence.
  - rewrite (step_arc_some P _ _ _ _ _ _ _ T).
    assert (Is : I s') by (eapply (cl_step P I HC); eauto; now apply (b_I B)).
    (* the child is new, dead, queued or the sink *)
    assert (Rk : s' <> p_target P -> rank s' = rank rs + Datatypes.S K).
    { intros N. rewrite (Hlay _ _ _ (b_I B p Hp) Ntp Hl S N), (l_rank H p Hp Lp Np). lia. }
    assert (Cs : c0 < d_nn d -> c0 = t \/ (s' <> p_target P /\ c0 <> r /\ (~ live d c0 \/ In c0 next))).
    { intros Hc. destruct (m_c M) as [(C1 & C2 & C3)|(C1&_)]; [|lia].
      destruct (Nat.eq_dec c0 t) as [|Nt]; auto. right.
      assert (Ns : s' <> p_target P) by (rewrite <- C2, (st_target B Hc); auto).
      specialize (Rk Ns). csplit; auto.
      - intros ->. rewrite Er in C2. subst s'. lia.
      - destruct (live_dec d c0) as [L|L]; auto. right. apply (l_top H); auto.
        pose proof (l_rank H c0 Hc L Nt). rewrite C2 in *. lia. }
    assert (Cl : c0 < d_nn d -> c0 = t \/ ~ live d c0 \/ K < lay d c0).
    { intros Hc. destruct (Cs Hc) as [?|(_ & _ & [?|Q])]; auto. right. right. destruct (l_next H c0 Q) as (_ & _ & _ & E & _). lia. }
    assert (Kc0 : c0 < d_nn d -> kids d c0 = []).
    { intros Hc. destruct (Cs Hc) as [->|(_ & _ & [D|Q])].
      - apply dead_kids; auto.
      - apply dead_kids; auto.
      - apply (l_next H c0 Q). }
    assert (DX : d_exact d = true -> exa d p = true) by (intros D; apply (l_dx H); auto).
    assert (Nr0 : c0 <> r).
    { intros ->. destruct (Cs Hr) as [E|(_ & ? & _)]; [|congruence]. apply (base_rt Hrs B E). }
    pose proof (linv_made _ _ _ _ _ _ _ _ _ H M Is (or_intror Kc0) DX (fun E => False_ind _ (Nr0 E))) as H1.
    pose proof (l_gen H1) as G1. pose proof (g_base G1) as B1.
    assert (Hc0 : c0 < d_nn d1) by (destruct (m_c M) as [(?&?&?)|(?&?&?)]; lia).
    assert (Nn1 : d_nn d <= d_nn d1) by (destruct (m_c M) as [(?&?&?)|(?&?&?)]; lia).
    assert (Hp1 : p < d_nn d1) by lia.
    assert (Sp : st d1 p = st d p) by (now apply (m_st M)).
    assert (Lp1 : live d1 p) by (now apply (made_live B M)).
    assert (Bp : bd d1 p = bd d p) by (apply (made_keeps_live HC B M); auto).
    assert (Kp1 : lay d1 p = K) by (now rewrite (m_lay M)).
    assert (Kc1 : kids d1 c0 = []).
    { destruct (m_c M) as [(C1&C2&C3)|(C1&C2&C3)]; [rewrite (m_kids M); auto|now apply (m_new M)]. }
    assert (Npc0 : p <> c0).
    { intros <-. destruct (Cs Hp) as [?|(Ns & _ & [?|Q])]; auto. destruct (l_next H p Q) as (_&_&_&?&_). lia. }
    assert (Xp : exa d1 p = exa d p) by (now apply (m_ex M)).
    assert (Xc : exa d1 c0 = true -> exa d1 p = true).
    { rewrite Xp. intros X. destruct (m_c M) as [(C1&C2&C3)|(C1&C2&C3)].
      - rewrite (m_exc M) in X by auto. apply andb_true_iff in X; tauto.
      - destruct (m_new M C1) as (_&_&_&X2&_). congruence. }
    assert (Ct : c0 = t <-> s' = p_target P).
    { rewrite <- (st_target B1 Hc0), (m_stc M). reflexivity. }
    assert (Eold : forall l', EXPL d p l' -> EXPL d1 p l') by (intros l'; apply (EXPL_made d s' (exa d p) d1 c0); auto).
    assert (Mono : forall i, i < d_nn d -> exa d i = true -> d_exact d = true -> exa d1 i = true).
    { intros i Hi Xi D. destruct (Nat.eq_dec i c0) as [->|Ni]; [rewrite (m_exc M) by auto; rewrite Xi, DX; auto|].
      now rewrite (m_ex M) by auto. }
    unfold dom_sel.
    (* two ways to continue *)
    assert (Plain : exists d' enq, (do d5 <- arc_tail P d1 p c0 l (p_cost P (st d1 p) l) ;
         if negb (p_eqs P (st d5 c0)) && (nbParents d1 c0 =? 0) then Ok (d5, Some c0) else Ok (d5, None)) = Ok (d', enq) /\
       linv d' K pe nobody cur (pushq next enq) /\ d_exact d' = d_exact d /\
       d_nn d <= d_nn d' /\ st d' p = st d p /\ bd d' p = bd d p /\ live d' p /\ lay d' p = K /\
       EXPL d' p l /\ (forall l', EXPL d p l' -> EXPL d' p l') /\
       (forall c, enq = Some c -> lay d' c = Datatypes.S K) /\
       (forall i, i < d_nn d -> exa d i = true -> d_exact d = true -> exa d' i = true) /\ low K d d').
    { destruct (arc_tail_ok P d1 p c0 l (p_cost P (st d1 p) l) Npc0) as [d5 E5]. rewrite E5. cbn [bind].
      apply arc_tail_arced in E5 as [_ A].
      assert (Hq : p_eqs P (st d5 c0) = true <-> c0 = t).
      { rewrite (a_st A), (m_stc M), Ct. apply (cl_eqs P I HC); auto. }
      set (enq := if negb (p_eqs P (st d5 c0)) && (nbParents d1 c0 =? 0) then Some c0 else None).
      exists d5, enq. split; [unfold enq; destruct (_ && _); auto|].
      assert (L5 : linv d5 K pe nobody cur (pushq next enq)).
      { eapply (linv_arced d1 K pe _ cur next p c0 l d5 (pushq next enq) H1 A); auto.
        - now rewrite Sp.
        - now intros i [? _].
        - assert (D : resets d c0 \/ (live d c0 /\ c0 < d_nn d) \/ c0 = t).
          { destruct (m_c M) as [(C1&C2&C3)|(C1&C2&C3)]; [|left; now left].
            destruct (Cs C1) as [?|(_ & Nr & [D|Q])]; auto.
            - destruct (Nat.eq_dec c0 t); auto. left; right. rewrite (b_root B), (b_trg B). csplit; try congruence.
              destruct (par d c0) eqn:E; auto. exfalso; apply D; right; congruence.
            - destruct (l_next H c0 Q) as (?&?&?). auto. }
          destruct D as [D|[(D & D')|D]]; auto. left. now apply (made_live B M).
        - intros -> X. auto.
        - intros Nt. rewrite (m_stc M). split; [|apply Rk; intros E; apply Nt, Ct, E].
          intros ->. destruct (Cs Hr) as [?|(_ & ? & _)]; congruence.
        - left. rewrite Sp, (m_stc M). csplit; auto. exact (made_dead_sent HC G M).
        - unfold enq. destruct (p_eqs P (st d5 c0)) eqn:EQ; cbn [negb andb pushq].
          + left. split; auto. left. now apply Hq.
          + assert (Nt : c0 <> t) by (rewrite <- Hq; congruence).
            destruct (Nat.eqb_spec (nbParents d1 c0) 0) as [Z0|NZ]; cbn [pushq].
            * right. csplit; auto. apply nbParents_zero in Z0. intros [E|E]; [|congruence].
              subst c0. destruct (Cs Hr) as [?|(_ & ? & _)]; congruence.
            * left. split; auto. right.
              destruct (m_c M) as [(C1&C2&C3)|(C1&C2&C3)].
              -- destruct (Cs C1) as [?|(_ & _ & [D|Q])]; auto; [congruence|]. exfalso. apply D.
                 right. rewrite <- (m_par M) by auto. intros E. apply NZ. now apply nbParents_zero.
              -- exfalso. apply NZ, nbParents_zero. now apply (m_new M). }
      csplit; auto.
      - rewrite (a_dex A). apply M.
      - rewrite (a_nn A). auto.
      - now rewrite (a_st A).
      - now rewrite (a_bd A).
      - now apply (arced_live A).
      - now rewrite (a_lay A).
      - apply (EXPL_arced d1 p c0 l s'); auto; [now rewrite Sp|]. rewrite (m_stc M). apply relaxes_refl.
      - intros l' El. apply (EXPL_arced_old d1 p c0 l _ d5 l' B1 Hp1 Npc0 A). auto.
      - intros c Ec. assert (In c (pushq next enq)) by (rewrite Ec; now left). apply (l_next L5); auto.
      - intros i Hi Xi D. rewrite (a_ex A). auto.
      - apply low_trans with d1; [now apply (low_made K d s' (exa d p) d1 c0)|]. eapply low_arced; eauto. }
    destruct (p_sdom P) as [sdom|] eqn:SD; [|exact Plain].
    destruct (Nat.eqb_spec (nbParents d1 c0) 0) as [Z0|NZ]; [|exact Plain].
    destruct (checkDominance P d1 sdom next c0 (bd d1 p + p_cost P (st d1 p) l)) as [o|] eqn:CD; [|exact Plain].
    (* dominated *)
    clear Plain. unfold checkDominance in CD. apply find_some in CD as [Hin HB].
    apply andb_true_iff in HB as [HB1 HB2]. apply isBetterEQ_be in HB1.
    assert (Ns : s' <> p_target P).
    { intros E. destruct (l_next H1 o Hin) as (Ho & Lo & Not & Yo & _). pose proof (l_rank H1 o Ho Lo Not) as Ro. rewrite Yo in Ro.
      pose proof (l_rank H p Hp Lp Np) as Rp. rewrite Kp in Rp. rewrite (m_stc M), E in HB2.
      rewrite (Hdt sdom (st d1 o) (st d p) l SD) in HB2; try discriminate; auto.
      - now apply (b_I B1).
      - now rewrite (st_target B1 Ho).
      - now apply (b_I B).
      - congruence.
      - lia. }
    assert (Nt : c0 <> t) by (intros E; apply Ns, Ct, E).
    assert (Nr : c0 <> r). { intros ->. destruct (Cs Hr) as [?|(_ & ? & _)]; congruence. }
    assert (Rs : resets d c0).
    { destruct (m_c M) as [(C1&C2&C3)|(C1&C2&C3)]; [|now left]. right. rewrite (b_root B), (b_trg B).
      csplit; try congruence. rewrite <- (m_par M) by auto. now apply nbParents_zero. }
    destruct (m_reset M Rs) as [_ AN]. rewrite AN. unfold an_pop.
    destruct (d_an d ++ [c0]) as [|y ys] eqn:EA; [now apply app_eq_nil in EA as [_ ?]|]. rewrite <- EA, removelast_last. cbn [bind].
    set (d2 := with_an d1 (d_an d)).
    assert (H2 : linv d2 K pe nobody cur next).
    { assert (D0 : ~ live d1 c0). { intros [?|E]; [congruence|]. apply E. now apply nbParents_zero. }
      destruct H1. constructor; auto.
      - now apply gen_with_an.
      - intros i. unfold d2; dsimp. rewrite (l_an H). change (DDInv.live r (with_an d1 (d_an d)) i) with (live d1 i). split.
        + intros (Hi & [L|[->|[]]]); split; auto; try lia. left. now apply (made_live B M).
        + intros (Hi & [L|[->|[]]]); auto.
          assert (i < d_nn d). { destruct (m_c M) as [(?&?&?)|(?&?&?)]; [lia|]. destruct (Nat.eq_dec i c0) as [->|]; [tauto|lia]. }
          split; auto. left. now apply (made_live B M).
      - apply (l_nda H). }
    destruct (l_next H2 o Hin) as (Ho & Lo & Not & Yo & Ko).
    assert (Npo : p <> o). { intros <-. unfold d2 in Yo. dsimp. lia. }
    destruct (arc_tail_ok P d2 p o l (p_cost P (st d1 p) l) Npo) as [d5 E5]. rewrite E5. cbn [bind]. rewrite andb_false_r.
    apply arc_tail_arced in E5 as [_ A]. exists d5, None. split; auto. cbn [pushq].
    assert (B2 : base d2) by (apply (g_base (l_gen H2))).
    assert (L5 : linv d5 K pe nobody cur next).
    { eapply (linv_arced d2 K pe _ cur next p o l d5 next H2 A); auto; unfold d2; dsimp; auto.
      - now rewrite Sp.
      - intros i [].
      - intros _. split.
        + intros ->. pose proof (l_rank H2 r Ho Lo Not) as E. change (st d2 r) with (st d1 r) in E.
          rewrite (proj2 (b_r B1)) in E. lia.
        + pose proof (l_rank H2 o Ho Lo Not) as E. change (st d2 o) with (st d1 o) in E. lia.
      - right. csplit; auto. vlia. }
    csplit; auto; try discriminate.
    + rewrite (a_dex A). apply M.
    + rewrite (a_nn A). auto.
    + now rewrite (a_st A).
    + rewrite (a_bd A); auto.
    + now apply (arced_live A).
    + rewrite (a_lay A); auto.
    + apply (EXPL_arced d2 p o l s' d5 B2 Npo A); [unfold d2; dsimp; now rewrite Sp|].
      unfold d2; dsimp. rewrite (m_stc M) in HB2. eapply Hdom; eauto.
      { apply (b_I B2 o Ho). }
      { change (st d2 o <> p_target P). now rewrite (st_target B2 Ho). }
      { pose proof (l_rank H2 o Ho Lo Not) as Ro. rewrite Yo in Ro. change (st d2 o) with (st d1 o) in Ro.
        rewrite Ro. symmetry. auto. }
    + intros l' El. apply (EXPL_arced_old d2 p o l _ d5 l' B2 Hp1 Npo A). now apply Eold.
    + intros i Hi Xi D. rewrite (a_ex A). apply Mono; auto.
    + apply low_trans with d1; [now apply (low_made K d s' (exa d p) d1 c0)|].
      intros i Hi L N LK. refine (low_arced K d2 p o l _ d5 A (or_intror Kp1) i Hi L N LK).
Qed.
End Layer.
Arguments l_gen {St P I r t rs rb rl rank primal mode d K pe xa cur next} _.
Arguments l_cur {St P I r t rs rb rl rank primal mode d K pe xa cur next} _.
Arguments l_next {St P I r t rs rb rl rank primal mode d K pe xa cur next} _.
Arguments l_ndc {St P I r t rs rb rl rank primal mode d K pe xa cur next} _.
Arguments l_ndn {St P I r t rs rb rl rank primal mode d K pe xa cur next} _.
Arguments l_rank {St P I r t rs rb rl rank primal mode d K pe xa cur next} _.
Arguments l_le {St P I r t rs rb rl rank primal mode d K pe xa cur next} _.
Arguments l_top {St P I r t rs rb rl rank primal mode d K pe xa cur next} _.
Arguments l_M {St P I r t rs rb rl rank primal mode d K pe xa cur next} _.
Arguments l_an {St P I r t rs rb rl rank primal mode d K pe xa cur next} _.
Arguments l_nda {St P I r t rs rb rl rank primal mode d K pe xa cur next} _.
Arguments l_lbl {St P I r t rs rb rl rank primal mode d K pe xa cur next} _.
Arguments l_txm {St P I r t rs rb rl rank primal mode d K pe xa cur next} _.
Arguments l_dx {St P I r t rs rb rl rank primal mode d K pe xa cur next} _.
Arguments l_exp {St P I r t rs rb rl rank primal mode d K pe xa cur next} _.
Arguments l_root {St P I r t rs rb rl rank primal mode d K pe xa cur next} _.
Arguments dead_kids {St P I r t rs rb rl d i} _ _ _.
Arguments linv_perm {St P I r t rs rb rl rank primal mode d K pe xa cur next cur' next'} _ _ _.
Arguments linv_pe {St P I r t rs rb rl rank primal mode d K pe} pe' {xa cur next} _ _.
