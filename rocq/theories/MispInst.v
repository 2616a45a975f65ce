(** misp2.cpp to misp5.cpp decide vertex by vertex; misp.cpp picks the vertices one by one. *)
From Verif Require Import Base DDModel DDSpec DDFrame DDRestricted DDExact SearchModel SearchProofs TspModel TspProofs MispModel MispSpec MispProofs.
From Coq Require Import NArith Nnat Sorting.Sorted.

Lemma misp_eqb_eq a b : misp_eqb a b = true <-> a = b.
Proof.
  unfold misp_eqb. rewrite !andb_true_iff, Nat.eqb_eq, Z.eqb_eq, N.eqb_eq. destruct a, b; cbn. split; [intros [[? ?] ?]; congruence|intros [= ? ? ?]; auto].
Qed.
Lemma misp4_eqb_eq a b : misp4_eqb a b = true <-> a = b.
Proof.
  unfold misp4_eqb. rewrite !andb_true_iff, Nat.eqb_eq, N.eqb_eq. destruct a, b; cbn. split; [intros [? ?]; congruence|intros [= ? ?]; auto].
Qed.

Section Inst.
Variables (top : nat) (es : list (nat * nat)) (weight : nat -> Z).
Hypothesis Ht : 1 <= top.

Lemma m_next_spec sel : forall fuel v, (0 <= v)%Z -> (exists u, bmem sel u = true /\ v <= Z.of_nat u < Z.of_nat top)%Z -> (Z.of_nat top - v < Z.of_nat fuel)%Z ->
  let r := m_next top fuel sel v in (v <= r < Z.of_nat top)%Z /\ bmem sel (Z.to_nat r) = true /\ forall u, bmem sel u = true -> (v <= Z.of_nat u)%Z -> (r <= Z.of_nat u)%Z.
Proof.
  induction fuel as [|f IH]; intros v Hv (u & U1 & U2) Hf; [lia|]. cbn [m_next].
  destruct (zmem sel v) eqn:Z1; cbn [negb andb].
  - apply zmem_spec in Z1 as [_ Z1]. cbn. csplit; auto; lia.
  - destruct (Z.leb_spec v (Z.of_nat top)); [|lia].
    assert (NV : forall w, bmem sel w = true -> (v <= Z.of_nat w)%Z -> (v + 1 <= Z.of_nat w)%Z).
    { intros w W1 W2. destruct (Z.eq_dec v (Z.of_nat w)) as [E|N]; [|lia]. exfalso. subst v. unfold zmem in Z1. rewrite Nat2Z.id, W1 in Z1.
      destruct (Z.leb_spec 0 (Z.of_nat w)); [discriminate|lia]. }
    destruct (IH (v + 1)%Z) as (R1 & R2 & R3); [lia| |lia|].
    + exists u. split; auto. specialize (NV u U1). lia.
    + cbn zeta. csplit; auto; try lia.
Qed.

(** ** misp2 *)
Definition live2 (s : misp) : Prop :=
  (exists v, bmem (m_sel s) v = true) /\ (forall v, bmem (m_sel s) v = true -> (m_l s < Z.of_nat v < Z.of_nat top)%Z) /\ (-1 <= m_l s)%Z /\
  (Z.of_nat (m_n s) <= m_l s + 1)%Z.
Definition cur2 (s : misp) : nat := Z.to_nat (m2_v top s).
Lemma m2_v_spec s : live2 s -> (m_l s < m2_v top s < Z.of_nat top)%Z /\ bmem (m_sel s) (cur2 s) = true /\ m2_v top s = Z.of_nat (cur2 s) /\
  forall u, bmem (m_sel s) u = true -> cur2 s <= u.
Proof.
  intros ((v & Hv) & L2 & L3 & L4). unfold cur2, m2_v.
  destruct (m_next_spec (m_sel s) (top + 2) (m_l s + 1)) as (R1 & R2 & R3); [lia| |lia|].
  - exists v. split; auto. specialize (L2 v Hv). lia.
  - split; [lia|]. split; [auto|]. split; [lia|]. intros u Hu. specialize (L2 u Hu) as Q. specialize (R3 u Hu). lia.
Qed.
Lemma dec2 : decision top es weight (misp2 top es weight) m_sel cur2 m_n live2.
Proof.
  constructor.
  - reflexivity.
  - apply misp_eqb_eq.
  - intros s ((v & Hv) & _). cbn. unfold m1_eqs. destruct (N.eqb_spec (m_sel s) 0) as [E|]; auto. rewrite E, bmem_0 in Hv. discriminate.
  - reflexivity.
  - intros s ((v & Hv) & _) ->. cbn in Hv. discriminate.
  - intros s [H _]. auto.
  - intros s v Hs Hv. destruct (m2_v_spec s Hs) as (_ & _ & _ & M). specialize (M v Hv). destruct Hs as (_ & L & _). specialize (L v Hv). lia.
  - intros s l _. cbn. intuition.
  - reflexivity.
  - intros s Hs B. destruct (m2_v_spec s Hs) as (_ & B' & _). congruence.
  - intros s l Hs A. destruct (m2_v_spec s Hs) as (V1 & V2 & V3 & V4). cbn [misp2 p_stf p_target]. unfold m2_stf. cbv zeta.
    destruct (Z.eqb_spec (m2_v top s) (Z.of_nat top)); [lia|]. fold (cur2 s).
    set (out := if (l =? 0)%Z then bdel (m_sel s) (cur2 s) else N.ldiff (m_sel s) (nbrs top es (cur2 s))).
    assert (O : forall v, bmem out v = true <-> stays es m_sel cur2 s l v).
    { intros v. unfold out, stays. destruct A as [->|[-> _]]; cbn [Z.eqb].
      - rewrite bmem_del, andb_true_iff, negb_true_iff, Nat.eqb_neq. intuition congruence.
      - rewrite bmem_diff, andb_true_iff, negb_true_iff. rewrite <- not_true_iff_false, nbrs_spec.
        split; [intros [H1 H2]; pose proof (proj1 (proj2 Hs) v H1)|intros (H1 & H2 & H3)].
        + split; auto. split; [|intros _]; intros Q; apply H2; (split; [lia|auto]).
        + split; auto. intros [_ [Q|Q]]; [congruence|]. now apply H3. }
    eexists. split; [reflexivity|]. destruct (N.eqb_spec out 0) as [E0|E0].
    + left. split; [cbn; now rewrite E0|]. intros v Hv. apply O in Hv. rewrite E0, bmem_0 in Hv. discriminate.
    + right. assert (NE : exists v, bmem out v = true) by (apply bnonempty_spec; now apply N.eqb_neq).
      assert (L : live2 (mkM out (S (m_n s)) (m2_v top s))).
      { destruct Hs as (_ & L2 & L3 & L4). unfold live2. cbn [m_sel m_n m_l]. csplit; auto; try lia.
        intros v Hv. apply O in Hv as (H1 & H2 & _). specialize (V4 v H1). specialize (L2 v H1). lia. }
      csplit; auto. destruct (m2_v_spec _ L) as (V1' & _ & V3' & _). cbn [m_l] in V1'. lia.
  - intros s Hs. destruct (m2_v_spec s Hs) as (V1 & _ & V3 & _). destruct Hs as (_ & _ & _ & L4). lia.
  - intros a b m Ha Hb R M. cbn in M. unfold m1_smf in M. destruct (Z.eqb_spec (m_l a) (m_l b)) as [E|]; [|discriminate]. injection M as <-.
    cbn [m_sel m_n m_l]. assert (B : forall v, bmem (N.lor (m_sel a) (m_sel b)) v = bmem (m_sel a) v || bmem (m_sel b) v) by (intros; apply bmem_or).
    csplit; auto; [|lia]. destruct Ha as ((v & Hv) & A2 & A3 & A4), Hb as (_ & B2 & B3 & B4). unfold live2. cbn [m_sel m_n m_l]. csplit; try lia.
    + exists v. now rewrite B, Hv.
    + intros u Hu. rewrite B, orb_true_iff in Hu. destruct Hu as [Hu|Hu]; [specialize (A2 u Hu)|specialize (B2 u Hu)]; lia.
  - reflexivity.
  - intros local s ctx [=].
  - assert (B : forall v, bmem (m_sel (p_init (misp2 top es weight))) v = true <-> v < top) by (intros v; exact (eq_ind_r (fun b => b = true <-> v < top) (Nat.ltb_lt v top) (bmem_full top v))).
    split; auto. unfold live2. cbn [misp2 p_init m2_init m_sel m_n m_l] in *. csplit; try lia. { exists 0. apply B. lia. }
    intros v Hv. apply B in Hv. lia.
Qed.

(** ** misp3 *)
Definition live3 (s : misp) : Prop :=
  bmem (m_sel s) (Z.to_nat (m_l s)) = true /\ (forall v, bmem (m_sel s) v = true -> (m_l s <= Z.of_nat v < Z.of_nat top)%Z) /\ (0 <= m_l s)%Z /\
  (Z.of_nat (m_n s) <= m_l s)%Z.
Definition cur3 (s : misp) : nat := Z.to_nat (m_l s).
Lemma dec3 : decision top es weight (misp3 top es weight) m_sel cur3 m_n live3.
Proof.
  constructor.
  - reflexivity.
  - apply misp_eqb_eq.
  - intros s (Hv & _). cbn. unfold m1_eqs. destruct (N.eqb_spec (m_sel s) 0) as [E|]; auto. rewrite E, bmem_0 in Hv. discriminate.
  - reflexivity.
  - intros s (Hv & _) ->. cbn in Hv. discriminate.
  - intros s [H _]. eauto.
  - intros s v (_ & L2 & L3 & _) Hv. specialize (L2 v Hv). unfold cur3. lia.
  - intros s l _. cbn. intuition.
  - reflexivity.
  - intros s (H & _) B. unfold cur3 in B. congruence.
  - intros s l Hs A. pose proof Hs as (L1 & L2 & L3 & L4). cbn [misp3 p_stf p_target]. unfold m3_stf. cbv zeta.
    pose proof (L2 _ L1). destruct (Z.leb_spec (Z.of_nat top) (m_l s)); [lia|]. fold (cur3 s).
    set (out := if (l =? 0)%Z then bdel (m_sel s) (cur3 s) else N.ldiff (bdel (m_sel s) (cur3 s)) (nbrs top es (cur3 s))).
    assert (O : forall v, bmem out v = true <-> stays es m_sel cur3 s l v).
    { intros v. unfold out, stays. destruct A as [->|[-> _]]; cbn [Z.eqb].
      - rewrite bmem_del, andb_true_iff, negb_true_iff, Nat.eqb_neq. intuition congruence.
      - rewrite bmem_diff, bmem_del, !andb_true_iff, !negb_true_iff, Nat.eqb_neq. rewrite <- not_true_iff_false, nbrs_spec.
        split; [intros [[H1 H1'] H2]; pose proof (L2 v H1)|intros (H1 & H2 & H3)].
        + csplit; auto. intros _ Q. apply H2. split; [lia|auto].
        + csplit; auto. intros [_ [Q|Q]]; [congruence|]. now apply H3. }
    eexists. split; [reflexivity|]. destruct (N.eqb_spec out 0) as [E0|E0].
    + left. split; [cbn; now rewrite E0|]. intros v Hv. apply O in Hv. rewrite E0, bmem_0 in Hv. discriminate.
    + right. assert (NE : exists v, bmem out v = true) by (apply bnonempty_spec; now apply N.eqb_neq).
      assert (OG : forall v, bmem out v = true -> (m_l s + 1 <= Z.of_nat v < Z.of_nat top)%Z).
      { intros v Hv. apply O in Hv as (H1 & H2 & _). specialize (L2 v H1). unfold cur3 in H2. lia. }
      destruct NE as (u & Hu). destruct (m_next_spec out (top + 2) (m_l s + 1)) as (R1 & R2 & R3); [lia|exists u; auto|lia|].
      csplit; auto.
      * unfold live3. cbn [m_sel m_n m_l]. split; [auto|]. split; [|lia]. intros v Hv. specialize (OG v Hv). specialize (R3 v Hv). lia.
      * unfold cur3. cbn [m_l]. lia.
  - intros s (_ & _ & L3 & L4). unfold cur3. lia.
  - intros a b m Ha Hb R M. cbn in M. unfold m1_smf in M. destruct (Z.eqb_spec (m_l a) (m_l b)) as [E|]; [|discriminate]. injection M as <-.
    cbn [m_sel m_n m_l]. assert (B : forall v, bmem (N.lor (m_sel a) (m_sel b)) v = bmem (m_sel a) v || bmem (m_sel b) v) by (intros; apply bmem_or).
    csplit; auto; [|lia]. destruct Ha as (A1 & A2 & A3 & A4), Hb as (_ & B2 & B3 & B4). unfold live3. cbn [m_sel m_n m_l].
    replace (Z.min (m_l a) (m_l b)) with (m_l a) by lia. csplit; try lia.
    + now rewrite B, A1.
    + intros u Hu. rewrite B, orb_true_iff in Hu. destruct Hu as [Hu|Hu]; [specialize (A2 u Hu)|specialize (B2 u Hu)]; lia.
  - reflexivity.
  - intros local s ctx [= <-]. split.
    + intros (_ & L2 & _). unfold m3_local. rewrite wsum_total. f_equal.
      assert (F : forall v, In v (blist top (m_sel s)) -> (m_l s <=? Z.of_nat v)%Z = true) by (intros v Hv; apply in_blist in Hv as [_ Hv]; specialize (L2 v Hv); lia).
      revert F. induction (blist top (m_sel s)) as [|x l IH]; intros F; cbn [filter]; auto. rewrite (F x (or_introl eq_refl)). f_equal. apply IH. intros v Hv. apply F. now right.
    + unfold m3_local. cbn. assert (blist top 0 = []) as ->; [|reflexivity].
      destruct (blist top 0) as [|x l] eqn:E; auto. assert (Q : In x (blist top 0)) by (rewrite E; now left). apply in_blist in Q as [_ Q]. rewrite bmem_0 in Q. discriminate.
  - assert (B : forall v, bmem (m_sel (p_init (misp3 top es weight))) v = true <-> v < top) by (intros v; exact (eq_ind_r (fun b => b = true <-> v < top) (Nat.ltb_lt v top) (bmem_full top v))).
    split; auto. unfold live3. cbn [misp3 p_init m3_init m_sel m_n m_l] in *. csplit; try lia. { apply B. lia. }
    intros v Hv. apply B in Hv. lia.
Qed.

Lemma blist0 : blist top 0 = [].
Proof. destruct (blist top 0) as [|x l] eqn:E; auto. assert (Q : In x (blist top 0)) by (rewrite E; now left). apply in_blist in Q as [_ Q]. rewrite bmem_0 in Q. discriminate. Qed.

(** ** misp4 *)
Definition live4 (s : misp4) : Prop := (exists v, bmem (q_sel s) v = true) /\ forall v, bmem (q_sel s) v = true -> q_n s <= v < top.
Lemma dec4 : decision top es weight (misp4p top es weight) q_sel q_n q_n live4.
Proof.
  constructor.
  - reflexivity.
  - apply misp4_eqb_eq.
  - intros s ((v & Hv) & _). cbn. unfold m4_eqs. destruct (N.eqb_spec (q_sel s) 0) as [E|]; auto. rewrite E, bmem_0 in Hv. discriminate.
  - reflexivity.
  - intros s ((v & Hv) & _) ->. cbn in Hv. discriminate.
  - intros s [H _]. auto.
  - intros s v (_ & L2) Hv. auto.
  - intros s l _. cbn. intuition.
  - reflexivity.
  - intros s ((v & Hv) & L2) B. cbn [misp4p p_stf]. unfold m4_stf. specialize (L2 v Hv). destruct (Nat.leb_spec top (q_n s)); [lia|]. now rewrite B.
  - intros s l Hs A. pose proof Hs as ((w & Hw) & L2). cbn [misp4p p_stf p_target]. unfold m4_stf.
    pose proof (L2 _ Hw). destruct (Nat.leb_spec top (q_n s)); [lia|].
    replace (negb (bmem (q_sel s) (q_n s)) && negb (l =? 0)%Z) with false by (destruct A as [->|[-> A]]; [now rewrite andb_false_r|now rewrite A]). cbv zeta.
    set (out := if (l =? 0)%Z then bdel (q_sel s) (q_n s) else N.ldiff (bdel (q_sel s) (q_n s)) (adjs es (q_n s))).
    assert (O : forall v, bmem out v = true <-> stays es q_sel q_n s l v).
    { intros v. unfold out, stays. destruct A as [->|[-> _]]; cbn [Z.eqb].
      - rewrite bmem_del, andb_true_iff, negb_true_iff, Nat.eqb_neq. intuition congruence.
      - rewrite bmem_diff, bmem_del, !andb_true_iff, !negb_true_iff, Nat.eqb_neq. rewrite <- not_true_iff_false, adjs_spec.
        split; [intros [[H1 H1'] H2]|intros (H1 & H2 & H3)]; csplit; auto. }
    eexists. split; [reflexivity|]. destruct (N.eqb_spec out 0) as [E0|E0].
    + left. split; [cbn; now rewrite E0|]. intros v Hv. apply O in Hv. rewrite E0, bmem_0 in Hv. discriminate.
    + right. cbn [q_sel q_n]. csplit; auto. split; [apply bnonempty_spec; now apply N.eqb_neq|]. cbn [q_sel q_n].
      intros v Hv. apply O in Hv as (H1 & H2 & _). specialize (L2 v H1). lia.
  - auto.
  - intros a b m Ha Hb R M. cbn in M. unfold m4_smf in M. injection M as <-. cbn [q_sel q_n].
    assert (B : forall v, bmem (N.lor (q_sel a) (q_sel b)) v = bmem (q_sel a) v || bmem (q_sel b) v) by (intros; apply bmem_or).
    csplit; auto; [|lia]. destruct Ha as ((v & Hv) & A2), Hb as (_ & B2). split; cbn [q_sel q_n].
    + exists v. now rewrite B, Hv.
    + intros u Hu. rewrite B, orb_true_iff in Hu. destruct Hu as [Hu|Hu]; [specialize (A2 u Hu)|specialize (B2 u Hu)]; lia.
  - reflexivity.
  - intros local s ctx [= <-]. split; [intros _; apply wsum_total|]. unfold m4_local. cbn. now rewrite blist0.
  - assert (B : forall v, bmem (q_sel (p_init (misp4p top es weight))) v = true <-> v < top) by (intros v; exact (eq_ind_r (fun b => b = true <-> v < top) (Nat.ltb_lt v top) (bmem_full top v))).
    split; auto. split. { exists 0. apply B. lia. } intros v Hv. apply B in Hv. cbn. lia.
Qed.

(** ** misp5 *)
Definition live5 (s : misp) : Prop := (exists v, bmem (m_sel s) v = true) /\ (forall v, bmem (m_sel s) v = true -> m_n s <= v < top) /\ m_l s = (Z.of_nat (m_n s) - 1)%Z.
Lemma dec5 : decision top es weight (misp5 top es weight) m_sel m_n m_n live5.
Proof.
  constructor.
  - reflexivity.
  - apply misp_eqb_eq.
  - intros s ((v & Hv) & _). cbn. unfold m1_eqs. destruct (N.eqb_spec (m_sel s) 0) as [E|]; auto. rewrite E, bmem_0 in Hv. discriminate.
  - reflexivity.
  - intros s ((v & Hv) & _) ->. cbn in Hv. discriminate.
  - intros s [H _]. auto.
  - intros s v (_ & L2 & _) Hv. auto.
  - intros s l _. cbn. intuition.
  - reflexivity.
  - intros s _ B. cbn [misp5 p_stf]. unfold m5_stf. now rewrite B.
  - intros s l Hs A. pose proof Hs as ((w & Hw) & L2 & L3). cbn [misp5 p_stf p_target]. unfold m5_stf.
    replace (negb (bmem (m_sel s) (m_n s)) && negb (l =? 0)%Z) with false by (destruct A as [->|[-> A]]; [now rewrite andb_false_r|now rewrite A]). cbv zeta.
    set (out := if (l =? 0)%Z then bdel (m_sel s) (m_n s) else N.ldiff (bdel (m_sel s) (m_n s)) (adjs es (m_n s))).
    assert (O : forall v, bmem out v = true <-> stays es m_sel m_n s l v).
    { intros v. unfold out, stays. destruct A as [->|[-> _]]; cbn [Z.eqb].
      - rewrite bmem_del, andb_true_iff, negb_true_iff, Nat.eqb_neq. intuition congruence.
      - rewrite bmem_diff, bmem_del, !andb_true_iff, !negb_true_iff, Nat.eqb_neq. rewrite <- not_true_iff_false, adjs_spec.
        split; [intros [[H1 H1'] H2]|intros (H1 & H2 & H3)]; csplit; auto. }
    eexists. split; [reflexivity|]. destruct (N.eqb_spec out 0) as [E0|E0].
    + left. split; [cbn; now rewrite E0|]. intros v Hv. apply O in Hv. rewrite E0, bmem_0 in Hv. discriminate.
    + right. cbn [m_sel m_n m_l]. csplit; auto. unfold live5. cbn [m_sel m_n m_l]. csplit; [apply bnonempty_spec; now apply N.eqb_neq| |lia].
      intros v Hv. apply O in Hv as (H1 & H2 & _). specialize (L2 v H1). lia.
  - auto.
  - intros a b m Ha Hb R M. cbn in M. unfold m5_smf in M. destruct (Z.eqb_spec (m_l a) (m_l b)) as [E|]; [|discriminate]. injection M as <-. cbn [m_sel m_n m_l].
    assert (B : forall v, bmem (N.lor (m_sel a) (m_sel b)) v = bmem (m_sel a) v || bmem (m_sel b) v) by (intros; apply bmem_or).
    csplit; auto; [|lia]. destruct Ha as ((v & Hv) & A2 & A3), Hb as (_ & B2 & B3). unfold live5. cbn [m_sel m_n m_l]. csplit; try lia.
    + exists v. now rewrite B, Hv.
    + intros u Hu. rewrite B, orb_true_iff in Hu. destruct Hu as [Hu|Hu]; [specialize (A2 u Hu)|specialize (B2 u Hu)]; lia.
  - reflexivity.
  - intros local s ctx [= <-]. split; [intros _; apply wsum_total|]. unfold m5_local. cbn. now rewrite blist0.
  - assert (B : forall v, bmem (m_sel (p_init (misp5 top es weight))) v = true <-> v < top) by (intros v; exact (eq_ind_r (fun b => b = true <-> v < top) (Nat.ltb_lt v top) (bmem_full top v))).
    split; auto. unfold live5. cbn [misp5 p_init m5_init m_sel m_n m_l] in *. csplit. { exists 0. apply B. lia. } { intros v Hv. apply B in Hv. lia. } lia.
Qed.
End Inst.
