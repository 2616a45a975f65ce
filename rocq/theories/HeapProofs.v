(** Heap: proofs.  Specification vocabulary first (independent of the model's helpers). *)
From Verif Require Import Base HeapModel.
Ltac Zify.zify_post_hook ::= Z.div_mod_to_equations.

(** [ord] is a strict weak order: "strictly before" *)
Record SWO {T} (ord : T -> T -> bool) : Prop := {
  swo_asym : forall x y, ord x y = true -> ord y x = false;
  swo_ntrans : forall x y z, ord y x = false -> ord z y = false -> ord z x = false }.

Section HeapProofs.
Context {T : Type}.
Variable ord : T -> T -> bool.
Variable dflt : T.
Hypothesis Hswo : SWO ord.

Notation heap := (heap T).
Notation heapify := (heap_heapify ord).
Notation refloat := (heap_refloat ord).

Definition le (x y : T) : Prop := ord y x = false.

Lemma le_trans x y z : le x y -> le y z -> le x z.
Proof. unfold le; intros; eapply swo_ntrans; eauto. Qed.
Lemma le_refl x : le x x.
Proof. unfold le. destruct (ord x x) eqn:E; auto. pose proof (swo_asym _ Hswo _ _ E); congruence. Qed.
Lemma lt_le x y : ord x y = true -> le x y.
Proof. unfold le; apply (swo_asym _ Hswo). Qed.

(** structural well-formedness of locations: capacity, distinct locations, exact back-pointers *)
Record heap_wf (h : heap) : Prop := {
  wf_at1 : 1 <= hat h;
  wf_at2 : hat h <= hmxs h;
  wf_inj : forall i j, i < hmxs h -> j < hmxs h -> hdata h i = hdata h j -> i = j;
  wf_loc : forall i, i < hmxs h -> hdata h i < hnloc h;
  wf_pos : forall i, i < hmxs h -> hpos h (hdata h i) = i }.

Definition ordered (k : nat) (h : heap) : Prop :=
  forall i, 2 <= i < hat h -> k <= i / 2 -> le (hget h (i / 2)) (hget h i).

Definition heap_ok (h : heap) : Prop := heap_wf h /\ ordered 1 h.

(** same elements: permuted slots, same contents and counters *)
Record same (h h' : heap) : Prop := {
  sm_val : forall l, hval h' l = hval h l;
  sm_at : hat h' = hat h;
  sm_mxs : hmxs h' = hmxs h;
  sm_nloc : hnloc h' = hnloc h;
  sm_perm : Permutation (heap_locs h') (heap_locs h) }.

Lemma same_refl h : same h h.
Proof. constructor; auto. Qed.
Lemma same_trans a b c : same a b -> same b c -> same a c.
Proof.
  intros [] []; constructor; try congruence.
  eapply Permutation_trans; eauto.
Qed.

Lemma hget_swap (h : heap) p q i : hget (heap_swap h p q) i = fswap (hget h) p q i.
Proof.
  unfold hget, heap_swap; cbn. rewrite !fswap_transp. reflexivity.
Qed.

Lemma hat_swap (h : heap) p q : hat (heap_swap h p q) = hat h.
Proof. reflexivity. Qed.

Lemma wf_swap h p q : heap_wf h -> p < hmxs h -> q < hmxs h -> heap_wf (heap_swap h p q).
Proof.
  intros W Hp Hq. destruct W as [A1 A2 A3 A4 A5]. constructor; cbn; auto.
  - intros i j Hi Hj E. rewrite !fswap_transp in E.
    assert (Ht : forall k, k < hmxs h -> transp p q k < hmxs h)
      by (intros k Hk; unfold transp; destruct (Nat.eqb_spec k q), (Nat.eqb_spec k p); lia).
    apply A3 in E; auto. eapply transp_inj; eauto.
  - intros i Hi. rewrite fswap_transp. apply A4.
    unfold transp; destruct (Nat.eqb_spec i q), (Nat.eqb_spec i p); lia.
  - intros i Hi. rewrite !fswap_transp, !fupd_eq.
    assert (Ht : forall k, k < hmxs h -> transp p q k < hmxs h)
      by (intros k Hk; unfold transp; destruct (Nat.eqb_spec k q), (Nat.eqb_spec k p); lia).
    destruct (Nat.eqb_spec (hdata h (transp p q i)) (hdata h (transp p q q))) as [E|E].
    + apply A3 in E; auto. apply transp_inj in E. auto.
    + destruct (Nat.eqb_spec (hdata h (transp p q i)) (hdata h (transp p q p))) as [E'|E'].
      * apply A3 in E'; auto. apply transp_inj in E'. auto.
      * rewrite A5 by auto.
        assert (i <> q) by (intros ->; congruence).
        assert (i <> p) by (intros ->; congruence).
        unfold transp. destruct (Nat.eqb_spec i q), (Nat.eqb_spec i p); congruence.
Qed.

Lemma same_swap (h : heap) p q : 1 <= p < hat h -> 1 <= q < hat h -> same h (heap_swap h p q).
Proof.
  intros Hp Hq. constructor; cbn; auto.
  unfold heap_locs; cbn. apply fswap_perm; lia.
Qed.

Lemma best_cases (h : heap) p :
  let b := heap_best ord h p in
  (b = p \/ (b = 2 * p /\ 2 * p < hat h) \/ (b = 2 * p + 1 /\ 2 * p + 1 < hat h)) /\
  le (hget h b) (hget h p) /\
  (2 * p < hat h -> le (hget h b) (hget h (2 * p))) /\
  (2 * p + 1 < hat h -> le (hget h b) (hget h (2 * p + 1))) /\
  (b <> p -> ord (hget h b) (hget h p) = true).
Proof.
  unfold heap_best. replace (p * 2) with (2 * p) by lia. cbn zeta.
  destruct (Nat.ltb_spec (2 * p) (hat h)) as [Hl|Hl]; cbn [andb].
  - destruct (ord (hget h (2 * p)) (hget h p)) eqn:E1; cbn [andb].
    + destruct (Nat.ltb_spec (2 * p + 1) (hat h)) as [Hr|Hr]; cbn [andb].
      * destruct (ord (hget h (2 * p + 1)) (hget h (2 * p))) eqn:E2.
        -- repeat split; auto; intros; try apply le_refl.
           ++ eapply le_trans; apply lt_le; eauto.
           ++ apply lt_le; auto.
           ++ destruct (ord (hget h (2*p+1)) (hget h p)) eqn:E3; auto.
              exfalso. assert (F : ord (hget h (2*p)) (hget h p) = false).
              { eapply (swo_ntrans _ Hswo); [exact E3|]. apply (swo_asym _ Hswo); auto. }
              congruence.
        -- repeat split; auto; intros; try apply le_refl; try (apply lt_le; assumption). 
      * repeat split; auto; intros; try apply le_refl; try lia. apply lt_le; auto.
    + destruct (Nat.ltb_spec (2 * p + 1) (hat h)) as [Hr|Hr]; cbn [andb].
      * destruct (ord (hget h (2 * p + 1)) (hget h p)) eqn:E2.
        -- repeat split; auto; intros; try apply le_refl; try (apply lt_le; assumption).
           eapply le_trans; [apply lt_le; eauto | exact E1].
        -- repeat split; auto; intros; try apply le_refl; congruence.
      * repeat split; auto; intros; try apply le_refl; try lia; congruence.
  - destruct (Nat.ltb_spec (2 * p + 1) (hat h)) as [Hr|Hr]; cbn [andb]; try lia.
    repeat split; auto; intros; try apply le_refl; try lia; congruence.
Qed.

(** heapify: repair below q inside the part ordered from p *)
Lemma heapify_gen : forall fuel h p q,
  heap_wf h -> 1 <= p -> p <= q -> hat h <= q + fuel ->
  (forall i, 2 <= i < hat h -> p <= i / 2 -> i / 2 <> q -> le (hget h (i / 2)) (hget h i)) ->
  (p <= q / 2 -> forall i, i < hat h -> i / 2 = q -> 2 <= i -> le (hget h (q / 2)) (hget h i)) ->
  (1 <= q /\ (q < hat h \/ hat h <= 2 * q)) ->
  heap_wf (heapify fuel h q) /\ ordered p (heapify fuel h q) /\ same h (heapify fuel h q).
Proof.
  induction fuel as [|f IH]; intros h p q W Hp Hpq Hf Ho Hg Hq; cbn [heap_heapify].
  - split; [auto|split; [|apply same_refl]].
    intros i Hi Hpi. apply Ho; auto. lia.
  - destruct (best_cases h q) as (Hb & Hb1 & Hb2 & Hb3 & Hb4).
    set (b := heap_best ord h q) in *.
    destruct (Nat.eqb_spec b q) as [E|E]; cbn [negb].
    + split; [auto|split;[|apply same_refl]].
      intros i Hi Hpi. destruct (Nat.eq_dec (i / 2) q) as [Eq|Nq]; [|apply Ho; auto].
      rewrite Eq. rewrite E in Hb2, Hb3.
      assert (i = 2 * q \/ i = 2 * q + 1) as [->| ->] by lia; [apply Hb2|apply Hb3]; lia.
    + assert (Hbr : b < hat h /\ b / 2 = q /\ 2 <= b /\ q < b) by lia.
      assert (Hqr : q < hat h) by lia.
      pose proof (wf_at2 _ W) as Hm.
      destruct (IH (heap_swap h q b) p b) as (W' & O' & S').
      * apply wf_swap; auto; lia.
      * auto.
      * lia.
      * cbn. lia.
      * rewrite hat_swap. intros i Hi Hpi Hib. rewrite !hget_swap, !fswap_transp.
        unfold transp.
        destruct (Nat.eqb_spec (i / 2) b); [lia|].
        destruct (Nat.eqb_spec i b) as [->|Nib].
        -- (* edge q -> b: now holds min at q *)
           replace (b / 2) with q by lia. rewrite Nat.eqb_refl. apply lt_le. auto.
        -- destruct (Nat.eqb_spec i q) as [->|Niq].
           ++ destruct (Nat.eqb_spec (q / 2) q); [lia|]. apply Hg; try lia.
           ++ destruct (Nat.eqb_spec (i / 2) q) as [Eq|Neq].
              ** assert (i = 2 * q \/ i = 2 * q + 1) as [->| ->] by lia; [apply Hb2|apply Hb3]; lia.
              ** apply Ho; auto.
      * rewrite hat_swap. intros Hpb i Hi Eib Hi2. rewrite !hget_swap, !fswap_transp. unfold transp.
        replace (b / 2) with q by lia.
        destruct (Nat.eqb_spec q b); [lia|]. rewrite Nat.eqb_refl.
        destruct (Nat.eqb_spec i b); [lia|]. destruct (Nat.eqb_spec i q); [lia|].
        rewrite <- Eib. apply Ho; lia.
      * cbn. lia.
      * split; [auto|split;[auto|]]. eapply same_trans; [apply (same_swap h q b); lia|auto].
Qed.

Lemma heapify_ok h p : heap_wf h -> 1 <= p -> (p < hat h \/ hat h <= 2 * p) -> ordered (S p) h ->
  heap_wf (heapify (hat h) h p) /\ ordered p (heapify (hat h) h p) /\ same h (heapify (hat h) h p).
Proof.
  intros W Hp Hp2 Ho. apply heapify_gen; auto; try lia.
  intros i Hi Hpi Hne. apply Ho; auto. lia.
Qed.

(** buildHeap establishes the order from any content *)
Lemma build_from_ok : forall i h, heap_wf h -> (i < hat h \/ hat h <= 2 * i) -> ordered (S i) h ->
  heap_wf (heap_build_from ord i h) /\ ordered 1 (heap_build_from ord i h) /\ same h (heap_build_from ord i h).
Proof.
  induction i as [|k IH]; intros h W Hi Ho; cbn [heap_build_from].
  - split; [auto|split;[auto|apply same_refl]].
  - destruct (heapify_ok h (S k) W) as (W' & O' & S'); auto; try lia.
    destruct (IH (heapify (hat h) h (S k))) as (W2 & O2 & S2); auto.
    + rewrite (sm_at _ _ S'). lia.
    + split; [auto|split;[auto|eapply same_trans; eauto]].
Qed.

Lemma buildHeap_ok h : heap_wf h ->
  heap_ok (heap_buildHeap ord h) /\ same h (heap_buildHeap ord h).
Proof.
  intros W. unfold heap_buildHeap.
  destruct (build_from_ok (hat h / 2) h W) as (W' & O' & S').
  - pose proof (wf_at1 _ W). lia.
  - intros i Hi Hk. lia.
  - split; [split; auto|auto].
Qed.

(** refloat: the only possibly violated edge is the one above p *)
Definition floating (p : nat) (h : heap) : Prop :=
  (forall i, 2 <= i < hat h -> i <> p -> le (hget h (i / 2)) (hget h i)) /\
  (forall i, 2 <= i < hat h -> i / 2 = p -> 2 <= p -> le (hget h (p / 2)) (hget h i)).

Lemma refloat_ok : forall fuel h p, heap_wf h -> p < hat h -> p < fuel -> floating p h ->
  heap_wf (refloat fuel h p) /\ ordered 1 (refloat fuel h p) /\ same h (refloat fuel h p).
Proof.
  assert (K : forall fuel h p q, heap_wf h -> p < hat h -> q < fuel -> floating p h ->
    (q = p \/ (q = p / 2) \/ (p <= 1 /\ q < hat h)) ->
    heap_wf (refloat fuel h q) /\ ordered 1 (refloat fuel h q) /\ same h (refloat fuel h q)).
  { induction fuel as [|f IH]; intros h p q W Hp Hf [F1 F2] Hpq; [lia|].
    cbn [heap_refloat]. destruct (Nat.ltb_spec 0 q) as [Hq|Hq].
    2:{ split; [auto|split;[|apply same_refl]]. intros i Hi _. apply F1; auto. lia. }
    destruct (best_cases h q) as (Hb & Hb1 & Hb2 & Hb3 & Hb4).
    set (b := heap_best ord h q) in *.
    pose proof (wf_at2 _ W) as Hm.
    assert (Hq' : q < hat h) by lia.
    destruct (Nat.eqb_spec b q) as [E|E]; cbn [negb].
    + (* no swap at q *)
      destruct Hpq as [-> | [Hpq | Hpq]].
      * apply (IH h p (p / 2)); auto; try lia. split; auto.
      * (* q = p/2 : edge above p is fine too; nothing violated *)
        assert (F1' : forall i, 2 <= i < hat h -> le (hget h (i / 2)) (hget h i)).
        { intros i Hi. destruct (Nat.eq_dec i p) as [->|Ne]; [|apply F1; auto].
          rewrite <- Hpq. rewrite E in Hb2, Hb3.
          assert (p = 2 * q \/ p = 2 * q + 1) as [Ep|Ep] by lia; rewrite Ep in *; [apply Hb2|apply Hb3]; lia. }
        apply (IH h 1 (q / 2)); auto; try lia.
        split; [intros; apply F1'; auto|]. intros; lia.
      * apply (IH h p (q / 2)); auto; try lia. split; auto.
    + (* swap: only possible at q = p/2 with b = p *)
      assert (Hbr : b < hat h /\ b / 2 = q /\ 2 <= b /\ q < b) by lia.
      assert (Eb : ord (hget h b) (hget h q) = true) by auto.
      assert (b = p).
      { destruct (Nat.eq_dec b p); auto. exfalso.
        assert (le (hget h (b / 2)) (hget h b)) as L by (apply F1; lia).
        destruct Hbr as (_ & Hq2 & _). rewrite Hq2 in L. unfold le in L. congruence. }
      subst p. destruct Hpq as [Hpq|[Hpq|Hpq]]; [lia| |lia].
      destruct (IH (heap_swap h q b) q (q / 2)) as (W' & O' & S').
      * apply wf_swap; auto; lia.
      * cbn; auto.
      * lia.
      * split; rewrite hat_swap; intros i Hi Hne.
        -- rewrite !hget_swap, !fswap_transp. unfold transp.
           destruct (Nat.eqb_spec i b) as [->|Nib].
           ++ rewrite <- Hpq. destruct (Nat.eqb_spec q b); [lia|]. rewrite Nat.eqb_refl.
              apply lt_le; auto.
           ++ destruct (Nat.eqb_spec i q); [lia|].
              destruct (Nat.eqb_spec (i / 2) b) as [Eb2|Nb2].
              ** (* children of b: above is old value of q *)
                 replace q with (b / 2) by lia. apply F2; try lia.
              ** destruct (Nat.eqb_spec (i / 2) q) as [Eq|Nq].
                 --- (* sibling of b *)
                    apply le_trans with (hget h q); [apply lt_le; auto|].
                    rewrite <- Eq. apply F1; auto.
                 --- apply F1; auto.
        -- intros Hq2. rewrite !hget_swap, !fswap_transp. unfold transp.
           destruct (Nat.eqb_spec (q / 2) b); [lia|].
           destruct (Nat.eqb_spec (q / 2) q); [lia|].
           destruct (Nat.eqb_spec i q); [lia|].
           destruct (Nat.eqb_spec i b) as [->|Nib].
           ++ apply F1; lia.
           ++ apply le_trans with (hget h q); [apply F1; lia|]. rewrite <- Hne. apply F1; lia.
      * lia.
      * split; [auto|split;[auto|]]. eapply same_trans; [apply (same_swap h q b); lia|auto]. }
  intros fuel h p W Hp Hf Hfl. apply (K fuel h p p); auto.
Qed.

(** ** The public operations *)
Ltac hcbn := unfold heap_new, heap_resize; cbn [hat hmxs hdata hpos hval hnloc].


Definition elems := @heap_elems T.

Lemma elems_perm h h' : same h h' -> Permutation (elems h') (elems h).
Proof.
  intros [Sv Sa Sm Sn Sp]. unfold elems, heap_elems.
  rewrite (map_ext _ (fun l => (l, hval h l))) by (intros; now rewrite Sv).
  now apply Permutation_map.
Qed.

Lemma in_locs (h : heap) l : In l (heap_locs h) <-> exists i, 1 <= i < hat h /\ hdata h i = l.
Proof.
  unfold heap_locs. rewrite in_map_iff. split.
  - intros [i [E Hi]]. apply in_seq in Hi. exists i. split; [lia|auto].
  - intros [i [Hi E]]. exists i. split; auto. apply in_seq. lia.
Qed.

Lemma NoDup_locs (h : heap) : heap_wf h -> NoDup (heap_locs h).
Proof.
  intros W. unfold heap_locs.
  assert (forall n, n + 1 <= hmxs h -> NoDup (map (hdata h) (seq 1 n))) as K.
  { induction n as [|n IH]; intros Hn; [constructor|].
    rewrite seq_snoc, map_app; cbn [map].
    apply Permutation_NoDup with (l := hdata h (1 + n) :: map (hdata h) (seq 1 n)).
    - apply Permutation_cons_append.
    - constructor; [|apply IH; lia]. intros Hin. apply in_map_iff in Hin as [i [E Hi]].
      apply in_seq in Hi. apply (wf_inj _ W) in E; lia. }
  apply K. pose proof (wf_at1 _ W); pose proof (wf_at2 _ W). lia.
Qed.

Lemma live_pos (h : heap) l : heap_wf h -> In l (heap_locs h) -> 1 <= hpos h l < hat h /\ hdata h (hpos h l) = l.
Proof.
  intros W Hin. apply in_locs in Hin as [i [Hi E]]. subst l.
  rewrite (wf_pos _ W) by (pose proof (wf_at2 _ W); lia). auto.
Qed.

(** construction *)
Lemma new_ok sz : 1 <= sz -> heap_ok (heap_new dflt sz) /\ elems (heap_new dflt sz) = [].
Proof.
  intros H. split; [split|reflexivity].
  - constructor; hcbn; auto.
  - intros i Hi. cbn in Hi. lia.
Qed.

Lemma resize_wf (h : heap) : heap_wf h -> hat h = hmxs h -> heap_wf (heap_resize dflt h).
Proof.
  intros [A1 A2 A3 A4 A5] E. constructor; hcbn; auto; try lia.
  - intros i j Hi Hj.
    destruct (Nat.ltb_spec i (hat h)), (Nat.ltb_spec j (hat h)).
    + apply A3; lia.
    + destruct (Nat.leb_spec (hmxs h) j), (Nat.ltb_spec j (2 * hmxs h)); cbn [andb]; try lia.
      pose proof (A4 i). lia.
    + destruct (Nat.leb_spec (hmxs h) i), (Nat.ltb_spec i (2 * hmxs h)); cbn [andb]; try lia.
      pose proof (A4 j). lia.
    + destruct (Nat.leb_spec (hmxs h) i), (Nat.ltb_spec i (2 * hmxs h)),
               (Nat.leb_spec (hmxs h) j), (Nat.ltb_spec j (2 * hmxs h)); cbn [andb]; lia.
  - intros i Hi. destruct (Nat.ltb_spec i (hat h)).
    + pose proof (A4 i). lia.
    + destruct (Nat.leb_spec (hmxs h) i), (Nat.ltb_spec i (2 * hmxs h)); cbn [andb]; lia.
  - intros i Hi. destruct (Nat.ltb_spec i (hat h)).
    + pose proof (A4 i). destruct (Nat.leb_spec (hnloc h) (hdata h i)); cbn [andb]; [lia|]. apply A5; lia.
    + destruct (Nat.leb_spec (hmxs h) i), (Nat.ltb_spec i (2 * hmxs h)); cbn [andb]; try lia.
      destruct (Nat.leb_spec (hnloc h) (hnloc h + (i - hmxs h))),
               (Nat.ltb_spec (hnloc h + (i - hmxs h)) (hnloc h + hmxs h)); cbn [andb]; lia.
Qed.

Lemma resize_get (h : heap) i : heap_wf h -> hat h = hmxs h -> i < hat h ->
  hdata (heap_resize dflt h) i = hdata h i /\ hval (heap_resize dflt h) (hdata h i) = hval h (hdata h i).
Proof.
  intros W E Hi. hcbn. destruct (Nat.ltb_spec i (hat h)); [|lia]. split; auto.
  pose proof (wf_loc _ W i). destruct (Nat.leb_spec (hnloc h) (hdata h i)); cbn [andb]; auto. lia.
Qed.

(** insert: appends the value at a location that was not live; everything else is unchanged *)
Lemma insert_wf h v h' l : heap_wf h -> heap_insert dflt h v = (h', l) ->
  heap_wf h' /\ hat h' = S (hat h) /\ elems h' = elems h ++ [(l, v)] /\ hget h' (hat h) = v /\
  (forall i, i < hat h -> hget h' i = hget h i) /\ ~ In l (heap_locs h).
Proof.
  intros W E. unfold heap_insert in E.
  assert (exists g, (if hmxs h <=? hat h then heap_resize dflt h else h) = g /\ heap_wf g /\ hat g = hat h /\ hat g < hmxs g
     /\ (forall i, i < hat h -> hdata g i = hdata h i /\ hval g (hdata h i) = hval h (hdata h i))) as (g & Eg & Wg & Ag & Mg & Gg).
  { destruct (Nat.leb_spec (hmxs h) (hat h)) as [Hc|Hc]; eexists; split; eauto.
    - pose proof (wf_at1 _ W); pose proof (wf_at2 _ W).
      split; [apply resize_wf; auto; lia|]. cbn [heap_resize hat hmxs].
      split; [auto|split;[lia|]]. intros i Hi. apply resize_get; auto; lia. }
  rewrite Eg in E. injection E as E1 E2. subst h'.
  assert (Hne : forall i, i < hat h -> hdata g i <> l).
  { intros i Hi He. subst l. apply (wf_inj _ Wg) in He; lia. }
  split; [|split;[|split;[|split;[|split]]]]; hcbn.
  - destruct Wg as [B1 B2 B3 B4 B5]. constructor; hcbn; auto; try lia.
    intros i Hi. rewrite fupd_eq. destruct (Nat.eqb_spec (hdata g i) (hdata g (hat g))) as [e|e].
    + apply B3 in e; auto.
    + apply B5; auto.
  - lia.
  - unfold elems, heap_elems, heap_locs. hcbn. rewrite Ag.
    pose proof (wf_at1 _ W). replace (S (hat h) - 1) with (S (hat h - 1)) by lia.
    rewrite seq_snoc, !map_app. cbn [map].
    replace (1 + (hat h - 1)) with (hat h) by lia.
    rewrite <- Ag in *. rewrite E2, fupd_same. rewrite Ag in *. f_equal.
    + rewrite !map_map. apply map_seq_ext. intros i Hi.
      destruct (Gg i) as [G1 G2]; [lia|]. rewrite fupd_diff by (apply Hne; lia). rewrite G1, G2; auto.
  - unfold hget; hcbn. rewrite <- Ag, E2. apply fupd_same.
  - intros i Hi. unfold hget; hcbn. destruct (Gg i) as [G1 G2]; [lia|].
    rewrite E2. rewrite fupd_diff by (apply Hne; lia). now rewrite G1, G2.
  - intros Hin. apply in_locs in Hin as [i [Hi He]]. destruct (Gg i) as [G1 G2]; [lia|].
    apply (Hne i); [lia|]. congruence.
Qed.

(** insertHeap keeps the heap order and adds exactly the new element, at the returned location *)
Lemma insertHeap_ok h v h' l : heap_ok h -> heap_insertHeap ord dflt h v = (h', l) ->
  heap_ok h' /\ Permutation (elems h') ((l, v) :: elems h) /\ ~ In l (heap_locs h).
Proof.
  intros [W O] E. unfold heap_insertHeap in E.
  destruct (heap_insert dflt h v) as [h1 l1] eqn:Ei. injection E as E1 E2. subst l1.
  destruct (insert_wf _ _ _ _ W Ei) as (W1 & A1 & P1 & G1 & G2 & Hn).
  pose proof (wf_at1 _ W) as Hat.
  destruct (refloat_ok (hat h1) h1 (hat h1 - 1)) as (W2 & O2 & S2); auto; try lia.
  { split; intros i Hi Hne.
    - rewrite !G2 by lia. apply O; lia.
    - lia. }
  rewrite E1 in *. split; [split; auto|split; auto].
  eapply Permutation_trans; [apply elems_perm; exact S2|].
  rewrite P1. symmetry. apply Permutation_cons_append.
Qed.

Lemma ordered_min (h : heap) i : ordered 1 h -> 1 <= i < hat h -> le (hget h 1) (hget h i).
Proof.
  intros O. induction i as [i IH] using lt_wf_ind. intros Hi.
  destruct (Nat.eq_dec i 1) as [->|Ne]; [apply le_refl|].
  apply le_trans with (hget h (i / 2)); [apply IH; lia|apply O; lia].
Qed.

(** taking the root out of a heap that is ordered except possibly at the root *)
Lemma extract_gen h v h' : heap_wf h -> ordered 2 h -> heap_extractMax ord h = Some (v, h') ->
  heap_ok h' /\ Permutation (elems h) ((hdata h 1, v) :: elems h') /\ v = hget h 1 /\ hat h' = hat h - 1.
Proof.
  intros W O E. unfold heap_extractMax in E.
  destruct (heap_empty h) eqn:Em; [discriminate|].
  unfold heap_empty in Em. apply Nat.eqb_neq in Em.
  pose proof (wf_at1 _ W) as Hat. pose proof (wf_at2 _ W) as Hm.
  injection E as Ev Eh.
  set (h1 := {| hdata := fswap (hdata h) 1 (hat h - 1); hval := hval h;
         hpos := fupd (fupd (hpos h) (fswap (hdata h) 1 (hat h - 1) (hat h - 1)) (hat h - 1)) (fswap (hdata h) 1 (hat h - 1) 1) 1;
         hmxs := hmxs h; hat := hat h - 1; hnloc := hnloc h |}) in *.
  assert (W1 : heap_wf h1).
  { pose proof (wf_swap h (hat h - 1) 1 W) as Ws.
    assert (Hs : heap_wf (heap_swap h (hat h - 1) 1)) by (apply Ws; lia).
    destruct Hs as [B1 B2 B3 B4 B5]; unfold heap_swap in *; cbn [hat hmxs hdata hpos hval hnloc] in *.
    assert (Ed : forall i, fswap (hdata h) 1 (hat h - 1) i = fswap (hdata h) (hat h - 1) 1 i).
    { intros i. rewrite !fswap_transp. unfold transp.
      destruct (Nat.eqb_spec i (hat h - 1)), (Nat.eqb_spec i 1); subst; auto. }
    constructor; unfold h1; hcbn; try lia.
    - intros i j Hi Hj. rewrite !Ed. auto.
    - intros i Hi. rewrite Ed. auto.
    - intros i Hi. rewrite !Ed. auto. }
  assert (O1 : ordered 2 h1).
  { intros i Hi Hk. cbn in Hi. unfold hget, h1; hcbn. rewrite !fswap_transp. unfold transp.
    destruct (Nat.eqb_spec (i / 2) (hat h - 1)); [lia|].
    destruct (Nat.eqb_spec i (hat h - 1)); [lia|].
    destruct (Nat.eqb_spec (i / 2) 1); [lia|]. destruct (Nat.eqb_spec i 1); [lia|].
    apply O; lia. }
  destruct (heapify_ok h1 1 W1) as (W2 & O2 & S2); auto; try (cbn; lia).
  subst h'. split; [split; auto|]. split; [|split].
  - subst v. eapply Permutation_trans with ((hdata h 1, hval h (hdata h 1)) :: elems h1).
    + unfold elems, heap_elems, heap_locs. hcbn.
      change ((hdata h 1, hval h (hdata h 1)) :: _) with
        (map (fun l => (l, hval h l)) (hdata h 1 :: map (fswap (hdata h) 1 (hat h - 1)) (seq 1 (hat h - 1 - 1)))).
      apply Permutation_map.
      destruct (Nat.eq_dec (hat h) 2) as [E2|N2].
      * rewrite E2. cbn. auto.
      * symmetry. eapply Permutation_trans with (map (fswap (hdata h) 1 (hat h - 1)) (seq 1 (hat h - 1))).
        -- assert (ES : seq 1 (hat h - 1) = seq 1 (hat h - 1 - 1) ++ [hat h - 1]).
           { replace (hat h - 1) with (S (hat h - 1 - 1)) at 1 by lia. rewrite seq_snoc. f_equal. f_equal. lia. }
           rewrite ES, map_app; cbn [map].
           replace (fswap (hdata h) 1 (hat h - 1) (hat h - 1)) with (hdata h 1).
           ++ apply Permutation_cons_append.
           ++ rewrite fswap_transp. unfold transp. now rewrite Nat.eqb_refl.
        -- apply fswap_perm; lia.
    + apply perm_skip. symmetry. apply elems_perm. auto.
  - auto.
  - transitivity (hat h1); [exact (sm_at _ _ S2)|reflexivity].
Qed.

(** extractMax returns an element that nothing in the heap beats, and removes exactly it *)
Lemma extractMax_ok h v h' : heap_ok h -> heap_extractMax ord h = Some (v, h') ->
  heap_ok h' /\ (exists l, Permutation (elems h) ((l, v) :: elems h')) /\
  (forall l w, In (l, w) (elems h) -> ord w v = false).
Proof.
  intros [W O] E. destruct (extract_gen h v h') as (K & P & Ev & _); auto.
  { intros i Hi Hk. apply O; lia. }
  split; auto. split; [eauto|].
  intros l w Hin. unfold elems, heap_elems in Hin. apply in_map_iff in Hin as [l' [El Hl]].
  injection El as -> <-. apply in_locs in Hl as [i [Hi <-]]. subst v.
  apply (ordered_min h i O Hi).
Qed.

Lemma extractMax_some (h : heap) : heap_wf h -> elems h <> [] -> exists v h', heap_extractMax ord h = Some (v, h').
Proof.
  intros W Hne. unfold heap_extractMax. destruct (heap_empty h) eqn:E; [|eauto].
  exfalso. apply Hne. unfold heap_empty in E. apply Nat.eqb_eq in E.
  unfold elems, heap_elems, heap_locs. rewrite E. reflexivity.
Qed.

Lemma empty_elems (h : heap) : heap_wf h -> (heap_empty h = true <-> elems h = []).
Proof.
  intros W. pose proof (wf_at1 _ W). unfold heap_empty, elems, heap_elems, heap_locs. split.
  - intros E. apply Nat.eqb_eq in E. rewrite E. reflexivity.
  - intros E. apply Nat.eqb_eq. destruct (hat h) as [|[|n]]; cbn in E; auto; try lia. discriminate.
Qed.

Lemma size_elems (h : heap) : heap_size h = length (elems h).
Proof. unfold heap_size, elems, heap_elems, heap_locs. now rewrite !map_length, seq_length. Qed.

(** sendToRoot: the element at p becomes the root, its ancestors move one level down *)
Lemma sendToRoot_ok : forall fuel (h : heap) p, heap_wf h -> 1 <= p < hat h -> p < fuel ->
  (forall i, 2 <= i < hat h -> i <> p -> i / 2 <> p -> le (hget h (i / 2)) (hget h i)) ->
  (forall i, 2 <= i < hat h -> i / 2 = p -> 2 <= p -> le (hget h (p / 2)) (hget h i)) ->
  heap_wf (heap_sendToRoot fuel h p) /\ ordered 2 (heap_sendToRoot fuel h p) /\
  same h (heap_sendToRoot fuel h p) /\ hdata (heap_sendToRoot fuel h p) 1 = hdata h p.
Proof.
  induction fuel as [|f IH]; intros h p W Hp Hf F1 F2; [lia|].
  cbn [heap_sendToRoot]. destruct (Nat.ltb_spec 0 p); [|lia].
  pose proof (wf_at2 _ W) as Hm.
  destruct (Nat.ltb_spec 0 (p / 2)) as [Hg|Hg].
  - destruct (IH (heap_swap h p (p / 2)) (p / 2)) as (W' & O' & S' & D').
    + apply wf_swap; auto; lia.
    + rewrite hat_swap. lia.
    + lia.
    + rewrite hat_swap. intros i Hi Hne Hor. rewrite !hget_swap, !fswap_transp. unfold transp.
      destruct (Nat.eqb_spec i (p / 2)); [lia|].
      destruct (Nat.eqb_spec (i / 2) (p / 2)); [lia|].
      destruct (Nat.eqb_spec i p) as [->|Nip]; [lia|].
      destruct (Nat.eqb_spec (i / 2) p) as [E2|N2].
      * apply F2; auto; lia.
      * apply F1; auto.
    + rewrite hat_swap. intros i Hi Hne H2. rewrite !hget_swap, !fswap_transp. unfold transp.
      destruct (Nat.eqb_spec (p / 2 / 2) (p / 2)); [lia|].
      destruct (Nat.eqb_spec (p / 2 / 2) p); [lia|].
      destruct (Nat.eqb_spec i (p / 2)); [lia|].
      assert (K : le (hget h (p / 2 / 2)) (hget h (p / 2))) by (apply F1; lia).
      destruct (Nat.eqb_spec i p) as [->|Nip]; auto.
      eapply le_trans; [exact K|]. rewrite <- Hne. apply F1; lia.
    + split; [auto|split;[auto|split]].
      * eapply same_trans; [apply (same_swap h p (p / 2)); lia|auto].
      * rewrite D'. cbn. rewrite fswap_transp. unfold transp. now rewrite Nat.eqb_refl.
  - assert (p = 1) by lia. subst p.
    assert (E0 : heap_sendToRoot f h (1 / 2) = h) by (destruct f; reflexivity).
    rewrite E0. split; [auto|split;[|split;[apply same_refl|auto]]].
    intros i Hi Hk. apply F1; lia.
Qed.

(** remove: takes out exactly the designated live location *)
Lemma remove_ok (h : heap) l v h' : heap_ok h -> In l (heap_locs h) -> heap_remove ord h l = Some (v, h') ->
  heap_ok h' /\ Permutation (elems h) ((l, v) :: elems h') /\ v = hval h l.
Proof.
  intros [W O] Hl E. unfold heap_remove in E. destruct (live_pos h l W Hl) as [Hp Ep].
  destruct (sendToRoot_ok (S (hpos h l)) h (hpos h l)) as (W' & O' & S' & D'); auto; try lia.
  { intros i Hi _ _. apply O; lia. }
  { intros i Hi Hd H2. apply le_trans with (hget h (hpos h l)); [apply O; lia|].
    rewrite <- Hd at 1. apply O; lia. }
  destruct (extract_gen _ _ _ W' O' E) as (K & P & Ev & Ea).
  split; [auto|split].
  - rewrite D', Ep in P. rewrite <- P. symmetry. now apply elems_perm.
  - rewrite Ev. unfold hget. now rewrite D', Ep, (sm_val _ _ S').
Qed.

Lemma remove_some (h : heap) l : heap_ok h -> In l (heap_locs h) -> exists v h', heap_remove ord h l = Some (v, h').
Proof.
  intros [W O] Hl. unfold heap_remove, heap_extractMax. destruct (live_pos h l W Hl) as [Hp Ep].
  destruct (sendToRoot_ok (S (hpos h l)) h (hpos h l)) as (W' & O' & S' & D'); auto; try lia.
  { intros i Hi _ _. apply O; lia. }
  { intros i Hi Hd H2. apply le_trans with (hget h (hpos h l)); [apply O; lia|].
    rewrite <- Hd at 1. apply O; lia. }
  unfold heap_empty. rewrite (sm_at _ _ S'). destruct (Nat.eqb_spec (hat h) 1); [lia|eauto].
Qed.

(** decrease: changes exactly one value, when decreasing moves an element towards the front *)
Lemma decrease_ok dec (h : heap) l : heap_ok h -> In l (heap_locs h) -> le (dec (hval h l)) (hval h l) ->
  heap_ok (heap_decrease ord dec h l) /\
  Permutation (elems (heap_decrease ord dec h l))
    (map (fun e => if fst e =? l then (l, dec (hval h l)) else e) (elems h)).
Proof.
  intros [W O] Hl Hd. destruct (live_pos h l W Hl) as [Hp Ep]. pose proof (wf_at2 _ W) as Hm.
  unfold heap_decrease. cbn [hpos].
  set (h1 := {| hdata := hdata h; hval := _; hpos := _; hmxs := _; hat := _; hnloc := _ |}).
  assert (W1 : heap_wf h1) by (destruct W; constructor; auto).
  assert (G : forall i, i < hmxs h -> hget h1 i = if i =? hpos h l then dec (hval h l) else hget h i).
  { intros i Hi. unfold hget, h1; hcbn. rewrite fupd_eq.
    destruct (Nat.eqb_spec i (hpos h l)) as [->|N].
    - rewrite Ep, Nat.eqb_refl. auto.
    - destruct (Nat.eqb_spec (hdata h i) l) as [E|_]; auto.
      exfalso. apply N. rewrite <- E, (wf_pos _ W); auto. }
  destruct (refloat_ok (S (hpos h l)) h1 (hpos h l)) as (W2 & O2 & S2); auto; try (unfold h1; cbn [hat]; lia).
  { split; intros i Hi Hne.
    - cbn [h1 hat] in Hi. rewrite !G by lia. destruct (Nat.eqb_spec i (hpos h l)); [lia|].
      destruct (Nat.eqb_spec (i / 2) (hpos h l)) as [E|]; [|apply O; lia].
      eapply le_trans; [exact Hd|]. assert (hval h l = hget h (i / 2)) as -> by (unfold hget; now rewrite E, Ep).
      apply O; lia.
    - intros H2. cbn [h1 hat] in Hi. rewrite !G by lia.
      destruct (Nat.eqb_spec i (hpos h l)); [lia|].
      destruct (Nat.eqb_spec (hpos h l / 2) (hpos h l)); [lia|].
      apply le_trans with (hget h (hpos h l)); [apply O; lia|]. rewrite <- Hne at 1. apply O; lia. }
  split; [split; auto|].
  eapply Permutation_trans; [apply elems_perm; exact S2|].
  unfold elems, heap_elems. rewrite map_map. cbn [fst].
  apply Permutation_refl'. apply map_ext. intros a. cbn [h1 hval]. rewrite fupd_eq.
  destruct (Nat.eqb_spec a l) as [->|]; auto.
Qed.

(** locations stay live until their own element is removed *)
Lemma locs_elems (h : heap) : heap_locs h = map fst (elems h).
Proof. unfold elems, heap_elems. rewrite map_map. cbn. now rewrite map_id. Qed.
End HeapProofs.
