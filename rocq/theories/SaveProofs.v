(** saveGraph and print on well-formed diagrams *)
From Verif Require Import Base HeapModel HeapProofs HeapRuns DDModel DDSpec DDFrame DDTopo DDPasses SaveModel.

(** find of a node that is in the heap gives its location *)
Lemma find_keyed lc (h : heap (nat * N)) g R j : heap_ok dn_ord h -> Permutation (heap_elems h) (keyed lc g R) -> In j R ->
  heap_find dn_eq h (j, 0%N) = Some (lc j).
Proof.
  intros K Pm Hj. destruct K as [W _].
  assert (Hin : In (lc j, (j, N.of_nat (g j))) (heap_elems h)).
  { eapply Permutation_in; [symmetry; exact Pm|]. unfold keyed. apply in_map_iff. exists j; auto. }
  unfold heap_elems, heap_locs in Hin. rewrite map_map in Hin. apply in_map_iff in Hin as (s & Es & Hs). apply in_seq in Hs. injection Es as E1 E2.
  assert (LV : forall i, 1 <= i -> i <= s -> fst (hval h (hdata h i)) = j -> hdata h i = lc j).
  { intros i H1 H2 E. assert (X : In (hdata h i, hval h (hdata h i)) (keyed lc g R)).
    { eapply Permutation_in; [exact Pm|]. unfold heap_elems, heap_locs. rewrite map_map. apply in_map_iff. exists i. split; auto. apply in_seq. lia. }
    unfold keyed in X. apply in_map_iff in X as (k & Ek & _). injection Ek as E3 Ev. rewrite <- Ev in E. cbn in E. subst k. now symmetry. }
  unfold heap_find. pose proof (wf_at2 _ W) as A2.
  replace (hmxs h - 1) with ((s - 1) + (1 + (hmxs h - 1 - s))) by lia. rewrite !seq_app. cbn [seq app].
  replace (1 + (s - 1)) with s by lia.
  assert (F : forall n a b, 1 <= a -> a + n <= s -> exists i, option_map (hdata h) (find (fun i => dn_eq (hval h (hdata h i)) (j, 0%N)) (seq a n ++ s :: b)) = Some (hdata h i) /\ 1 <= i /\ i <= s /\ fst (hval h (hdata h i)) = j).
  { induction n as [|n IH]; intros a b Ha Hb.
    - cbn [seq app find]. unfold dn_eq at 1. rewrite E2. cbn [fst]. rewrite Nat.eqb_refl. exists s. rewrite E2. cbn. csplit; auto. lia.
    - cbn [seq app find]. unfold dn_eq at 1. cbn [fst]. destruct (Nat.eqb_spec (fst (hval h (hdata h a))) j) as [E|E].
      + exists a. cbn. csplit; auto. lia.
      + apply IH; lia. }
  destruct (F (s - 1) 1 (seq (s + 1) (hmxs h - 1 - s)) ltac:(lia) ltac:(lia)) as (i & -> & I1 & I2 & I3). f_equal. now apply LV.
Qed.

Lemma gr_fill_eq deg : forall an h nl, gr_fill h deg an = fst (deg_fill h nl deg an).
Proof.
  induction an as [|i r IH]; intros h nl; cbn [gr_fill deg_fill]; auto.
  destruct (heap_insert dn_dflt h (i, N.of_nat (deg i))) as [h1 l]. cbn [fst]. apply IH.
Qed.

Section Walk.
Context {St : Type}.
Variable d : dd St.
Variable lc : nat -> nat.
Definition arc_line (e : nat) : gline := GArc (from d e) (to d e) (obj d e) (lbl d e).

Lemma gr_arcs_ok : forall es h g R, heap_ok dn_ord h -> NoDup R -> Permutation (heap_elems h) (keyed lc g R) ->
  (forall e, In e es -> In (to d e) R) -> (forall i, cnt (map (fun e => to d e) es) i <= g i) ->
  exists h', gr_arcs d h es = Ok (h', map arc_line es) /\ heap_ok dn_ord h' /\
     Permutation (heap_elems h') (keyed lc (fun i => g i - cnt (map (fun e => to d e) es) i) R).
Proof.
  induction es as [|e es IH]; intros h g R K ND Pm Hin Hc; cbn [gr_arcs map].
  - exists h. split; auto. split; auto. eapply Permutation_trans; [exact Pm|].
    match goal with |- Permutation ?a ?b => enough (E0 : a = b) by (rewrite E0; apply Permutation_refl) end. unfold keyed. apply map_ext. intros i. do 3 f_equal. cbn. lia.
  - assert (Ht : In (to d e) R) by (apply Hin; now left).
    change (e_to (d_ed d e)) with (to d e). rewrite (find_keyed lc h g R _ K Pm Ht).
    assert (G0 : 0 < g (to d e)). { specialize (Hc (to d e)). cbn [map count_occ] in Hc. destruct (Nat.eq_dec (to d e) (to d e)); [lia|congruence]. }
    destruct (decrease_keyed (fun (x : dd nat) _ => x) (fun _ _ => []) (fun _ => None) (fun _ => []) lc h g R _ K ND Pm Ht G0) as (K1 & P1).
    destruct (IH _ _ R K1 ND P1) as (h' & E & K' & P').
    + intros e' He'. apply Hin. now right.
    + intros i. specialize (Hc i). cbn [map count_occ] in Hc. destruct (Nat.eqb_spec i (to d e)) as [->|N].
      * destruct (Nat.eq_dec (to d e) (to d e)); [lia|congruence].
      * destruct (Nat.eq_dec (to d e) i); [congruence|lia].
    + rewrite E. cbn [bind]. exists h'. split; [reflexivity|]. split; [auto|]. eapply Permutation_trans; [exact P'|].
      match goal with |- Permutation ?a ?b => enough (E0 : a = b) by (rewrite E0; apply Permutation_refl) end. unfold keyed. apply map_ext. intros i.
      do 3 f_equal. cbn [map count_occ]. destruct (Nat.eqb_spec i (to d e)) as [->|N].
      * destruct (Nat.eq_dec (to d e) (to d e)); [lia|congruence].
      * destruct (Nat.eq_dec (to d e) i); [congruence|lia].
Qed.

Variable head : nat -> list gline.
Definition block (i : nat) : list gline := head i ++ map arc_line (kids d i).
(** the order in which the nodes are treated *)
Fixpoint topo (ord : list nat) : Prop :=
  match ord with [] => True | i :: r => (forall e, In e (kids d i) -> In (to d e) r) /\ topo r end.

Variable f : nat -> nat.
Hypothesis W : wfg d f.
Definition nxs (i : nat) : list nat := if in_dec Nat.eq_dec i (d_an d) then kid_ids d i else [].
Lemma nxs_in i : In i (d_an d) -> nxs i = kid_ids d i.
Proof. intros Hi. unfold nxs. destruct (in_dec Nat.eq_dec i (d_an d)); tauto. Qed.
Lemma nxs_f i j : In j (nxs i) -> f i < f j.
Proof.
  unfold nxs. destruct (in_dec Nat.eq_dec i (d_an d)) as [Hi|]; [|intros []]. unfold kid_ids. intros H. apply in_map_iff in H as (e & <- & He).
  apply (w_kids W) in He as [He <-]; auto. now apply (w_f W).
Qed.

Lemma gr_loop_ok hd : (forall i, In i (d_an d) -> hd i = Ok (head i)) -> forall fuel h R, length R <= fuel -> heap_ok dn_ord h -> NoDup R -> incl R (d_an d) ->
  Permutation (heap_elems h) (keyed lc (indeg nxs R) R) -> (forall i j, In i R -> In j (nxs i) -> In j R) ->
  exists ord, gr_loop fuel d hd h = Ok (flat_map block ord) /\ Permutation ord R /\ topo ord.
Proof.
  intros HH. induction fuel as [|fuel IH]; intros h R F K ND Hi Pm Cl.
  - destruct R; [|cbn in F; lia]. cbn [gr_loop]. rewrite (size_elems h). unfold elems. rewrite (Permutation_length Pm). exists []. cbn. auto.
  - cbn [gr_loop]. rewrite (size_elems h). unfold elems. rewrite (Permutation_length Pm). unfold keyed at 1. rewrite map_length.
    destruct R as [|a R0] eqn:ER; [exists []; cbn; auto|]. rewrite <- ER in *. assert (NR : R <> []) by (rewrite ER; discriminate).
    assert ((length R =? 0) = false) as -> by (apply Nat.eqb_neq; rewrite ER; discriminate). clear a R0 ER.
    destruct (extractMax_some dn_ord h (proj1 K)) as (v & h1 & E).
    { unfold elems. intros EE. rewrite EE in Pm. apply Permutation_nil in Pm. unfold keyed in Pm. apply map_eq_nil in Pm. auto. }
    rewrite E. destruct (extractMax_ok dn_ord dn_swo _ _ _ K E) as (K1 & (l & P1) & Mn). unfold elems in P1, Mn.
    assert (Hv : In (l, v) (keyed lc (indeg nxs R) R)) by (eapply Permutation_in; [exact Pm|]; eapply Permutation_in; [symmetry; exact P1|now left]).
    unfold keyed in Hv. apply in_map_iff in Hv as (i & Ev & HiR). injection Ev as <- <-. cbn [fst].
    assert (D0 : indeg nxs R i = 0).
    { destruct (source_exists (fun (x : dd nat) _ => x) (fun _ _ => []) (fun _ => None) nxs lc f nxs_f R NR) as (j & Hj & Dj).
      assert (Hin : In (lc j, (j, N.of_nat (indeg nxs R j))) (heap_elems h)).
      { eapply Permutation_in; [symmetry; exact Pm|]. unfold keyed. apply in_map_iff. eauto. }
      apply Mn in Hin. unfold dn_ord in Hin. cbn [snd] in Hin. lia. }
    assert (NoP := proj1 (indeg_zero nxs R i) D0). assert (Hia : In i (d_an d)) by (now apply Hi).
    rewrite HH by exact Hia. cbn [bind].
    set (R' := remove Nat.eq_dec i R) in *. assert (PR : Permutation R (i :: R')) by (now apply remove_perm).
    assert (ND' : NoDup R') by (apply (Permutation_NoDup PR) in ND; now inversion ND).
    assert (P2 : Permutation (heap_elems h1) (keyed lc (indeg nxs R) R')).
    { apply (Permutation_cons_inv (a := (lc i, (i, N.of_nat (indeg nxs R i))))). rewrite <- P1, Pm.
      unfold keyed. rewrite (Permutation_map _ PR). reflexivity. }
    assert (InR : forall j, In j R' <-> In j R /\ j <> i).
    { intros j. unfold R'. split; [apply in_remove|]. intros [? ?]. now apply in_in_remove. }
    assert (KN : map (fun e => to d e) (kids d i) = nxs i) by (now rewrite nxs_in).
    assert (IK : forall e, In e (kids d i) -> In (to d e) R').
    { intros e He. assert (Hn : In (to d e) (nxs i)) by (rewrite <- KN; apply in_map_iff; eauto).
      apply InR. split; [eapply Cl; eauto|]. intros Ee. rewrite Ee in Hn. apply (NoP i); auto. }
    destruct (gr_arcs_ok (kids d i) h1 (indeg nxs R) R' K1 ND' P2 IK) as (h2 & E2 & K2 & P3).
    { intros j. rewrite KN, (indeg_perm (fun (x : dd nat) _ => x) (fun _ _ => []) (fun _ => None) nxs lc _ _ j PR). unfold indeg. cbn [flat_map]. rewrite cnt_app. lia. }
    rewrite E2. cbn [bind].
    destruct (IH h2 R') as (ord & E3 & P4 & T4); auto.
    + apply Permutation_length in PR. cbn in PR. lia.
    + intros j Hj. apply Hi. now apply InR.
    + eapply Permutation_trans; [exact P3|]. rewrite KN. match goal with |- Permutation ?a ?b => enough (E0 : a = b) by (rewrite E0; apply Permutation_refl) end. unfold keyed. apply map_ext. intros j. do 3 f_equal.
      rewrite (indeg_perm (fun (x : dd nat) _ => x) (fun _ _ => []) (fun _ => None) nxs lc _ _ j PR). unfold indeg. cbn [flat_map]. rewrite cnt_app. lia.
    + intros a b Ha Hb. apply InR in Ha as [Ha _]. apply InR. split; [eapply Cl; eauto|]. intros ->. apply (NoP a); auto.
    + rewrite E3. cbn [bind]. exists (i :: ord). split; [|split].
      * f_equal. cbn [flat_map]. unfold block at 2. now rewrite app_assoc.
      * rewrite PR. now constructor.
      * cbn [topo]. split; auto. intros e He. eapply Permutation_in; [symmetry; exact P4|]. now apply IK.
Qed.
End Walk.

Section Start.
Context {St : Type}.
Variable d : dd St.
Variable f : nat -> nat.
Hypothesis W : wfg d f.
Lemma gr_run head hd : (forall i, In i (d_an d) -> hd i = Ok (head i)) ->
  exists ord, gr_loop (length (d_an d)) d hd (gr_start d) = Ok (flat_map (block d head) ord) /\ Permutation ord (d_an d) /\ topo d ord.
Proof.
  intros HH. unfold gr_start. rewrite (gr_fill_eq _ _ _ (fun _ => None)).
  destruct (deg_fill (heap_new dn_dflt 1000) (fun _ => None) (nbParents d) (d_an d)) as [h nl] eqn:E. cbn [fst].
  destruct (new_ok dn_ord dn_dflt 1000 ltac:(lia)) as [[W0 _] E0]. unfold elems in E0.
  destruct (deg_fill_ok _ (d_an d) _ _ _ _ W0 (w_nda W) E) as (W1 & _ & lc & Hnl & Pe). rewrite E0 in Pe. cbn [app] in Pe.
  destruct (buildHeap_ok dn_ord dn_swo h W1) as (K & S).
  apply gr_loop_ok with (lc := lc) (f := f); auto.
  - apply (w_nda W).
  - intros i Hi; auto.
  - eapply Permutation_trans; [apply (elems_perm _ _ S)|]. unfold elems. rewrite Pe. unfold keyed.
    match goal with |- Permutation ?a ?b => enough (E1 : a = b) by (rewrite E1; apply Permutation_refl) end.
    apply map_ext_in. intros i Hi. do 3 f_equal. rewrite <- (deg_par d f W i Hi). unfold indeg. f_equal.
    rewrite !flat_map_concat_map. f_equal. apply map_ext_in. intros k Hk. symmetry. now apply nxs_in.
  - intros i j Hi Hj. rewrite nxs_in in Hj by auto. unfold kid_ids in Hj. apply in_map_iff in Hj as (e & <- & He). apply (w_kids W) in He as [He _]; auto.
    now apply (w_ends W).
Qed.
End Start.
