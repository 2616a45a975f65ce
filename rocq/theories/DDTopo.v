(** The degree-heap loop shared by computeBest and computeBestBackward visits the nodes of an acyclic diagram in topological order. *)
From Verif Require Import Base HeapModel HeapProofs HeapRuns DDModel.

Lemma dn_swo : SWO dn_ord.
Proof. constructor; unfold dn_ord; intros; lia. Qed.

Notation cnt := (count_occ Nat.eq_dec).

Section Fill.
Variable deg : nat -> nat.
Lemma deg_fill_ok : forall an h nl h' nl', heap_wf h -> NoDup an -> deg_fill h nl deg an = (h', nl') ->
  heap_wf h' /\ (forall j, ~ In j an -> nl' j = nl j) /\
  exists lc, (forall i, In i an -> nl' i = Some (lc i)) /\
    heap_elems h' = heap_elems h ++ map (fun i => (lc i, (i, N.of_nat (deg i)))) an.
Proof.
  induction an as [|a an IH]; intros h nl h' nl' W ND E; cbn [deg_fill] in E.
  - injection E as <- <-. split; [auto|split; [auto|]]. exists (fun _ => 0). split; [intros i []|]. now rewrite app_nil_r.
  - destruct (heap_insert dn_dflt h (a, N.of_nat (deg a))) as [h1 l] eqn:E1.
    apply NoDup_cons_iff in ND as [Na ND].
    destruct (insert_wf dn_dflt _ _ _ _ W E1) as (W1 & _ & P1 & _). unfold elems in P1.
    destruct (IH _ _ _ _ W1 ND E) as (W' & O' & lc & L' & P').
    split; [auto|split].
    + intros j Hj. rewrite O' by (intros ?; apply Hj; now right). rewrite fupd_diff; auto. intros ->. apply Hj; now left.
    + exists (fun i => if i =? a then l else lc i). split.
      * intros i [<-|Hi]; [rewrite Nat.eqb_refl, O' by auto; now rewrite fupd_same|].
        destruct (Nat.eqb_spec i a) as [->|N]; [tauto|auto].
      * rewrite P', P1, <- app_assoc. cbn [map app]. rewrite Nat.eqb_refl. f_equal. f_equal.
        apply map_ext_in. intros i Hi. destruct (Nat.eqb_spec i a) as [->|N]; [tauto|auto].
Qed.
End Fill.

Section Loop.
Context {St : Type}.
Variables (proc : dd St -> nat -> dd St) (nexts : dd St -> nat -> list nat).
Variable nl : nat -> option nat.
Variable nx : nat -> list nat.         (* neighbours, constant during the loop *)
Variable lc : nat -> nat.              (* heap location of a node *)

Definition keyed (g : nat -> nat) (R : list nat) : list (nat * (nat * N)) := map (fun i => (lc i, (i, N.of_nat (g i)))) R.

Lemma keyed_fst g R : map fst (keyed g R) = map lc R.
Proof. unfold keyed. rewrite map_map. reflexivity. Qed.

Lemma decrease_keyed (h : heap (nat * N)) g R j : heap_ok dn_ord h -> NoDup R -> Permutation (heap_elems h) (keyed g R) ->
  In j R -> 0 < g j ->
  heap_ok dn_ord (heap_decrease dn_ord dn_dec h (lc j)) /\
  Permutation (heap_elems (heap_decrease dn_ord dn_dec h (lc j))) (keyed (fun i => if i =? j then g i - 1 else g i) R).
Proof.
  intros K ND Pm Hj G.
  assert (Hin : In (lc j, (j, N.of_nat (g j))) (heap_elems h)).
  { eapply Permutation_in; [symmetry; exact Pm|]. unfold keyed. apply in_map_iff. exists j; auto. }
  assert (Hl : In (lc j) (heap_locs h)).
  { rewrite <- fst_elems. apply in_map_iff. exists (lc j, (j, N.of_nat (g j))). auto. }
  assert (Hv : hval h (lc j) = (j, N.of_nat (g j))).
  { unfold heap_elems in Hin. apply in_map_iff in Hin as [x [E _]]. injection E as -> E2. auto. }
  assert (NDl : NoDup (map lc R)).
  { rewrite <- (keyed_fst g). eapply Permutation_NoDup; [apply Permutation_map; exact Pm|].
    rewrite fst_elems. eapply NoDup_locs. apply K. }
  destruct (decrease_ok dn_ord dn_swo dn_dec h (lc j) K Hl) as (K' & P').
  { rewrite Hv. unfold le, dn_ord, dn_dec. cbn [fst snd]. destruct (N.eqb_spec (N.of_nat (g j)) 0); [lia|]. lia. }
  split; auto. unfold elems in P'. eapply Permutation_trans; [exact P'|].
  eapply Permutation_trans; [apply Permutation_map; exact Pm|].
  match goal with |- Permutation ?a ?b => enough (E : a = b) by (rewrite E; apply Permutation_refl) end.
  unfold keyed. rewrite map_map. apply map_ext_in. intros i Hi. cbn [fst].
  destruct (Nat.eqb_spec i j) as [->|N].
  - rewrite Nat.eqb_refl, Hv. unfold dn_dec. cbn [fst snd]. destruct (N.eqb_spec (N.of_nat (g j)) 0); [lia|]. do 2 f_equal. lia.
  - destruct (Nat.eqb_spec (lc i) (lc j)) as [E|]; auto. exfalso. apply N.
    clear - NDl E Hi Hj. induction R as [|a R IH]; [destruct Hi|]. cbn in NDl. apply NoDup_cons_iff in NDl as [N0 NDl].
    destruct Hi as [->|Hi], Hj as [->|Hj]; auto.
    + exfalso. apply N0. rewrite E. now apply in_map.
    + exfalso. apply N0. rewrite <- E. now apply in_map.
Qed.

Lemma deg_decrease_ok : forall ns (h : heap (nat * N)) g R, heap_ok dn_ord h -> NoDup R -> Permutation (heap_elems h) (keyed g R) ->
  (forall j, In j ns -> In j R /\ nl j = Some (lc j)) -> (forall j, cnt ns j <= g j) ->
  exists h', deg_decrease h nl ns = Ok h' /\ heap_ok dn_ord h' /\ Permutation (heap_elems h') (keyed (fun j => g j - cnt ns j) R).
Proof.
  induction ns as [|j ns IH]; intros h g R K ND Pm Hin Hc; cbn [deg_decrease].
  - exists h. split; [auto|split; [auto|]]. eapply Permutation_trans; [exact Pm|]. match goal with |- Permutation ?a ?b => enough (E : a = b) by (rewrite E; apply Permutation_refl) end. unfold keyed. apply map_ext. intros i. cbn [count_occ]. do 3 f_equal. lia.
  - destruct (Hin j (or_introl eq_refl)) as [Hj ->].
    assert (G : 0 < g j) by (specialize (Hc j); cbn [count_occ] in Hc; destruct (Nat.eq_dec j j); [lia|congruence]).
    destruct (decrease_keyed h g R j K ND Pm Hj G) as [K1 P1].
    destruct (IH _ _ R K1 ND P1) as (h' & E & K' & P').
    + intros i Hi. apply Hin. now right.
    + intros i. specialize (Hc i). cbn [count_occ] in Hc. destruct (Nat.eqb_spec i j) as [->|N].
      * destruct (Nat.eq_dec j j); [lia|congruence].
      * destruct (Nat.eq_dec j i); [congruence|lia].
    + exists h'. split; [auto|split; [auto|]]. eapply Permutation_trans; [exact P'|]. match goal with |- Permutation ?a ?b => enough (E0 : a = b) by (rewrite E0; apply Permutation_refl) end. unfold keyed. apply map_ext. intros i.
      do 3 f_equal. cbn [count_occ]. destruct (Nat.eqb_spec i j) as [->|N].
      * destruct (Nat.eq_dec j j); [lia|congruence].
      * destruct (Nat.eq_dec j i); [congruence|lia].
Qed.

(** number of arcs into i from the nodes of R *)
Definition indeg (R : list nat) (i : nat) : nat := cnt (flat_map nx R) i.

Lemma cnt_app l1 l2 (i : nat) : cnt (l1 ++ l2) i = cnt l1 i + cnt l2 i.
Proof. apply count_occ_app. Qed.
Lemma indeg_perm R R' i : Permutation R R' -> indeg R i = indeg R' i.
Proof.
  intros P. unfold indeg. induction P; cbn [flat_map]; rewrite ?cnt_app; try lia.
Qed.
Lemma indeg_zero R i : indeg R i = 0 <-> forall k, In k R -> ~ In i (nx k).
Proof.
  unfold indeg. rewrite <- (count_occ_not_In Nat.eq_dec). rewrite in_flat_map. split.
  - intros H k Hk Hi. apply H. eauto.
  - intros H (k & Hk & Hi). eapply H; eauto.
Qed.

(** acyclicity: f increases along arcs *)
Variable f : nat -> nat.
Hypothesis Hf : forall i j, In j (nx i) -> f i < f j.

Lemma source_exists R : R <> [] -> exists i, In i R /\ indeg R i = 0.
Proof.
  intros NE.
  assert (exists i, In i R /\ forall j, In j R -> f i <= f j) as (i & Hi & Hm).
  { clear Hf. induction R as [|a R IH]; [congruence|]. destruct R as [|b R].
    - exists a. split; [now left|]. intros j [<-|[]]. auto.
    - destruct IH as (i & Hi & Hm); [discriminate|]. destruct (Nat.le_gt_cases (f a) (f i)) as [L|L].
      + exists a. split; [now left|]. intros j [<-|Hj]; auto. specialize (Hm j Hj). lia.
      + exists i. split; [now right|]. intros j [<-|Hj]; auto. lia. }
  exists i. split; auto. apply indeg_zero. intros k Hk Hin. apply Hf in Hin. specialize (Hm k Hk). lia.
Qed.

Variable an : list nat.
Hypothesis Hnl : forall i, In i an -> nl i = Some (lc i).
(** what holds when the nodes R remain to be treated *)
Variable J : list nat -> dd St -> Prop.
Hypothesis HJ : forall R d i, NoDup R -> incl R an -> In i R -> (forall k, In k R -> ~ In i (nx k)) -> J R d ->
  J (remove Nat.eq_dec i R) (proc d i) /\ nexts (proc d i) i = nx i.

Lemma remove_perm (R : list nat) i : NoDup R -> In i R -> Permutation R (i :: remove Nat.eq_dec i R).
Proof.
  intros ND Hi. apply NoDup_Permutation; auto.
  - constructor; [apply remove_In|]. clear Hi. induction R as [|a R IH]; cbn; auto. apply NoDup_cons_iff in ND as [N ND].
    destruct (Nat.eq_dec i a); auto. constructor; auto. intros H. apply in_remove in H. tauto.
  - intros x. cbn [In]. split.
    + intros Hx. destruct (Nat.eq_dec i x) as [|N]; auto. right. apply in_in_remove; auto.
    + intros [<-|Hx]; auto. apply in_remove in Hx. tauto.
Qed.

Lemma deg_loop_ok : forall fuel h R d, length R <= fuel -> heap_ok dn_ord h -> NoDup R -> incl R an ->
  Permutation (heap_elems h) (keyed (indeg R) R) -> (forall i j, In i R -> In j (nx i) -> In j R) -> J R d ->
  exists d', deg_loop fuel proc nexts h nl d = Ok d' /\ J [] d'.
Proof.
  induction fuel as [|fuel IH]; intros h R d F K ND Hi Pm Cl Jd.
  - destruct R; [|cbn in F; lia]. cbn [deg_loop]. rewrite (size_elems h). unfold elems. rewrite (Permutation_length Pm). exists d. auto.
  - cbn [deg_loop]. rewrite (size_elems h). unfold elems. rewrite (Permutation_length Pm). unfold keyed at 1. rewrite map_length.
    destruct R as [|a R0] eqn:ER; [exists d; auto|]. rewrite <- ER in *. assert (NR : R <> []) by (rewrite ER; discriminate).
    assert ((length R =? 0) = false) as -> by (apply Nat.eqb_neq; rewrite ER; discriminate). clear a R0 ER.
    destruct (extractMax_some dn_ord h (proj1 K)) as (v & h1 & E).
    { unfold elems. intros EE. rewrite EE in Pm. apply Permutation_nil in Pm. unfold keyed in Pm. apply map_eq_nil in Pm. auto. }
    rewrite E. destruct (extractMax_ok dn_ord dn_swo _ _ _ K E) as (K1 & (l & P1) & Mn). unfold elems in P1, Mn.
    assert (Hv : In (l, v) (keyed (indeg R) R)) by (eapply Permutation_in; [exact Pm|]; eapply Permutation_in; [symmetry; exact P1|now left]).
    unfold keyed in Hv. apply in_map_iff in Hv as (i & Ev & HiR). injection Ev as <- <-. cbn [fst].
    (* the extracted node has no remaining predecessor *)
    assert (D0 : indeg R i = 0).
    { destruct (source_exists R NR) as (j & Hj & Dj).
      assert (Hin : In (lc j, (j, N.of_nat (indeg R j))) (heap_elems h)).
      { eapply Permutation_in; [symmetry; exact Pm|]. unfold keyed. apply in_map_iff. eauto. }
      apply Mn in Hin. unfold dn_ord in Hin. cbn [snd] in Hin. lia. }
    assert (NoP := proj1 (indeg_zero R i) D0).
    destruct (HJ R d i ND Hi HiR NoP Jd) as [J1 NX]. rewrite NX.
    set (R' := remove Nat.eq_dec i R) in *. assert (PR : Permutation R (i :: R')) by (now apply remove_perm).
    assert (ND' : NoDup R') by (apply (Permutation_NoDup PR) in ND; now inversion ND).
    assert (P2 : Permutation (heap_elems h1) (keyed (indeg R) R')).
    { apply (Permutation_cons_inv (a := (lc i, (i, N.of_nat (indeg R i))))). rewrite <- P1, Pm.
      unfold keyed. rewrite (Permutation_map _ PR). reflexivity. }
    assert (InR : forall j, In j R' <-> In j R /\ j <> i).
    { intros j. unfold R'. split; [apply in_remove|]. intros [? ?]. now apply in_in_remove. }
    destruct (deg_decrease_ok (nx i) h1 (indeg R) R' K1 ND' P2) as (h2 & E2 & K2 & P3).
    { intros j Hj. assert (In j R) by (eapply Cl; eauto). split; [apply InR; split; auto|auto].
      intros ->. apply (NoP i); auto. }
    { intros j. rewrite (indeg_perm _ _ j PR). unfold indeg. cbn [flat_map]. rewrite cnt_app. lia. }
    rewrite E2. cbn [bind].
    apply (IH h2 R' (proc d i)); auto.
    + apply Permutation_length in PR. cbn in PR. lia.
    + intros j Hj. apply Hi. now apply InR.
    + eapply Permutation_trans; [exact P3|]. match goal with |- Permutation ?a ?b => enough (E0 : a = b) by (rewrite E0; apply Permutation_refl) end. unfold keyed. apply map_ext. intros j. do 3 f_equal.
      rewrite (indeg_perm _ _ j PR). unfold indeg. cbn [flat_map]. rewrite cnt_app. lia.
    + intros a b Ha Hb. apply InR in Ha as [Ha _]. apply InR. split; [eapply Cl; eauto|]. intros ->. apply (NoP a); auto.
Qed.
End Loop.
