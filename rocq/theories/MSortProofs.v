(** mergeSort: proofs *)
From Verif Require Import Base HeapProofs MSortModel.
From Coq Require Import Sorting.Sorted.
Ltac Zify.zify_post_hook ::= Z.div_mod_to_equations.

Section P.
Context {T : Type}.
Variable cmp : T -> T -> bool.
Variable R : T -> T -> Prop.
Hypothesis Rtrans : forall x y z, R x y -> R y z -> R x z.
Hypothesis Rtrue : forall x y, cmp x y = true -> R x y.
Hypothesis Rfalse : forall x y, cmp x y = false -> R y x.

Lemma cells_nil (v : nat -> T) a b : b <= a -> cells v a b = [].
Proof. intros. unfold cells. now replace (b - a) with 0 by lia. Qed.
Lemma cells_cons (v : nat -> T) a b : a < b -> cells v a b = v a :: cells v (S a) b.
Proof. intros. unfold cells. replace (b - a) with (S (b - S a)) by lia. reflexivity. Qed.
Lemma cells_app (v : nat -> T) a b c : a <= b <= c -> cells v a c = cells v a b ++ cells v b c.
Proof.
  intros. unfold cells. rewrite <- map_app. f_equal. replace (c - a) with ((b - a) + (c - b)) by lia.
  rewrite seq_app. do 2 f_equal. lia.
Qed.
Lemma cells_ext (v w : nat -> T) a b : (forall i, a <= i < b -> v i = w i) -> cells v a b = cells w a b.
Proof. intros H. unfold cells. apply map_ext_in. intros i Hi. apply in_seq in Hi. apply H. lia. Qed.

(** the merge of two runs *)
Lemma merge_ok : forall fuel aux v i d j to k,
  i <= d -> j <= to -> fuel = (d - i) + (to - j) ->
  StronglySorted R (cells aux i d) -> StronglySorted R (cells aux j to) ->
  let v' := ms_merge cmp fuel aux v i d j to k in
  StronglySorted R (cells v' k (k + fuel)) /\
  Permutation (cells v' k (k + fuel)) (cells aux i d ++ cells aux j to) /\
  (forall x, x < k \/ k + fuel <= x -> v' x = v x).
Proof.
  induction fuel as [|f IH]; intros aux v i d j to k Hi Hj Hf S1 S2; cbn zeta.
  - cbn [ms_merge]. rewrite !cells_nil by lia. split; [constructor|split;auto].
  - assert (step : forall a i' j' , 
      cells aux i d ++ cells aux j to = a :: [] ++ cells aux i' d ++ cells aux j' to \/
      Permutation (cells aux i d ++ cells aux j to) (a :: cells aux i' d ++ cells aux j' to) ->
      (forall y, In y (cells aux i' d ++ cells aux j' to) -> R a y) ->
      i' <= d -> j' <= to -> f = (d - i') + (to - j') ->
      StronglySorted R (cells aux i' d) -> StronglySorted R (cells aux j' to) ->
      let v' := ms_merge cmp f aux (fupd v k a) i' d j' to (S k) in
      StronglySorted R (cells v' k (k + S f)) /\
      Permutation (cells v' k (k + S f)) (cells aux i d ++ cells aux j to) /\
      (forall x, x < k \/ k + S f <= x -> v' x = v x)).
    { intros a i' j' HP HR L1 L2 Ef T1 T2. cbn zeta.
      destruct (IH aux (fupd v k a) i' d j' to (S k) L1 L2 Ef T1 T2) as (A & B & C).
      replace (S k + f) with (k + S f) in * by lia.
      rewrite cells_cons by lia.
      assert (E : ms_merge cmp f aux (fupd v k a) i' d j' to (S k) k = a)
        by (rewrite C by lia; apply fupd_same).
      rewrite E. split; [|split].
      - constructor; auto. apply Forall_forall. intros y Hy. apply HR. eapply Permutation_in; eauto.
      - destruct HP as [HP|HP]; [rewrite HP; cbn|rewrite HP]; now apply perm_skip.
      - intros x Hx. rewrite C by lia. apply fupd_diff. lia. }
    cbn [ms_merge].
    destruct (Nat.eqb_spec i d) as [Ei|Ni]; destruct (Nat.eqb_spec j to) as [Ej|Nj]; cbn [negb andb].
    + lia.
    + subst i. rewrite (cells_cons aux j) in S2 by lia. inversion S2 as [|? ? S3 F3]; subst.
      apply step; auto; try lia.
      * left. rewrite (cells_cons aux j) by lia. rewrite !cells_nil by lia. reflexivity.
      * rewrite (cells_nil aux d d) by lia. cbn. intros y Hy. rewrite Forall_forall in F3. auto.
    + subst j. rewrite (cells_cons aux i) in S1 by lia. inversion S1 as [|? ? S3 F3]; subst.
      apply step; auto; try lia.
      * left. rewrite (cells_cons aux i) by lia. reflexivity.
      * rewrite (cells_nil aux to to) by lia. rewrite app_nil_r. intros y Hy. rewrite Forall_forall in F3. auto.
    + pose proof S1 as S1'. pose proof S2 as S2'.
      rewrite (cells_cons aux i) in S1 by lia. inversion S1 as [|? ? S3 F3]; subst.
      rewrite (cells_cons aux j) in S2 by lia. inversion S2 as [|? ? S4 F4]; subst.
      rewrite Forall_forall in F3, F4.
      destruct (cmp (aux i) (aux j)) eqn:E.
      * apply step; auto; try lia.
        -- left. rewrite (cells_cons aux i) by lia. reflexivity.
        -- intros y Hy. apply in_app_or in Hy as [Hy|Hy]; auto.
           rewrite (cells_cons aux j) in Hy by lia. destruct Hy as [<-|Hy]; auto.
           apply Rtrans with (aux j); auto.
      * apply step; auto; try lia.
        -- right. rewrite (cells_cons aux j) by lia. symmetry. apply Permutation_middle.
        -- intros y Hy. apply in_app_or in Hy as [Hy|Hy]; auto.
           rewrite (cells_cons aux i) in Hy by lia. destruct Hy as [<-|Hy]; auto.
           apply Rtrans with (aux i); auto.
Qed.

Lemma aux_ok : forall fuel v from to aux v' aux', from <= to -> to - from <= fuel ->
  (forall i, from <= i < to -> v i = aux i) -> ms_aux cmp fuel v from to aux = (v', aux') ->
  StronglySorted R (cells v' from to) /\ Permutation (cells v' from to) (cells v from to) /\
  (forall x, x < from \/ to <= x -> v' x = v x /\ aux' x = aux x).
Proof.
  induction fuel as [|f IH]; intros v from to aux v' aux' Hft Hf Hag E; cbn [ms_aux] in E.
  - injection E as <- <-. rewrite cells_nil by lia. split; [constructor|split;auto].
  - destruct (Nat.leb_spec to (from + 1)) as [Hs|Hs].
    + injection E as <- <-. split; [|split;auto].
      destruct (Nat.eq_dec from to); [rewrite cells_nil by lia; constructor|].
      rewrite cells_cons by lia. rewrite cells_nil by lia. repeat constructor.
    + set (d := from + (to - from) / 2) in *.
      destruct (ms_aux cmp f aux from d v) as [aux1 v1] eqn:E1.
      destruct (ms_aux cmp f aux1 d to v1) as [aux2 v2] eqn:E2.
      injection E as <- <-.
      assert (Hd : from < d < to) by (unfold d; clear - Hs; lia). clearbody d.
      destruct (IH _ _ _ _ _ _ (ltac:(lia) : from <= d) (ltac:(lia) : d - from <= f) (fun i Hi => eq_sym (Hag i (ltac:(lia) : from <= i < to))) E1) as (A1 & B1 & C1).
      assert (Hag2 : forall i, d <= i < to -> aux1 i = v1 i).
      { intros i Hi. destruct (C1 i) as [X Y]; [lia|]. rewrite X, Y. symmetry. apply Hag. lia. }
      destruct (IH _ _ _ _ _ _ (ltac:(lia) : d <= to) (ltac:(lia) : to - d <= f) Hag2 E2) as (A2 & B2 & C2).
      assert (Ex : cells aux2 from d = cells aux1 from d) by (apply cells_ext; intros; apply C2; lia).
      rewrite <- Ex in A1.
      destruct (merge_ok (to - from) aux2 v2 from d d to from ltac:(lia) ltac:(lia) ltac:(lia) A1 A2) as (A & B & C).
      replace (from + (to - from)) with to in * by lia.
      split; [exact A|split].
      * rewrite B, Ex, B1, B2. rewrite (cells_app v from d to) by lia.
        apply Permutation_app.
        -- erewrite cells_ext; [reflexivity|]. intros. symmetry. apply Hag. lia.
        -- erewrite cells_ext; [reflexivity|]. intros i Hi. destruct (C1 i) as [X _]; [lia|]. rewrite X. symmetry. apply Hag. lia.
      * intros x Hx. rewrite C by lia. destruct (C2 x) as [X Y]; [lia|]. destruct (C1 x) as [X' Y']; [lia|].
        split; congruence.
Qed.

Lemma mergeSort_ok junk c sz :
  StronglySorted R (cells (mergeSort cmp junk c sz) 0 sz) /\
  Permutation (cells (mergeSort cmp junk c sz) 0 sz) (cells c 0 sz) /\
  (forall i, sz <= i -> mergeSort cmp junk c sz i = c i).
Proof.
  unfold mergeSort. destruct (ms_aux _ _ _ _ _ _) as [v' aux'] eqn:E. cbn [fst].
  apply aux_ok in E; [|lia|lia|].
  2:{ intros i Hi. destruct (Nat.ltb_spec i sz); [reflexivity|lia]. }
  destruct E as (A & B & C).
  split; [auto|split;[auto|]]. intros i Hi. apply C. lia.
Qed.

Lemma cells_arr (d : T) (l : list T) : cells (arr d l) 0 (length l) = l.
Proof.
  unfold cells, arr. rewrite Nat.sub_0_r.
  enough (forall k, map (fun i => nth (i - k) l d) (seq k (length l)) = l) as H.
  { rewrite <- (H 0) at 2. apply map_ext. intros. now rewrite Nat.sub_0_r. }
  induction l as [|a l IH]; intros k; cbn [length seq map]; auto.
  rewrite Nat.sub_diag. cbn [nth]. f_equal. rewrite <- (IH (S k)) at 2.
  apply map_ext_in. intros i Hi. apply in_seq in Hi. replace (i - k) with (S (i - S k)) by lia. reflexivity.
Qed.

Lemma msort_list_ok d l : StronglySorted R (msort_list cmp d l) /\ Permutation (msort_list cmp d l) l.
Proof.
  destruct (mergeSort_ok (fun _ => d) (arr d l) (length l)) as (A & B & _).
  split; auto. unfold msort_list. rewrite B, cells_arr. auto.
Qed.
End P.

Lemma mergeSort_swo {T} (cmp : T -> T -> bool) junk c sz : SWO cmp ->
  StronglySorted (fun x y => cmp y x = false) (cells (mergeSort cmp junk c sz) 0 sz) /\
  Permutation (cells (mergeSort cmp junk c sz) 0 sz) (cells c 0 sz) /\
  (forall i, sz <= i -> mergeSort cmp junk c sz i = c i).
Proof.
  intros [A B]. apply mergeSort_ok; auto.
Qed.
Lemma mergeSort_preorder {T} (cmp : T -> T -> bool) junk c sz :
  (forall x y, cmp x y = true \/ cmp y x = true) ->
  (forall x y z, cmp x y = true -> cmp y z = true -> cmp x z = true) ->
  StronglySorted (fun x y => cmp x y = true) (cells (mergeSort cmp junk c sz) 0 sz) /\
  Permutation (cells (mergeSort cmp junk c sz) 0 sz) (cells c 0 sz) /\
  (forall i, sz <= i -> mergeSort cmp junk c sz i = c i).
Proof.
  intros Tot Tr. apply mergeSort_ok; auto. intros x y E. destruct (Tot x y); congruence.
Qed.
