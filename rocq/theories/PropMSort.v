(** Property C36: mergeSort (src/msort.hpp). *)
From Verif Require Import Base HeapProofs MSortModel MSortProofs.
From Coq Require Import Sorting.Sorted.

(** C36, strict weak orders: no later element is strictly before an earlier one; a permutation; nothing outside is touched *)
Theorem C36_mergeSort_strict : forall T (cmp : T -> T -> bool) junk c sz, SWO cmp ->
  StronglySorted (fun x y => cmp y x = false) (cells (mergeSort cmp junk c sz) 0 sz) /\
  Permutation (cells (mergeSort cmp junk c sz) 0 sz) (cells c 0 sz) /\
  (forall i, sz <= i -> mergeSort cmp junk c sz i = c i).
Proof. exact @mergeSort_swo. Qed.
Print Assumptions C36_mergeSort_strict.

(** C36, total preorders given as "<=" *)
Theorem C36_mergeSort_preorder : forall T (cmp : T -> T -> bool) junk c sz,
  (forall x y, cmp x y = true \/ cmp y x = true) ->
  (forall x y z, cmp x y = true -> cmp y z = true -> cmp x z = true) ->
  StronglySorted (fun x y => cmp x y = true) (cells (mergeSort cmp junk c sz) 0 sz) /\
  Permutation (cells (mergeSort cmp junk c sz) 0 sz) (cells c 0 sz) /\
  (forall i, sz <= i -> mergeSort cmp junk c sz i = c i).
Proof. exact @mergeSort_preorder. Qed.
Print Assumptions C36_mergeSort_preorder.

(** cases: both kinds of comparison, with ties, odd and even splits *)
Example C36_example_orders : SWO Z.ltb /\ (forall x y, (x <=? y)%Z = true \/ (y <=? x)%Z = true) /\
  (forall x y z, (x <=? y)%Z = true -> (y <=? z)%Z = true -> (x <=? z)%Z = true).
Proof. split; [constructor; intros; lia|]. split; intros; lia. Qed.
Example C36_example_run :
  cells (mergeSort (fun x y : nat * nat => fst x <? fst y) (fun _ => (0, 0))
    (arr (0,0) [(5,0); (2,1); (5,2); (1,3); (2,4); (9,5); (0,6)]) 7) 0 7
  = [(0,6); (1,3); (2,4); (2,1); (5,2); (5,0); (9,5)].
Proof. vm_compute. reflexivity. Qed.
