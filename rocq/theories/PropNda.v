(** C49: NDArray is a sequence *)
From Verif Require Import Base HeapProofs NdaModel NdaSpec NdaProofs.
From Coq Require Import Sorting.Sorted.

(** for every strict weak order, every initial capacity above 0, every contents of the fresh memory and every allowed program: no access outside the allocation, no null pointer
    compared, and every answer is that of the sequence.  Missing for the full claim: sort and eraseSuffix after something was popped or erased, and push_front without room,
    where it is false (below) *)
Theorem C49_nda_is_sequence_partial cmp junk isz os : SWO cmp -> 0 < isz -> allowed 0 0 true os -> (Z.of_nat (length os) < 2 ^ 64)%Z ->
  exists s l L, n_run cmp (nda0 junk isz) os = Ok (s, l) /\ l_run cmp (mkL [] 0 true) os l L.
Proof. intros Hc Hi Ha Hl. destruct (n_runs cmp os Hc (nda0 junk isz) _ (ninv0 junk isz Hi) Ha Hl) as [s [l [L [E [R _]]]]]. eauto. Qed.

(** a program: the array grows past 2 cells, is sorted and cut, popped, refilled at the front, erased in the middle, and cleared *)
Definition exN : list nop := [NPush 5; NPush 3; NPush 9; NPush 1; NPush 3; NSort; NIter; NSuffix 4; NSize; NPopF; NPopF; NPushF 7; NFront; NErase 1; NErase 1; NIter; NSize; NClear; NSize; NPush 4; NIter].
Definition exNo : list nout := [NoOut; NoOut; NoOut; NoOut; NoOut; NoOut; NList [Some 1; Some 3; Some 3; Some 5; Some 9]; NoOut; NNum 4; NoOut; NoOut; NoOut; NVal (Some 7); NVal (Some 5); NVal None; NList [Some 7]; NNum 1; NoOut; NNum 0; NoOut; NList [Some 4]].
Example C49_hyp : SWO Nat.ltb /\ 0 < 2 /\ allowed 0 0 true exN /\ (Z.of_nat (length exN) < 2 ^ 64)%Z.
Proof. split; [constructor; intros; lia|]. split; [lia|]. split; [cbn; lia | reflexivity]. Qed.
Example C49_run : match n_run Nat.ltb (nda0 (fun _ => None) 2) exN with Ok (_, l) => l = exNo | Err _ => False end.
Proof. vm_compute. reflexivity. Qed.

(** findings.  (a) sort runs over the whole array, front gap included: after a pop_front it compares the null pointer; after an erase too *)
Theorem C49_sort_after_pop_refuted : n_run Nat.ltb (nda0 (fun _ => None) 4) [NPush 5; NPush 3; NPush 4; NPopF; NSort] = Err UB /\
  n_run Nat.ltb (nda0 (fun _ => None) 4) [NPush 5; NPush 3; NPush 4; NErase 1; NSort] = Err UB.
Proof. vm_compute. auto. Qed.
(** (b) push_front without room at the front puts the node at the back (the assertion that forbids it is off in release builds) *)
Theorem C49_pushf_without_room_refuted : match n_run Nat.ltb (nda0 (fun _ => None) 4) [NPush 5; NPushF 3; NIter] with Ok (_, o) => o = [NoOut; NoOut; NList [Some 5; Some 3]] | Err _ => False end.
Proof. vm_compute. reflexivity. Qed.
(** (c) eraseSuffix still counts the holes it cuts off: the array shows one node and size() is 2^64 - 1 *)
Theorem C49_suffix_holes_refuted : match n_run Nat.ltb (nda0 (fun _ => None) 4) [NPush 5; NPush 3; NPush 1; NPush 2; NErase 2; NErase 2; NSuffix 1; NSize; NIter] with
  | Ok (_, o) => skipn 7 o = [NNum (2 ^ 64 - 1); NList [Some 5]] | Err _ => False end.
Proof. vm_compute. reflexivity. Qed.
(** (d) pop_front of an empty array moves the start past the end: size() is 2^64 - 1 and the next node pushed is lost *)
Theorem C49_pop_empty_refuted : match n_run Nat.ltb (nda0 (fun _ => None) 4) [NPopF; NSize; NPush 5; NIter] with
  | Ok (_, o) => o = [NoOut; NNum (2 ^ 64 - 1); NoOut; NList []] | Err _ => False end.
Proof. vm_compute. reflexivity. Qed.

Print Assumptions C49_nda_is_sequence_partial.
Print Assumptions C49_sort_after_pop_refuted.
Print Assumptions C49_pushf_without_room_refuted.
Print Assumptions C49_suffix_holes_refuted.
Print Assumptions C49_pop_empty_refuted.
