(** A layer as a sequence of nodes, with the two things a caller has to know: how much room there is at the front at least, and whether the array is still as filled
    (nothing popped or erased since the last clear). *)
From Verif Require Import Base NdaModel.
From Coq Require Import Sorting.Sorted.

Record lseq := mkL { l_q : list nat; l_room : nat; l_dense : bool }.
Inductive l_step (cmp : nat -> nat -> bool) (L : lseq) : nop -> nout -> lseq -> Prop :=
| ls_push n : l_step cmp L (NPush n) NoOut (mkL (l_q L ++ [n]) (l_room L) (l_dense L))
| ls_pushf n r : l_room L = S r -> l_step cmp L (NPushF n) NoOut (mkL (n :: l_q L) r false)
| ls_popf x q : l_q L = x :: q -> l_step cmp L NPopF NoOut (mkL q (S (l_room L)) false)
| ls_front x q : l_q L = x :: q -> l_step cmp L NFront (NVal (Some x)) L
| ls_erase k A x B : l_q L = A ++ x :: B -> length A = k -> l_step cmp L (NErase k) (NVal (hd_error B)) (mkL (A ++ B) (l_room L) false)
| ls_iter : l_step cmp L NIter (NList (map Some (l_q L))) L
| ls_sort q : l_dense L = true -> Permutation q (l_q L) -> StronglySorted (fun x y => cmp y x = false) q -> l_step cmp L NSort NoOut (mkL q (l_room L) true)
| ls_suffix k : l_dense L = true -> k <= length (l_q L) -> l_step cmp L (NSuffix k) NoOut (mkL (firstn k (l_q L)) (l_room L) true)
| ls_size : l_step cmp L NSize (NNum (Z.of_nat (length (l_q L)))) L
| ls_clear : l_step cmp L NClear NoOut (mkL [] 0 true).
Inductive l_run (cmp : nat -> nat -> bool) (L : lseq) : list nop -> list nout -> lseq -> Prop :=
| lr_nil : l_run cmp L [] [] L
| lr_cons o a L1 os l L2 : l_step cmp L o a L1 -> l_run cmp L1 os l L2 -> l_run cmp L (o :: os) (a :: l) L2.
(** what a caller may do: it depends on the length of the sequence, the room and the density only *)
Fixpoint allowed (len room : nat) (dense : bool) (os : list nop) : Prop :=
  match os with
  | [] => True
  | NPush _ :: r => allowed (S len) room dense r
  | NPushF _ :: r => 0 < room /\ allowed (S len) (room - 1) false r
  | NPopF :: r => 0 < len /\ allowed (len - 1) (S room) false r
  | NFront :: r => 0 < len /\ allowed len room dense r
  | NErase k :: r => k < len /\ allowed (len - 1) room false r
  | NIter :: r => allowed len room dense r
  | NSort :: r => dense = true /\ allowed len room dense r
  | NSuffix k :: r => dense = true /\ k <= len /\ allowed k room dense r
  | NSize :: r => allowed len room dense r
  | NClear :: r => allowed 0 0 true r
  end.
