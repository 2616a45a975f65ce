(** Model of mergeSort (src/msort.hpp).  Arrays are functions from indices to values. *)
From Verif Require Import Base.

Section MSort.
Context {T : Type}.
Variable cmp : T -> T -> bool.

(** src/msort.hpp:20-28: the three copy loops (merge, rest of left, rest of right), one element per step.
    Fuel = number of elements still to copy. *)
Fixpoint ms_merge (fuel : nat) (aux v : nat -> T) (i d j to k : nat) : nat -> T :=
  match fuel with
  | O => v
  | S f =>
    if negb (i =? d) && negb (j =? to) then
      if cmp (aux i) (aux j) then ms_merge f aux (fupd v k (aux i)) (S i) d j to (S k)
      else ms_merge f aux (fupd v k (aux j)) i d (S j) to (S k)
    else if negb (i =? d) then ms_merge f aux (fupd v k (aux i)) (S i) d j to (S k)
    else if negb (j =? to) then ms_merge f aux (fupd v k (aux j)) i d (S j) to (S k)
    else v
  end.

(** src/msort.hpp:8-30 mergeSortAux(v,from,to,cmp,aux); returns the final contents of v and aux.
    The roles of v and aux alternate with the depth.  Fuel: at least to - from. *)
Fixpoint ms_aux (fuel : nat) (v : nat -> T) (from to : nat) (aux : nat -> T) : (nat -> T) * (nat -> T) :=
  match fuel with
  | O => (v, aux)
  | S f =>
    if to <=? from + 1 then (v, aux)
    else
      let d := from + (to - from) / 2 in
      let '(aux1, v1) := ms_aux f aux from d v in
      let '(aux2, v2) := ms_aux f aux1 d to v1 in
      (ms_merge (to - from) aux2 v2 from d d to from, aux2)
  end.

(** src/msort.hpp:32-38 mergeSort(c,sz,cmp): aux is a copy of c on 0..sz-1 and undefined elsewhere ([junk]) *)
Definition mergeSort (junk : nat -> T) (c : nat -> T) (sz : nat) : nat -> T :=
  let aux := fun i => if i <? sz then c i else junk i in
  fst (ms_aux sz c 0 sz aux).
End MSort.

(** contents of cells from .. to-1 *)
Definition cells {T} (v : nat -> T) (from to : nat) : list T := map v (seq from (to - from)).
(** array holding a list (last cell repeated beyond the end, never read); used by clients and examples *)
Definition arr {T} (d : T) (l : list T) : nat -> T := fun i => nth i l d.
Definition msort_list {T} (cmp : T -> T -> bool) (d : T) (l : list T) : list T :=
  cells (mergeSort cmp (fun _ => d) (arr d l) (length l)) 0 (length l).
