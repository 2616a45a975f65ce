(** Model of [Heap<T,Ord>] (src/heap.hpp).  Executable definitions only. *)
From Verif Require Import Base.

Section HeapModel.
Context {T : Type}.
Variable ord : T -> T -> bool.   (* src/heap.hpp:51  _ord: "is strictly before" *)
Variable dflt : T.               (* src/heap.hpp:31,129  T(): content of a fresh Location *)

(** src/heap.hpp:27-51.  A [Location] is an object with an identity (a number), a value [_val] and its
    position [_p].  [hdata i] is the identity of the location that [_data[i]] points to.
    Simplification: the segment list [_lseg]/[_ms]/[_nbs] only keeps memory reachable and is left out;
    [hnloc] counts the locations allocated so far, so that a new segment has fresh identities. *)
Record heap := mkHeap {
  hdata : nat -> nat;      (* heap.hpp:43 _data *)
  hval  : nat -> T;        (* heap.hpp:28 Location::_val, by location identity *)
  hpos  : nat -> nat;      (* heap.hpp:29 Location::_p, by location identity *)
  hmxs  : nat;             (* heap.hpp:46 _mxs *)
  hat   : nat;             (* heap.hpp:47 _at: slots 1 .. _at-1 are live *)
  hnloc : nat              (* number of Location objects created so far *)
}.

(** src/heap.hpp:121-131 Heap::Heap(p,sz,ord).  Precondition sz >= 1. *)
Definition heap_new (sz : nat) : heap :=
  mkHeap (fun i => i) (fun _ => dflt) (fun i => i) sz 1 sz.

(** src/heap.hpp:52-73 Heap::resize.  Doubles the capacity; slots _mxs.. get fresh locations. *)
Definition heap_resize (h : heap) : heap :=
  let newSize := 2 * hmxs h in
  let nd := fun i => if i <? hat h then hdata h i
                     else if (hmxs h <=? i) && (i <? newSize) then hnloc h + (i - hmxs h)
                     else hdata h i in
  let np := fun l => if (hnloc h <=? l) && (l <? hnloc h + hmxs h) then hmxs h + (l - hnloc h) else hpos h l in
  let nv := fun l => if (hnloc h <=? l) && (l <? hnloc h + hmxs h) then dflt else hval h l in
  mkHeap nd nv np newSize (hat h) (hnloc h + hmxs h).

(** The three statements at src/heap.hpp:78-80, 96-98, 113-115: exchange two slots and repair _p. *)
Definition heap_swap (h : heap) (p q : nat) : heap :=
  let nd := fswap (hdata h) p q in
  mkHeap nd (hval h) (fupd (fupd (hpos h) (nd p) p) (nd q) q) (hmxs h) (hat h) (hnloc h).

(** value at array slot i: _data[i]->_val *)
Definition hget (h : heap) (i : nat) : T := hval h (hdata h i).

(** src/heap.hpp:74-84 Heap::sendToRoot.  Fuel: p itself (p/2 < p). *)
Fixpoint heap_sendToRoot (fuel : nat) (h : heap) (p : nat) : heap :=
  match fuel with
  | O => h
  | S f => if 0 <? p then
             let gp := (p / 2) in
             let h' := if 0 <? gp then heap_swap h p gp else h in
             heap_sendToRoot f h' gp
           else h
  end.

(** src/heap.hpp:88-94 and 105-111: the best of p and its children inside the heap. *)
Definition heap_best (h : heap) (p : nat) : nat :=
  let l := p * 2 in
  let r := p * 2 + 1 in
  let best := if (l <? hat h) && ord (hget h l) (hget h p) then l else p in
  if (r <? hat h) && ord (hget h r) (hget h best) then r else best.

(** src/heap.hpp:86-102 Heap::refloat *)
Fixpoint heap_refloat (fuel : nat) (h : heap) (p : nat) : heap :=
  match fuel with
  | O => h
  | S f => if 0 <? p then
             let best := heap_best h p in
             let h' := if negb (best =? p) then heap_swap h p best else h in
             heap_refloat f h' (p / 2)
           else h
  end.

(** src/heap.hpp:103-119 Heap::heapify.  Fuel: at most _at rounds (the index at least doubles). *)
Fixpoint heap_heapify (fuel : nat) (h : heap) (p : nat) : heap :=
  match fuel with
  | O => h
  | S f => let best := heap_best h p in
           if negb (best =? p) then heap_heapify f (heap_swap h p best) best else h
  end.

(** src/heap.hpp:132-134 *)
Definition heap_clear (h : heap) : heap := mkHeap (hdata h) (hval h) (hpos h) (hmxs h) 1 (hnloc h).
Definition heap_size (h : heap) : nat := hat h - 1.
Definition heap_empty (h : heap) : bool := hat h =? 1.

(** src/heap.hpp:135-137 operator[](i): the location in slot i+1 *)
Definition heap_nth (h : heap) (i : nat) : nat := hdata h (i + 1).

(** src/heap.hpp:138-144 Heap::insert: append without restoring the order; returns the location *)
Definition heap_insert (h : heap) (v : T) : heap * nat :=
  let h := if hmxs h <=? hat h then heap_resize h else h in
  let l := hdata h (hat h) in
  (mkHeap (hdata h) (fupd (hval h) l v) (fupd (hpos h) l (hat h)) (hmxs h) (S (hat h)) (hnloc h), l).

(** src/heap.hpp:159-163 Heap::insertHeap *)
Definition heap_insertHeap (h : heap) (v : T) : heap * nat :=
  let '(h1, l) := heap_insert h v in
  (heap_refloat (hat h1) h1 (hat h1 - 1), l).

(** src/heap.hpp:151-154 Heap::decrease(at): [dec] is T::operator--(int) *)
Definition heap_decrease (dec : T -> T) (h : heap) (l : nat) : heap :=
  let h1 := mkHeap (hdata h) (fupd (hval h) l (dec (hval h l))) (hpos h) (hmxs h) (hat h) (hnloc h) in
  heap_refloat (S (hpos h1 l)) h1 (hpos h1 l).

(** src/heap.hpp:164-167 Heap::buildHeap: for i = _at/2 downto 1 heapify(i) *)
Fixpoint heap_build_from (i : nat) (h : heap) : heap :=
  match i with
  | O => h
  | S k => heap_build_from k (heap_heapify (hat h) h (S k))
  end.
Definition heap_buildHeap (h : heap) : heap := heap_build_from (hat h / 2) h.

(** src/heap.hpp:168-177 Heap::extractMax.  On an empty heap (_at = 1) the C++ assertion is too weak and
    slot 0 is exchanged with slot 1 and _at becomes 0; modelled as undefined behaviour (None). *)
Definition heap_extractMax (h : heap) : option (T * heap) :=
  if heap_empty h then None
  else
    let rv := hdata h 1 in
    let h1 := let nd := fswap (hdata h) 1 (hat h - 1) in
              mkHeap nd (hval h) (fupd (fupd (hpos h) (nd (hat h - 1)) (hat h - 1)) (nd 1) 1)
                     (hmxs h) (hat h - 1) (hnloc h) in
    Some (hval h1 rv, heap_heapify (hat h1) h1 1).

(** src/heap.hpp:155-158 Heap::remove(at) *)
Definition heap_remove (h : heap) (l : nat) : option (T * heap) :=
  heap_extractMax (heap_sendToRoot (S (hpos h l)) h (hpos h l)).

(** src/heap.hpp:145-150 Heap::find(v): scans all _mxs slots, also dead ones; [teq] is T::operator== *)
Definition heap_find (teq : T -> T -> bool) (h : heap) (v : T) : option nat :=
  option_map (hdata h) (find (fun i => teq (hval h (hdata h i)) v) (seq 1 (hmxs h - 1))).

(** the live locations, in array order: slots 1 .. _at-1 *)
Definition heap_locs (h : heap) : list nat := map (hdata h) (seq 1 (hat h - 1)).
(** the live (location, value) pairs *)
Definition heap_elems (h : heap) : list (nat * T) := map (fun l => (l, hval h l)) (heap_locs h).
End HeapModel.
Arguments heap : clear implicits.
