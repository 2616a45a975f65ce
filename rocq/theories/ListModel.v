(** Model of [ANList] (src/node.hpp), the doubly linked list threaded through the nodes.  Executable definitions only.
    Nodes and lists are numbers.  Only the fields _next and _prev of the nodes are kept.  The copy constructor (which shares the nodes), the
    destructor and printing are left out. *)
From Verif Require Import Base.

(** src/node.hpp:52 (_next, _prev of the nodes), 102 (_head, _tail of the lists) *)
Record lst := mkLst { l_next : nat -> option nat; l_prev : nat -> option nat; l_head : nat -> option nat; l_tail : nat -> option nat }.
Definition lst0 : lst := mkLst (fun _ => None) (fun _ => None) (fun _ => None) (fun _ => None).
Definition set_next (s : lst) (n : nat) (v : option nat) : lst := mkLst (fupd (l_next s) n v) (l_prev s) (l_head s) (l_tail s).
Definition set_prev (s : lst) (n : nat) (v : option nat) : lst := mkLst (l_next s) (fupd (l_prev s) n v) (l_head s) (l_tail s).
Definition set_head (s : lst) (a : nat) (v : option nat) : lst := mkLst (l_next s) (l_prev s) (fupd (l_head s) a v) (l_tail s).
Definition set_tail (s : lst) (a : nat) (v : option nat) : lst := mkLst (l_next s) (l_prev s) (l_head s) (fupd (l_tail s) a v).

(** the nodes met from [cur] on; the loops of size(), iteration and confirmMembership *)
Fixpoint l_from (fuel : nat) (s : lst) (cur : option nat) : res (list nat) :=
  match cur with
  | None => Ok []
  | Some n => match fuel with O => Err OutOfFuel | S f => do r <- l_from f s (l_next s n) ; Ok (n :: r) end
  end.
(** the same backwards: the iterator's operator-- *)
Fixpoint l_back (fuel : nat) (s : lst) (cur : option nat) : res (list nat) :=
  match cur with
  | None => Ok []
  | Some n => match fuel with O => Err OutOfFuel | S f => do r <- l_back f s (l_prev s n) ; Ok (n :: r) end
  end.
(** src/node.hpp:107-115 *)
Definition l_size (fuel : nat) (s : lst) (a : nat) : res nat := do r <- l_from fuel s (l_head s a) ; Ok (length r).
(** src/node.hpp:116-127.  [dbg]: the assertion is checked, its failure is [Err UB] *)
Definition l_push (dbg : bool) (s : lst) (a n : nat) : res lst :=
  if dbg && negb (match l_next s n, l_prev s n with None, None => true | _, _ => false end) then Err UB else
  Ok (match l_head s a with
      | None => set_prev (set_next (set_tail (set_head s a (Some n)) a (Some n)) n None) n None
      | Some _ =>
        let s1 := set_next (set_prev s n (l_tail s a)) n None in
        let s2 := match l_tail s1 a with Some t => set_next s1 t (Some n) | None => s1 end in
        set_tail s2 a (Some n)
      end).
(** src/node.hpp:130-138 *)
Definition l_pop (s : lst) (a : nat) : res lst :=
  match l_tail s a with
  | None => Err UB
  | Some d =>
    let s1 := set_tail s a (l_prev s d) in
    let s2 := match l_tail s1 a with Some t => set_next s1 t None | None => set_head s1 a None end in
    Ok (set_prev (set_next s2 d None) d None)
  end.
(** src/node.hpp:139-145 *)
Definition l_remove (s : lst) (a n : nat) : lst :=
  let pv := l_prev s n in let nx := l_next s n in
  let s1 := match pv with Some p => set_next s p nx | None => set_head s a nx end in
  let s2 := match nx with Some x => set_prev s1 x pv | None => set_tail s1 a pv end in
  set_next (set_prev s2 n None) n None.
(** src/node.hpp:146-151 *)
Fixpoint l_member (fuel : nat) (s : lst) (cur : option nat) (n : nat) : res bool :=
  match cur with
  | None => Ok false
  | Some m => if m =? n then Ok true else match fuel with O => Err OutOfFuel | S f => l_member f s (l_next s m) n end
  end.
(** src/node.hpp:152-154 *)
Definition l_clear (s : lst) (a : nat) : lst := set_tail (set_head s a None) a None.

Inductive lop := LPush (a n : nat) | LPop (a : nat) | LRemove (a n : nat) | LClear (a : nat) | LSize (a : nat) | LAll (a : nat) | LRev (a : nat)
  | LFront (a : nat) | LBack (a : nat) | LMember (a n : nat).
Inductive lout := OUnit | ON (n : nat) | OL (l : list nat) | OP (p : option nat) | OB (b : bool).
Definition l_do (dbg : bool) (fuel : nat) (s : lst) (o : lop) : res (lout * lst) :=
  match o with
  | LPush a n => do s1 <- l_push dbg s a n ; Ok (OUnit, s1)
  | LPop a => do s1 <- l_pop s a ; Ok (OUnit, s1)
  | LRemove a n => Ok (OUnit, l_remove s a n)
  | LClear a => Ok (OUnit, l_clear s a)
  | LSize a => do n <- l_size fuel s a ; Ok (ON n, s)
  | LAll a => do r <- l_from fuel s (l_head s a) ; Ok (OL r, s)
  | LRev a => do r <- l_back fuel s (l_tail s a) ; Ok (OL r, s)
  | LFront a => Ok (OP (l_head s a), s)
  | LBack a => Ok (OP (l_tail s a), s)
  | LMember a n => do b <- l_member fuel s (l_head s a) n ; Ok (OB b, s)
  end.
Fixpoint l_run (dbg : bool) (fuel : nat) (s : lst) (os : list lop) : res (list lout * lst) :=
  match os with
  | [] => Ok ([], s)
  | o :: os' => do (r, s1) <- l_do dbg fuel s o ; do (rs, s2) <- l_run dbg fuel s1 os' ; Ok (r :: rs, s2)
  end.
