(** The bump allocator and its adapter for containers (src/stlAllocAdapter.hpp).  Nothing in the repository uses them. *)
From Coq Require Import NArith List Bool.
From Verif Require Import Base.
Import ListNotations.
Open Scope N_scope.

Section Stack.
(** src/stlAllocAdapter.hpp:25-26: the number of bytes of each buffer, a template argument (size_t) *)
Variable cap : N.
(** a place in the buffer of some allocator: the number of the allocator and an offset *)
Definition place : Type := nat * N.
(** src/stlAllocAdapter.hpp:26-28: the buffer is the object itself; _end and _sp are pointers *)
Record core := mkCore { c_end : place; c_sp : place }.
(** the allocators in existence; allocator i has buffer i *)
Definition cores := list core.

(** src/stlAllocAdapter.hpp:30 *)
Definition core_new (cs : cores) : cores * nat := (cs ++ [mkCore (length cs, cap) (length cs, 0)], length cs).
(** the copy constructor, which the compiler writes: a new buffer, the pointers of the old object *)
Definition core_copy (cs : cores) (i : nat) : res (cores * nat) :=
  match nth_error cs i with None => Err UB | Some c => Ok (cs ++ [mkCore (c_end c) (c_sp c)], length cs) end.
Fixpoint upd (cs : cores) (i : nat) (c : core) : cores :=
  match cs, i with [], _ => [] | _ :: r, O => c :: r | x :: r, S j => x :: upd r j c end.
(** src/stlAllocAdapter.hpp:31-40; None: bad_alloc is thrown.  std::distance within one buffer; it is not negative and at most the capacity, so the
    conversion to size_t in the comparison does not change it *)
Definition core_alloc (cs : cores) (i : nat) (n : N) : res (cores * option place) :=
  match nth_error cs i with
  | None => Err UB
  | Some c =>
    if negb (Nat.eqb (fst (c_sp c)) (fst (c_end c))) then Err UB
    else if n <=? snd (c_end c) - snd (c_sp c)
    then Ok (upd cs i (mkCore (c_end c) (fst (c_sp c), snd (c_sp c) + n)), Some (c_sp c))
    else Ok (cs, None)
  end.
(** src/stlAllocAdapter.hpp:41, 67-70 *)
Definition core_free (cs : cores) (i : nat) : cores := cs.

(** src/stlAllocAdapter.hpp:46-47, 61: an adapter is a pointer to an allocator, None for a null pointer; [sz] is sizeof(T) *)
Definition adapter := option nat.
(** src/stlAllocAdapter.hpp:65; the product is a size_t *)
Definition bytes (n sz : N) : N := (n * sz) mod 2 ^ 64.
(** src/stlAllocAdapter.hpp:62-66 *)
Definition ad_alloc (cs : cores) (a : adapter) (sz n : N) : res (cores * option place) :=
  match a with None => Err UB | Some i => core_alloc cs i (bytes n sz) end.
(** src/stlAllocAdapter.hpp:71-74, 43 *)
Definition ad_max_size (a : adapter) (sz : N) : res N := match a with None => Err UB | Some _ => Ok (cap / sz) end.
(** src/stlAllocAdapter.hpp:87-94 *)
Definition ad_eqb (a b : adapter) : bool :=
  match a, b with None, None => true | Some i, Some j => Nat.eqb i j | _, _ => false end.

(** what a program can do with allocators; each line returns what it prints *)
Inductive op := New | Copy (i : nat) | Alloc (i : nat) (n : N) | AdAlloc (a : adapter) (sz n : N) | Free (i : nat).
(** the answer: the number of a new allocator, a block (start and size), bad_alloc, nothing *)
Inductive ans := Made (i : nat) | Block (p : place) (n : N) | Bad | Nothing.
(** src/stlAllocAdapter.hpp:30-41, 62-70 *)
Definition step (cs : cores) (o : op) : res (cores * ans) :=
  match o with
  | New => let (cs1, i) := core_new cs in Ok (cs1, Made i)
  | Copy i => do (cs1, j) <- core_copy cs i ; Ok (cs1, Made j)
  | Alloc i n => do (cs1, p) <- core_alloc cs i n ; Ok (cs1, match p with Some p => Block p n | None => Bad end)
  | AdAlloc a sz n => do (cs1, p) <- ad_alloc cs a sz n ; Ok (cs1, match p with Some p => Block p (bytes n sz) | None => Bad end)
  | Free i => Ok (core_free cs i, Nothing)
  end.
(** the lines of a program one after the other *)
Fixpoint steps (cs : cores) (os : list op) : res (cores * list ans) :=
  match os with
  | [] => Ok (cs, [])
  | o :: r => do (cs1, x) <- step cs o ; do (cs2, xs) <- steps cs1 r ; Ok (cs2, x :: xs)
  end.
End Stack.
