(** What handles mean, without addresses: a handle refers to nothing or to an object; objects are numbered by creation and their numbers are never used again. *)
From Verif Require Import Base HandleModel.

(** the objects in order of creation ([None]: ended) and what each handle refers to *)
Record ost := mkO { o_obj : list (option Z); o_ref : nat -> option nat }.
Definition o_empty : ost := mkO [] (fun _ => None).
(** the contents of the object a handle refers to, if it refers to one that lives *)
Definition o_val (s : ost) (h : nat) : option Z := match o_ref s h with Some i => nth i (o_obj s) None | None => None end.
Definition o_null (s : ost) (h : nat) : bool := match o_ref s h with None => true | Some _ => false end.
(** an object gets contents, or ends *)
Fixpoint oset (l : list (option Z)) (i : nat) (x : option Z) : list (option Z) :=
  match l, i with [], _ => [] | _ :: r, O => x :: r | y :: r, S j => y :: oset r j x end.
(** refers to an object that ended *)
Definition dangling (s : ost) (h : nat) : bool := negb (o_null s h) && match o_val s h with None => true | Some _ => false end.
Definition same_ref (a b : option nat) : bool := match a, b with None, None => true | Some i, Some j => Nat.eqb i j | _, _ => false end.
(** one operation; the program is at fault ([None]) if it reads, writes, ends or compares an object that ended, or reads or writes through a null handle *)
Definition o_step (s : ost) (o : hop) : option (ost * list hobs) :=
  match o with
  | HMake h v => Some (mkO (o_obj s ++ [Some v]) (fupd (o_ref s) h (Some (length (o_obj s)))), [])
  | HNull h => Some (mkO (o_obj s) (fupd (o_ref s) h None), [])
  | HCopy h g | HMove h g => Some (mkO (o_obj s) (fupd (o_ref s) h (o_ref s g)), [])
  | HRead h => match o_val s h with Some v => Some (s, [OVal v]) | None => None end
  | HWrite h v => match o_ref s h, o_val s h with Some i, Some _ => Some (mkO (oset (o_obj s) i (Some v)) (o_ref s), []) | _, _ => None end
  | HBool h => Some (s, [OBool (negb (o_null s h))])
  | HEq h g => if dangling s h || dangling s g then None else Some (s, [OBool (same_ref (o_ref s h) (o_ref s g))])
  | HLess h g => Some (s, [OBool (o_null s h && negb (o_null s g))])
  | HFree h => match o_ref s h with
               | None => Some (s, [])
               | Some i => match o_val s h with Some _ => Some (mkO (oset (o_obj s) i None) (fupd (o_ref s) h None), []) | None => None end
               end
  end.
Fixpoint o_run (s : ost) (os : list hop) : option (ost * list hobs) :=
  match os with [] => Some (s, [])
  | o :: r => match o_step s o with Some (s1, a) => match o_run s1 r with Some (s2, b) => Some (s2, a ++ b) | None => None end | None => None end end.

(** an allocator: never null, never the address of a live object *)
Definition allocator (alloc : heapm -> nat) : Prop := forall m, alloc m <> 0 /\ ~ In (alloc m) (map fst m).
(** a program that ends no object *)
Definition no_free (os : list hop) : Prop := forall h, ~ In (HFree h) os.
(** an allocator: one more than the largest live address *)
Definition bump (m : heapm) : nat := S (list_max (map fst m)).
