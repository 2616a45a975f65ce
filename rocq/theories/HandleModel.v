(** src/handle.hpp: handle_ptr and strict_ptr, over a heap of objects that hold one number each.
    An address is a number, 0 is nullptr.  The address of a new object is the choice of the allocator.
    Simplified: one type of objects (the conversions between types of pointers, handle.hpp:56-58, keep the address). *)
From Verif Require Import Base.

(** the heap: live addresses with their contents *)
Definition heapm := list (nat * Z).
(** contents at an address, if an object lives there *)
Fixpoint mget (m : heapm) (a : nat) : option Z := match m with [] => None | (b, v) :: r => if Nat.eqb b a then Some v else mget r a end.
(** assignment to the object at an address *)
Definition mset (m : heapm) (a : nat) (v : Z) : heapm := map (fun p => if Nat.eqb (fst p) a then (fst p, v) else p) m.
(** end of the object at an address *)
Definition mdel (m : heapm) (a : nat) : heapm := filter (fun p => negb (Nat.eqb (fst p) a)) m.

(** what a program does with its handles, named by numbers *)
Inductive hop :=
| HMake (h : nat) (v : Z)   (* h = make_handle<T>(v), handle.hpp:87-91 *)
| HNull (h : nat)           (* h = nullptr, handle.hpp:51,54 *)
| HCopy (h g : nat)         (* h = g, handle.hpp:53,59 *)
| HMove (h g : nat)         (* h = std::move(g), handle.hpp:55,60 *)
| HRead (h : nat)           (* use of *h or h->, handle.hpp:64-65 *)
| HWrite (h : nat) (v : Z)  (* *h = v, handle.hpp:64-65 *)
| HBool (h : nat)           (* if (h), handle.hpp:67 *)
| HEq (h g : nat)           (* h == g, handle.hpp:77-80 *)
| HLess (h g : nat)         (* h < g: no such operator, so both are converted with handle.hpp:67 *)
| HFree (h : nat).          (* h.dealloc() or h.free(), handle.hpp:69-70 *)
(** what the program sees *)
Inductive hobs := OVal (v : Z) | OBool (b : bool).

(** the heap and the pointers _ptr of the handles (handle.hpp:46) *)
Record hst := mkH { h_mem : heapm; h_ptr : nat -> nat }.
Definition h_empty : hst := mkH [] (fun _ => 0).
(** the conversion to bool, handle.hpp:67 *)
Definition hbool (a : nat) : bool := negb (Nat.eqb a 0).

Section Handle.
(** the address of the next object *)
Variable alloc : heapm -> nat.
(** one operation.  Use of a null pointer or of a dead object is undefined, and so is deleting a dead object; deleting nullptr does nothing.  Moving a pointer copies it:
    the source keeps its value (handle.hpp:55, 60). *)
Definition h_step (s : hst) (o : hop) : res (hst * list hobs) :=
  let p := h_ptr s in
  match o with
  | HMake h v => let a := alloc (h_mem s) in Ok (mkH ((a, v) :: h_mem s) (fupd p h a), [])
  | HNull h => Ok (mkH (h_mem s) (fupd p h 0), [])
  | HCopy h g | HMove h g => Ok (mkH (h_mem s) (fupd p h (p g)), [])
  | HRead h => match mget (h_mem s) (p h) with Some v => Ok (s, [OVal v]) | None => Err UB end
  | HWrite h v => match mget (h_mem s) (p h) with Some _ => Ok (mkH (mset (h_mem s) (p h) v) p, []) | None => Err UB end
  | HBool h => Ok (s, [OBool (hbool (p h))])
  | HEq h g => Ok (s, [OBool (Nat.eqb (p h) (p g))])
  | HLess h g => Ok (s, [OBool (Nat.ltb (Nat.b2n (hbool (p h))) (Nat.b2n (hbool (p g))))])
  | HFree h => if Nat.eqb (p h) 0 then Ok (s, [])
               else match mget (h_mem s) (p h) with Some _ => Ok (mkH (mdel (h_mem s) (p h)) (fupd p h 0), []) | None => Err UB end
  end.
(** a program: what it sees, in order *)
Fixpoint h_run (s : hst) (os : list hop) : res (hst * list hobs) :=
  match os with [] => Ok (s, []) | o :: r => do (s1, a) <- h_step s o ; do (s2, b) <- h_run s1 r ; Ok (s2, a ++ b) end.
End Handle.
