(** Model of [Vec<T,SZT>] (src/vec.hpp).  Executable definitions only.
    Arrays allocated on the pool are blocks with an identity; nothing is ever freed, and an allocation never fails.  [junk] is the content of an
    array element that has not been written.  [W] = 2^b is the modulus of the index type SZT ([unsigned] or [std::size_t]).
    The pool a vector allocates from, printing and the iterator arithmetic beyond begin()..end() are left out. *)
From Verif Require Import Base.

Section Vec.
Context {T : Type} (junk : T) (W : N).

(** src/vec.hpp:26-29 *)
Record vec := mkV { v_sz : N; v_msz : N; v_data : option nat }.
(** all vectors of the program, and the blocks *)
Record vst := mkVS { s_vec : nat -> vec; s_blk : nat -> list T; s_nblk : nat }.
Definition vec0 : vec := mkV 0 0 None.
Definition vst0 : vst := mkVS (fun _ => vec0) (fun _ => []) 0.

Definition set_vec (s : vst) (i : nat) (v : vec) : vst := mkVS (fupd (s_vec s) i v) (s_blk s) (s_nblk s).
(** new (_mem) T[n], with given initial part *)
Definition alloc (s : vst) (l : list T) : nat * vst := (s_nblk s, mkVS (s_vec s) (fupd (s_blk s) (s_nblk s) l) (S (s_nblk s))).
Fixpoint upd (l : list T) (k : nat) (x : T) : list T :=
  match l, k with [], _ => [] | _ :: r, O => x :: r | a :: r, S k' => a :: upd r k' x end.
(** _data[k] *)
Definition rd (s : vst) (d : option nat) (k : N) : res T :=
  match d with
  | None => Err UB
  | Some b => match nth_error (s_blk s b) (N.to_nat k) with Some x => Ok x | None => Err UB end
  end.
(** _data[k] = x *)
Definition wr (s : vst) (d : option nat) (k : N) (x : T) : res vst :=
  match d with
  | None => Err UB
  | Some b => if (k <? N.of_nat (length (s_blk s b)))%N then Ok (mkVS (s_vec s) (fupd (s_blk s) b (upd (s_blk s b) (N.to_nat k) x)) (s_nblk s)) else Err UB
  end.
(** for(i = 0; i < n; i++) dst[i] = src[i] *)
Fixpoint cpy (s : vst) (dst src : option nat) (n : nat) (i : N) : res vst :=
  match n with O => Ok s | S k => do x <- rd s src i ; do s1 <- wr s dst i x ; cpy s1 dst src k (i + 1) end.

(** src/vec.hpp:31-33: the doubling; once it has wrapped to 0 it never ends *)
Fixpoint grow (fuel : nat) (p n : N) : res N :=
  if (n <=? p)%N then match fuel with O => Err OutOfFuel | S f => grow f p ((2 * n) mod W)%N end else Ok n.
(** src/vec.hpp:30-41 *)
Definition makeValid (s : vst) (i : nat) (p : N) : res vst :=
  let v := s_vec s i in
  do n <- grow 65 p (if (v_msz v =? 0)%N then 1 else v_msz v)%N ;
  if (n =? v_msz v)%N then Ok s
  else let '(b, s1) := alloc s (repeat junk (N.to_nat n)) in
       do s2 <- cpy s1 (Some b) (v_data v) (N.to_nat (v_msz v)) 0 ;
       Ok (set_vec s2 i (mkV (v_sz v) n (Some b))).
(** src/vec.hpp:141 (release mode) *)
Definition at_ (s : vst) (i : nat) (k : N) (x : T) : res vst := wr s (v_data (s_vec s i)) k x.
Definition set_sz (s : vst) (i : nat) (n : N) : vst := set_vec s i (mkV n (v_msz (s_vec s i)) (v_data (s_vec s i))).

(** "for(auto i=0u; i < n; i++)" ends only if n <= 2^32 *)
Definition loop32 (n : N) : res unit := if (n <=? 4294967296)%N then Ok tt else Err OutOfFuel.
(** _msz > 0 ? new T[_msz] : nullptr *)
Definition new_arr (s : vst) (n : N) : option nat * vst :=
  if (0 <? n)%N then let '(b, s1) := alloc s (repeat junk (N.to_nat n)) in (Some b, s1) else (None, s).
(** src/vec.hpp:79-82 *)
Definition v_new (s : vst) (i : nat) (n : N) : vst := let '(d, s1) := new_arr s n in set_vec s1 i (mkV 0 n d).
(** src/vec.hpp:74-78, 83-87 *)
Definition v_copy (s : vst) (i j : nat) : res vst :=
  let v2 := s_vec s j in
  let '(d, s1) := new_arr s (v_msz v2) in
  do _ <- loop32 (v_sz v2) ;
  do s2 <- cpy s1 d (v_data v2) (N.to_nat (v_sz v2)) 0 ;
  Ok (set_vec s2 i (mkV (v_sz v2) (v_msz v2) d)).
(** src/vec.hpp:88-91: the source keeps its fields *)
Definition v_move (s : vst) (i j : nat) : vst := set_vec s i (s_vec s j).
(** src/vec.hpp:93-102 *)
Definition v_assign (s : vst) (i j : nat) : res vst :=
  let v := s_vec s j in
  let s1 := if (v_msz (s_vec s i) <? v_msz v)%N
            then let '(d, s1) := new_arr s (v_msz v) in set_vec s1 i (mkV (v_sz (s_vec s i)) (v_msz v) d)
            else s in
  do _ <- loop32 (v_sz v) ;
  do s2 <- cpy s1 (v_data (s_vec s1 i)) (v_data (s_vec s1 j)) (N.to_nat (v_sz v)) 0 ;
  Ok (set_sz s2 i (v_sz v)).
(** src/vec.hpp:103-112 *)
Definition v_moveAssign (s : vst) (i j : nat) : vst := set_vec (set_vec s i (s_vec s j)) j vec0.
(** src/vec.hpp:114-117 *)
Definition v_clear (s : vst) (i : nat) : vst := set_sz s i 0.
(** src/vec.hpp:118-122 *)
Definition v_push (s : vst) (i : nat) (x : T) : res (N * vst) :=
  do s1 <- makeValid s i (v_sz (s_vec s i)) ;
  do s2 <- at_ s1 i (v_sz (s_vec s1 i)) x ;
  Ok (v_sz (s_vec s2 i), set_sz s2 i ((v_sz (s_vec s2 i) + 1) mod W)%N).
Definition dec (n : N) : N := if (n =? 0)%N then (W - 1)%N else (n - 1)%N.
(** src/vec.hpp:123-127 *)
Definition v_pop (s : vst) (i : nat) : res (T * vst) :=
  let v := s_vec s i in do x <- rd s (v_data v) (dec (v_sz v)) ; Ok (x, set_sz s i (dec (v_sz v))).
(** src/vec.hpp:128-137: the element handed to the function, and the new size *)
Definition v_remove (s : vst) (i : nat) (k : N) : res (T * N * vst) :=
  let v := s_vec s i in
  do s1 <- (if (k <? dec (v_sz v))%N then do x <- rd s (v_data v) (dec (v_sz v)) ; at_ s i k x else Ok s) ;
  do x <- rd s1 (v_data v) k ;
  Ok (x, dec (v_sz v), set_sz s1 i (dec (v_sz v))).
(** src/vec.hpp:138-139 *)
Definition v_get (s : vst) (i : nat) (k : N) : res T := rd s (v_data (s_vec s i)) k.
(** src/vec.hpp:49-68, 140: v[k] = x *)
Definition v_set (s : vst) (i : nat) (k : N) (x : T) : res vst :=
  do s1 <- makeValid s i k ; do s2 <- at_ s1 i k x ; Ok (set_sz s2 i ((k + 1) mod W)%N).
(** src/vec.hpp:142-186: the elements from begin() to end() *)
Fixpoint v_walk (s : vst) (d : option nat) (n : nat) (k : N) : res (list T) :=
  match n with O => Ok [] | S m => do x <- rd s d k ; do l <- v_walk s d m (k + 1) ; Ok (x :: l) end.
Definition v_all (s : vst) (i : nat) : res (list T) := v_walk s (v_data (s_vec s i)) (N.to_nat (v_sz (s_vec s i))) 0.

Inductive vop :=
| VNew (i : nat) (n : N) | VCopy (i j : nat) | VMove (i j : nat) | VAssign (i j : nat) | VMoveAssign (i j : nat) | VClear (i : nat) | VSize (i : nat)
| VPush (i : nat) (x : T) | VPop (i : nat) | VRemove (i : nat) (k : N) | VGet (i : nat) (k : N) | VSet (i : nat) (k : N) (x : T) | VAt (i : nat) (k : N) (x : T) | VAll (i : nat).
Inductive vout := RUnit | RN (n : N) | RT (x : T) | RTN (x : T) (n : N) | RL (l : list T).
Definition v_do (s : vst) (o : vop) : res (vout * vst) :=
  match o with
  | VNew i n => Ok (RUnit, v_new s i n)
  | VCopy i j => do s1 <- v_copy s i j ; Ok (RUnit, s1)
  | VMove i j => Ok (RUnit, v_move s i j)
  | VAssign i j => do s1 <- v_assign s i j ; Ok (RUnit, s1)
  | VMoveAssign i j => Ok (RUnit, v_moveAssign s i j)
  | VClear i => Ok (RUnit, v_clear s i)
  | VSize i => Ok (RN (v_sz (s_vec s i)), s)
  | VPush i x => do (n, s1) <- v_push s i x ; Ok (RN n, s1)
  | VPop i => do (x, s1) <- v_pop s i ; Ok (RT x, s1)
  | VRemove i k => do (x, n, s1) <- v_remove s i k ; Ok (RTN x n, s1)
  | VGet i k => do x <- v_get s i k ; Ok (RT x, s)
  | VSet i k x => do s1 <- v_set s i k x ; Ok (RUnit, s1)
  | VAt i k x => do s1 <- at_ s i k x ; Ok (RUnit, s1)
  | VAll i => do l <- v_all s i ; Ok (RL l, s)
  end.
Fixpoint v_run (s : vst) (os : list vop) : res (list vout * vst) :=
  match os with
  | [] => Ok ([], s)
  | o :: os' => do (r, s1) <- v_do s o ; do (rs, s2) <- v_run s1 os' ; Ok (r :: rs, s2)
  end.
End Vec.
Arguments vst : clear implicits.
Arguments vop : clear implicits.
Arguments vout : clear implicits.
