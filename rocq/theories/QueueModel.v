(** Model of [CQueue<T>] (src/queue.hpp).  Executable definitions only. *)
From Verif Require Import Base.

Section QueueModel.
Context {T : Type}.
Variable dflt : T.                 (* T(): queue.hpp:119,152 *)
Variable teq : T -> T -> bool.     (* operator== of T, queue.hpp:131 *)

(** src/queue.hpp:24-45.  A [Location] is an object with an identity (a number), a value and a position; [qdata i] is the identity of the
    location that [_data[i]] points to.  Integers are unbounded.  The segment list [_vlocs]/[_mxSeg]/[_nbs] only keeps memory reachable and is
    left out; [qnloc] counts the locations created so far. *)
Record cq := mkQ {
  qdata : nat -> nat;     (* _data *)
  qval : nat -> T;        (* Location::_val *)
  qpos : nat -> nat;      (* Location::_pos *)
  qmxs : nat;             (* _mxs; _mask is always _mxs - 1 *)
  qenter : nat;           (* _enter *)
  qexit : nat;            (* _exit *)
  qcnt : nat;             (* _cnt *)
  qnloc : nat }.

(** (x + 1) & _mask *)
Definition q_next (q : cq) (x : nat) : nat := Nat.land (x + 1) (qmxs q - 1).

(** src/queue.hpp:77-78: smallest power of two above sz.  Fuel: sz + 1. *)
Fixpoint q_pow (fuel m sz : nat) : nat :=
  match fuel with O => m | S f => if m <=? sz then q_pow f (2 * m) sz else m end.
(** src/queue.hpp:76-88 *)
Definition q_new (sz : nat) : cq :=
  let m := q_pow (S sz) 1 sz in
  mkQ (fun i => i) (fun _ => dflt) (fun _ => 0) m 0 0 0 m.

(** src/queue.hpp:49-54: the do-while loop of resize; [nd], [np] are the new array and the positions, returns also at and cur *)
Fixpoint q_rescan (fuel : nat) (q : cq) (nd : nat -> nat) (np : nat -> nat) (at_ cur : nat) : res ((nat -> nat) * (nat -> nat) * nat * nat) :=
  match fuel with
  | O => Err OutOfFuel
  | S f =>
    let nd := fupd nd at_ (qdata q cur) in
    let np := fupd np (nd at_) at_ in
    let at_ := S at_ in
    let cur := q_next q cur in
    if cur =? qenter q then Ok (nd, np, at_, cur) else q_rescan f q nd np at_ cur
  end.
(** src/queue.hpp:44-74 resize.  Slots that are not written keep the meaningless value 0. *)
Definition q_resize (q : cq) : res cq :=
  let newSize := 2 * qmxs q in
  do (nd, np, at_, cur) <- q_rescan (S (qmxs q)) q (fun _ => 0) (qpos q) 0 (qexit q) ;
  let nd := fupd nd at_ (qdata q cur) in
  let at_ := S at_ in
  let nd := fun i => if (at_ <=? i) && (i <? newSize) then qnloc q + (i - qmxs q) else nd i in
  let nv := fun l => if (qnloc q <=? l) && (l <? qnloc q + qmxs q) then dflt else qval q l in
  Ok (mkQ nd nv np newSize (qmxs q - 1) 0 (qcnt q) (qnloc q + qmxs q)).

(** src/queue.hpp:95-98 *)
Definition q_clear (q : cq) : cq := mkQ (qdata q) (qval q) (qpos q) (qmxs q) 0 0 0 (qnloc q).
(** src/queue.hpp:99-100 *)
Definition q_size (q : cq) : nat := qcnt q.
Definition q_empty (q : cq) : bool := qenter q =? qexit q.
(** src/queue.hpp:101-109; returns the location *)
Definition q_enQueue (q : cq) (v : T) : res (cq * nat) :=
  do q <- (if qcnt q =? qmxs q - 1 then q_resize q else Ok q) ;
  let l := qdata q (qenter q) in
  Ok (mkQ (qdata q) (fupd (qval q) l v) (fupd (qpos q) l (qenter q)) (qmxs q) (q_next q (qenter q)) (qexit q) (S (qcnt q)) (qnloc q), l).
(** src/queue.hpp:110-121 *)
Definition q_deQueue (q : cq) : cq * T :=
  if negb (qenter q =? qexit q) then
    (mkQ (qdata q) (qval q) (qpos q) (qmxs q) (qenter q) (q_next q (qexit q)) (qcnt q - 1) (qnloc q), qval q (qdata q (qexit q)))
  else (q, dflt).
(** src/queue.hpp:122-126 *)
Definition q_peek (q : cq) : T := if negb (qenter q =? qexit q) then qval q (qdata q (qexit q)) else dflt.
(** src/queue.hpp:139-155 retract(loc), loc not null.  With _cnt = 0 (assertion) undefined. *)
Definition q_retract (q : cq) (l : nat) : res cq :=
  if qcnt q =? 0 then Err UB else
  let at_ := qpos q l in
  let '(nd, np, en, ex) :=
    if at_ =? qexit q then (qdata q, qpos q, qenter q, q_next q (qexit q))
    else if at_ =? qenter q then (qdata q, qpos q, (if 0 <? qenter q then qenter q - 1 else qmxs q - 1), qexit q)
    else let nd := fswap (qdata q) at_ (qexit q) in (nd, fupd (qpos q) (nd at_) at_, qenter q, q_next q (qexit q)) in
  Ok (mkQ nd (fupd (qval q) l dflt) np (qmxs q) en ex (qcnt q - 1) (qnloc q)).
(** src/queue.hpp:127-138 retract(val) *)
Fixpoint q_find (fuel : nat) (q : cq) (v : T) (cur : nat) : res (option nat) :=
  match fuel with
  | O => Err OutOfFuel
  | S f => if teq (qval q (qdata q cur)) v then Ok (Some (qdata q cur))
           else let cur := q_next q cur in if cur =? qenter q then Ok None else q_find f q v cur
  end.
Definition q_retractVal (q : cq) (v : T) : res (cq * bool) :=
  if qcnt q =? 0 then Err UB else
  do o <- q_find (S (qmxs q)) q v (qexit q) ;
  match o with Some l => do q1 <- q_retract q l ; Ok (q1, true) | None => Ok (q, false) end.
(** src/queue.hpp:156-165 doOnAll: the locations f is called on, in order *)
Fixpoint q_all_from (q : cq) (n k : nat) : list nat :=
  match n with O => [] | S m => qdata q k :: q_all_from q m (q_next q k) end.
Definition q_doOnAll (q : cq) : list nat := q_all_from q (qcnt q) (qexit q).
(** src/queue.hpp:166-176 foldl; [isnull] is the test !acc *)
Fixpoint q_fold_from (isnull : T -> bool) (f : T -> T -> T) (q : cq) (n k : nat) (acc : T) : T :=
  match n with
  | O => acc
  | S m => if isnull acc then q_fold_from isnull f q m (q_next q k) (f acc (qval q (qdata q k))) else acc
  end.
Definition q_foldl (isnull : T -> bool) (f : T -> T -> T) (q : cq) (base : T) : T := q_fold_from isnull f q (qcnt q) (qexit q) base.
End QueueModel.
Arguments cq : clear implicits.
