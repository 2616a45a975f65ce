(** Model of the arc bookkeeping: Edge (src/node.hpp), ANode::addArc and disconnect (src/node.cpp), AbstractDD::addArc and Relaxed::transferArcs (src/dd.cpp).
    Executable definitions only.  Nodes and edges are numbers.  The vectors _children and _parents are lists with push_back and remove as C37 shows them to
    behave; a remove past the end is [Err UB].  Assertions are off (release).  Labels, costs and bounds are left out. *)
From Verif Require Import Base.

(** one of the two sides: _children with _fix, or _parents with _tix *)
Record side := mkSide { sd_v : nat -> list nat; sd_ix : nat -> nat }.
(** src/vec.hpp:118-122 with the index stored in the edge *)
Definition sd_push (s : side) (n e : nat) : side := mkSide (fupd (sd_v s) n (sd_v s n ++ [e])) (fupd (sd_ix s) e (length (sd_v s n))).
(** src/vec.hpp:128-137: position k is overwritten by the last element and the vector shortened; the element now (or, for the last one, still) in slot k *)
Definition rm_at (l : list nat) (k : nat) : res (list nat * nat) :=
  match nth_error l k, rev l with
  | Some x, o :: r => if k <? length l - 1 then Ok (firstn k (rev r) ++ o :: skipn (S k) (rev r), o) else Ok (rev r, x)
  | _, _ => Err UB
  end.
(** src/node.cpp:69 and 74: remove(e->_fix, [e](o) { o->_fix = e->_fix; }) *)
Definition sd_rem (s : side) (n e : nat) : res side :=
  do (l, o) <- rm_at (sd_v s n) (sd_ix s e) ; Ok (mkSide (fupd (sd_v s) n l) (fupd (sd_ix s) o (sd_ix s e))).
Definition sd_clear (s : side) (n : nat) : side := mkSide (fupd (sd_v s) n []) (sd_ix s).

(** src/node.hpp:28-37 (_from, _to), 44-45 *)
Record arcs := mkArcs { a_from : nat -> nat; a_to : nat -> nat; a_ch : side; a_pa : side }.
Definition arcs0 : arcs := mkArcs (fun _ => 0) (fun _ => 0) (mkSide (fun _ => []) (fun _ => 0)) (mkSide (fun _ => []) (fun _ => 0)).
(** src/node.cpp:57-63 *)
Definition addArc1 (s : arcs) (n e : nat) : arcs :=
  if a_from s e =? n then mkArcs (a_from s) (a_to s) (sd_push (a_ch s) n e) (a_pa s)
  else if a_to s e =? n then mkArcs (a_from s) (a_to s) (a_ch s) (sd_push (a_pa s) n e) else s.
(** src/dd.cpp:41-45 *)
Definition addArc (s : arcs) (e : nat) : arcs := addArc1 (addArc1 s (a_from s e) e) (a_to s e) e.
(** src/node.cpp:65-77 *)
Fixpoint disc_pa (es : list nat) (s : arcs) : res arcs :=
  match es with
  | [] => Ok s
  | e :: r => do c <- sd_rem (a_ch s) (a_from s e) e ; disc_pa r (mkArcs (a_from s) (a_to s) c (a_pa s))
  end.
Fixpoint disc_ch (es : list nat) (s : arcs) : res arcs :=
  match es with
  | [] => Ok s
  | e :: r => do p <- sd_rem (a_pa s) (a_to s e) e ; disc_ch r (mkArcs (a_from s) (a_to s) (a_ch s) p)
  end.
Definition disconnect (s : arcs) (n : nat) : res arcs :=
  do s1 <- disc_pa (sd_v (a_pa s) n) s ;
  let s2 := mkArcs (a_from s1) (a_to s1) (a_ch s1) (sd_clear (a_pa s1) n) in
  do s3 <- disc_ch (sd_v (a_ch s2) n) s2 ;
  Ok (mkArcs (a_from s3) (a_to s3) (sd_clear (a_ch s3) n) (a_pa s3)).
(** src/dd.cpp:467-481.  The loops run over the vectors of the donor as they are when the loop begins: exact as long as donor and receiver differ,
    which the caller (dd.cpp:500) checks. *)
Definition move_to (r : nat) (s : arcs) (e : nat) : arcs := addArc (mkArcs (a_from s) (fupd (a_to s) e r) (a_ch s) (a_pa s)) e.
Definition move_from (r : nat) (s : arcs) (e : nat) : arcs := addArc (mkArcs (fupd (a_from s) e r) (a_to s) (a_ch s) (a_pa s)) e.
Definition transferArcs (s : arcs) (d r : nat) : res arcs :=
  let s1 := fold_left (move_to r) (sd_v (a_pa s) d) s in
  let s2 := fold_left (move_from r) (sd_v (a_ch s1) d) s1 in
  disconnect s2 d.

(** new Edge e from a to b, then addArc *)
Inductive aop := AAdd (e a b : nat) | ATransfer (d r : nat) | ADisconnect (n : nat).
Definition a_do (s : arcs) (o : aop) : res arcs :=
  match o with
  | AAdd e a b => Ok (addArc (mkArcs (fupd (a_from s) e a) (fupd (a_to s) e b) (a_ch s) (a_pa s)) e)
  | ATransfer d r => transferArcs s d r
  | ADisconnect n => disconnect s n
  end.
Fixpoint a_run (s : arcs) (os : list aop) : res arcs := match os with [] => Ok s | o :: r => do s1 <- a_do s o ; a_run s1 r end.
(** src/node.hpp:71-72 *)
Definition nbChildren (s : arcs) (n : nat) : nat := length (sd_v (a_ch s) n).
Definition nbParents (s : arcs) (n : nat) : nat := length (sd_v (a_pa s) n).
