(** Model of AbstractDD::saveGraph and AbstractDD::print (src/dd.cpp:108-168).  Executable definitions only. *)
From Verif Require Import Base HeapModel DDModel.

(** src/dd.cpp:149-155, 160-167: one line of the dot file.  A node line has the node, the colour (true: green) and the shape (true: box); an arc
    line has the two nodes, the cost and the label.  Simplification: the text printNode writes for a node (node.hpp:205-212, it starts with the
    number _nid) is represented by the node number, and the fixed header and footer lines are left out. *)
Inductive gline := GNode (i : nat) (green box : bool) | GArc (i j : nat) (obj lbl : Z).

Section Save.
Context {St : Type}.
Variable P : prob St.

(** src/dd.cpp:100 DNode::operator==: the nodes only *)
Definition dn_eq (a b : nat * N) : bool := fst a =? fst b.

(** src/dd.cpp:138-139: insert every node with the number of its parents *)
Fixpoint gr_fill (h : heap (nat * N)) (deg : nat -> nat) (an : list nat) : heap (nat * N) :=
  match an with
  | [] => h
  | i :: r => gr_fill (fst (heap_insert dn_dflt h (i, N.of_nat (deg i)))) deg r
  end.

(** src/dd.cpp:156-167: the arcs out of one node.  A null result of find is dereferenced by decrease. *)
Fixpoint gr_arcs (d : dd St) (h : heap (nat * N)) (es : list nat) : res (heap (nat * N) * list gline) :=
  match es with
  | [] => Ok (h, [])
  | e :: r =>
    match heap_find dn_eq h (e_to (d_ed d e), 0%N) with
    | None => Err UB
    | Some l =>
      do (h2, out) <- gr_arcs d (heap_decrease dn_ord dn_dec h l) r ;
      Ok (h2, GArc (e_from (d_ed d e)) (e_to (d_ed d e)) (e_obj (d_ed d e)) (e_lbl (d_ed d e)) :: out)
    end
  end.

(** src/dd.cpp:146-168 and 119-127: the main loop; [head] is what is written for the node itself *)
Fixpoint gr_loop (fuel : nat) (d : dd St) (head : nat -> res (list gline)) (h : heap (nat * N)) : res (list gline) :=
  if heap_size h =? 0 then Ok []
  else match fuel with
  | O => Err OutOfFuel
  | S f =>
    match heap_extractMax dn_ord h with
    | None => Err UB
    | Some (dn, h1) =>
      do l0 <- head (fst dn) ;
      do (h2, l1) <- gr_arcs d h1 (n_kids (d_nd d (fst dn))) ;
      do l2 <- gr_loop f d head h2 ;
      Ok (l0 ++ l1 ++ l2)
    end
  end.
Definition gr_start (d : dd St) : heap (nat * N) := heap_buildHeap dn_ord (gr_fill (heap_new dn_dflt 1000) (nbParents d) (d_an d)).

(** src/dd.cpp:148-155, dd.hpp:406-410 eq: compares the states of the node and of _trg *)
Definition gr_node (d : dd St) (i : nat) : res (list gline) :=
  match d_trg d with
  | None => Err UB
  | Some t => Ok [GNode i (n_exact (d_nd d i)) (p_eqb P (n_state (d_nd d i)) (n_state (d_nd d t)))]
  end.
(** src/dd.cpp:131-168 *)
Definition saveGraph (d : dd St) : res (list gline) := gr_loop (length (d_an d)) d (gr_node d) (gr_start d).
(** src/dd.cpp:108-128 after display() (which writes the dot file and starts two viewers) *)
Definition print_dd (d : dd St) : res (list gline) := gr_loop (length (d_an d)) d (fun _ => Ok []) (gr_start d).
End Save.
