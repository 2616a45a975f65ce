(** Model of the decision-diagram engine: src/dd.hpp, src/dd.cpp, src/node.hpp, src/node.cpp.
    Executable definitions only.

    A diagram is a store.  Nodes and edges are numbered in creation order; a C++ pointer to one of them is its
    number, a null pointer is [None].  Node and edge fields live in total functions [nat -> _]; the counters
    [d_nn], [d_ne] say which numbers exist.  Objective values (C++ double) are [Z]. *)
From Verif Require Import Base HeapModel MSortModel.

(** The closures a user passes to DD (src/dd.hpp:379-402, 546-562).  [p_labels] stands for the set produced by _lgf in
    its iteration order (dd.hpp:475-483); [p_local]/[p_sdom] are None when the closure is null (dd.hpp:424-425);
    the Boolean of [p_local] is the LocalContext (dd.hpp:65), true = DDCtx, false = BBCtx.
    [p_min] selects Compare = Minimize / Maximize.  [p_eqb] is equality of states (std::equal_to). *)
Record prob (St : Type) := mkProb {
  p_init : St;                                 (* _sti *)
  p_target : St;                               (* _stt *)
  p_labels : St -> list Z;                     (* _lgf *)
  p_stf : St -> Z -> option St;                (* _stf *)
  p_cost : St -> Z -> Z;                       (* _stc *)
  p_smf : St -> St -> option St;               (* _smf *)
  p_eqs : St -> bool;                          (* _eqs *)
  p_local : option (St -> bool -> Z);          (* _local *)
  p_sdom : option (St -> St -> bool);          (* _sdom *)
  p_min : bool;                                (* Compare *)
  p_eqb : St -> St -> bool }.
Arguments p_init {St}. Arguments p_target {St}. Arguments p_labels {St}. Arguments p_stf {St}.
Arguments p_cost {St}. Arguments p_smf {St}. Arguments p_eqs {St}. Arguments p_local {St}.
Arguments p_sdom {St}. Arguments p_min {St}. Arguments p_eqb {St}.

(** src/node.hpp:40-53, 190-192 (ANode + Node<T>) without the list links _next/_prev, which [d_an] represents *)
Record node (St : Type) := mkNode {
  n_state : St;             (* Node::_val *)
  n_par : list nat;         (* _parents: edge numbers *)
  n_kids : list nat;        (* _children: edge numbers *)
  n_lab : list Z;           (* _optLabels *)
  n_bound : Z;              (* _bound *)
  n_bb : Z;                 (* _bbound *)
  n_layer : nat;            (* _layer *)
  n_exact : bool }.         (* _exact *)
Arguments mkNode {St}. Arguments n_state {St}. Arguments n_par {St}. Arguments n_kids {St}. Arguments n_lab {St}.
Arguments n_bound {St}. Arguments n_bb {St}. Arguments n_layer {St}. Arguments n_exact {St}.

(** src/node.hpp:28-37; the slots _fix/_tix are modelled in ArcModel.v *)
Record edge := mkEdge { e_from : nat; e_to : nat; e_obj : Z; e_lbl : Z }.

(** src/dd.hpp:67-75, 403-404 *)
Record dd (St : Type) := mkDD {
  d_nd : nat -> node St;
  d_nn : nat;                (* _ndId; also the domain of _nmap *)
  d_ed : nat -> edge;
  d_ne : nat;                (* edges created *)
  d_an : list nat;           (* _an *)
  d_root : option nat;       (* _root *)
  d_trg : option nat;        (* _trg *)
  d_exact : bool }.          (* _exact *)
Arguments mkDD {St}. Arguments d_nd {St}. Arguments d_nn {St}. Arguments d_ed {St}. Arguments d_ne {St}.
Arguments d_an {St}. Arguments d_root {St}. Arguments d_trg {St}. Arguments d_exact {St}.

(** src/dd.hpp:23-27 (_primalSet is modelled in SearchModel.v) : primal bound, incumbent, log of the vectors handed to
    the callbacks, most recent first *)
Record bounds := mkBounds { b_primal : Z; b_inc : list Z; b_log : list (list Z) }.

Section DD.
Context {St : Type}.
Variable P : prob St.

(** src/dd.hpp:321-344 Minimize/Maximize, 415-427 *)
Definition intMax : Z := 2147483647.
Definition isBetter (a b : Z) : bool := if p_min P then (a <? b)%Z else (b <? a)%Z.
Definition isBetterEQ (a b : Z) : bool := if p_min P then (a <=? b)%Z else (b <=? a)%Z.
Definition better (a b : Z) : Z := if isBetter a b then a else b.
Definition initialBest : Z := if p_min P then intMax else (- intMax)%Z.
Definition initialWorst : Z := if p_min P then (- intMax)%Z else intMax.

(** field updates *)
Definition with_node (d : dd St) (i : nat) (n : node St) : dd St :=
  mkDD (fupd (d_nd d) i n) (d_nn d) (d_ed d) (d_ne d) (d_an d) (d_root d) (d_trg d) (d_exact d).
Definition with_an (d : dd St) (l : list nat) : dd St :=
  mkDD (d_nd d) (d_nn d) (d_ed d) (d_ne d) l (d_root d) (d_trg d) (d_exact d).
Definition with_dexact (d : dd St) (b : bool) : dd St :=
  mkDD (d_nd d) (d_nn d) (d_ed d) (d_ne d) (d_an d) (d_root d) (d_trg d) b.
Definition with_root (d : dd St) (r : option nat) : dd St :=
  mkDD (d_nd d) (d_nn d) (d_ed d) (d_ne d) (d_an d) r (d_trg d) (d_exact d).
Definition with_trg (d : dd St) (r : option nat) : dd St :=
  mkDD (d_nd d) (d_nn d) (d_ed d) (d_ne d) (d_an d) (d_root d) r (d_exact d).
Definition with_edge (d : dd St) (e : nat) (x : edge) : dd St :=
  mkDD (d_nd d) (d_nn d) (fupd (d_ed d) e x) (d_ne d) (d_an d) (d_root d) (d_trg d) (d_exact d).

(** src/node.hpp:67-94 setters *)
Definition nset_bound (n : node St) (b : Z) := mkNode (n_state n) (n_par n) (n_kids n) (n_lab n) b (n_bb n) (n_layer n) (n_exact n).
Definition nset_bb (n : node St) (b : Z) := mkNode (n_state n) (n_par n) (n_kids n) (n_lab n) (n_bound n) b (n_layer n) (n_exact n).
Definition nset_lab (n : node St) (l : list Z) := mkNode (n_state n) (n_par n) (n_kids n) l (n_bound n) (n_bb n) (n_layer n) (n_exact n).
Definition nset_layer (n : node St) (l : nat) := mkNode (n_state n) (n_par n) (n_kids n) (n_lab n) (n_bound n) (n_bb n) l (n_exact n).
Definition nset_exact (n : node St) (x : bool) := mkNode (n_state n) (n_par n) (n_kids n) (n_lab n) (n_bound n) (n_bb n) (n_layer n) x.
Definition nset_par (n : node St) (l : list nat) := mkNode (n_state n) l (n_kids n) (n_lab n) (n_bound n) (n_bb n) (n_layer n) (n_exact n).
Definition nset_kids (n : node St) (l : list nat) := mkNode (n_state n) (n_par n) l (n_lab n) (n_bound n) (n_bb n) (n_layer n) (n_exact n).
(** src/node.hpp:71-72 *)
Definition nbParents (d : dd St) (i : nat) : nat := length (n_par (d_nd d i)).
Definition nbChildren (d : dd St) (i : nat) : nat := length (n_kids (d_nd d i)).

Definition is_ptr (o : option nat) (i : nat) : bool := match o with Some j => j =? i | None => false end.

(** src/dd.hpp:440-444 hasNode / LHashtable::getLoc: the node created for this state, if any.
    (The table itself: HashModel.v, C40.) *)
Definition hasNode (d : dd St) (s : St) : option nat :=
  find (fun i => p_eqb P (n_state (d_nd d i)) s) (seq 0 (d_nn d)).

(** append a new node: src/dd.hpp:456-459 and 603-605 *)
Definition alloc (d : dd St) (n : node St) : dd St :=
  mkDD (fupd (d_nd d) (d_nn d) n) (S (d_nn d)) (d_ed d) (d_ne d) (d_an d ++ [d_nn d]) (d_root d) (d_trg d) (d_exact d).

(** src/dd.hpp:445-462 makeNode *)
Definition makeNode (d : dd St) (s : St) (pExact : bool) : dd St * nat :=
  match hasNode d s with
  | Some at_ =>
    let d1 := with_node d at_ (nset_exact (d_nd d at_) (n_exact (d_nd d at_) && pExact)) in
    if (nbParents d at_ =? 0) && negb (is_ptr (d_root d) at_) && negb (is_ptr (d_trg d) at_) then
      let d2 := with_an d1 (d_an d1 ++ [at_]) in
      (with_node d2 at_ (nset_bound (d_nd d2 at_) initialBest), at_)
    else (d1, at_)
  | None => (alloc d (mkNode s [] [] [] initialBest 0 0 pExact), d_nn d)
  end.

(** src/dd.hpp:610-619 reset (on a diagram that keeps its width and closures; _exact survives).
    Simplification: pool memory is not modelled, every field of a node is initialised on creation (node.cpp:19-44). *)
Definition dflt_node : node St := mkNode (p_target P) [] [] [] 0 0 0 true.
Definition dd_empty (ex : bool) : dd St := mkDD (fun _ => dflt_node) 0 (fun _ => mkEdge 0 0 0 0) 0 [] None None ex.
Definition dd_reset (d : dd St) : dd St := dd_empty (d_exact d).

(** src/dd.hpp:586-608 duplicate(src) on a freshly reset diagram + node.cpp:33-44 (copy constructor: exact, layer 0) *)
Definition duplicate (d : dd St) (src : node St) : dd St * nat :=
  match hasNode d (n_state src) with
  | Some at_ => (d, at_)
  | None => (alloc d (mkNode (n_state src) [] [] (n_lab src) (n_bound src) (n_bb src) 0 true), d_nn d)
  end.

(** src/dd.hpp:463-471 makeInitFrom + init *)
Definition initFrom (d : dd St) (src : node St) : dd St :=
  let '(d1, r) := duplicate (dd_reset d) src in with_root d1 (Some r).
(** src/dd.hpp:564-568 + 469-471: init of a diagram compiled on its own *)
Definition initDefault (d : dd St) : dd St :=
  let '(d1, r) := makeNode d (p_init P) true in
  with_root (with_node d1 r (nset_bound (d_nd d1 r) 0)) (Some r).
(** src/dd.hpp:472-474 target *)
Definition target (d : dd St) : dd St :=
  let '(d1, t) := makeNode d (p_target P) true in with_trg d1 (Some t).

(** src/dd.hpp:484-504 transition *)
Definition transition (d : dd St) (primal : Z) (src : nat) (label : Z) : dd St * option nat :=
  let s := n_state (d_nd d src) in
  match p_stf P s label with
  | Some vs =>
    match p_local P with
    | Some local =>
      let cVal := p_cost P s label in
      let dual := local vs true in
      let sCost := (n_bound (d_nd d src) + cVal + dual)%Z in
      if negb (isBetter sCost primal) then (d, None)
      else
        let '(d1, rv) := makeNode d vs (n_exact (d_nd d src)) in
        let d2 := if negb (isBetter (cVal + dual) (n_bound (d_nd d1 rv)))
                  then with_node d1 rv (nset_bb (d_nd d1 rv) (cVal + dual)) else d1 in
        (d2, Some rv)
    | None => let '(d1, rv) := makeNode d vs (n_exact (d_nd d src)) in (d1, Some rv)
    end
  | None => (d, None)
  end.

(** new Edge + AbstractDD::addArc (src/dd.cpp:41-45, node.cpp:57-63): the edge enters from's children and to's parents.
    A self loop (from = to) would enter the children twice; not followed. *)
Definition addEdge (d : dd St) (p c : nat) (l cost : Z) : res (dd St) :=
  if p =? c then Err Unmodelled
  else
    let e := d_ne d in
    let d1 := mkDD (d_nd d) (d_nn d) (fupd (d_ed d) e (mkEdge p c cost l)) (S e) (d_an d) (d_root d) (d_trg d) (d_exact d) in
    let d2 := with_node d1 p (nset_kids (d_nd d1 p) (n_kids (d_nd d1 p) ++ [e])) in
    Ok (with_node d2 c (nset_par (d_nd d2 c) (n_par (d_nd d2 c) ++ [e]))).

(** src/node.hpp:130-138 ANList::pop_back: null dereference on an empty list *)
Definition an_pop (l : list nat) : res (list nat) :=
  match l with [] => Err UB | _ => Ok (removelast l) end.
(** src/node.hpp:139-145 ANList::remove: a member is taken out; a non-member has null links, so head and tail become null *)
Definition an_remove (l : list nat) (i : nat) : list nat :=
  if existsb (Nat.eqb i) l then filter (fun j => negb (j =? i)) l else [].

(** src/dd.cpp:396-404 checkDominance over the queue, and 640-649 over _next: first queued node that dominates *)
Definition checkDominance (d : dd St) (sdom : St -> St -> bool) (q : list nat) (n : nat) (nObj : Z) : option nat :=
  find (fun o => isBetterEQ (n_bound (d_nd d o)) nObj && sdom (n_state (d_nd d o)) (n_state (d_nd d n))) q.

(** src/dd.cpp:421-445 (Restricted) and 700-729 (Relaxed), one label of one node; [q] is what checkDominance looks at.
    Result: the node to enqueue, if any. *)
Definition step_arc (d : dd St) (primal : Z) (q : list nat) (p : nat) (l : Z) : res (dd St * option nat) :=
  match transition d primal p l with
  | (d1, None) => Ok (d1, None)
  | (d1, Some child0) =>
    let newNode0 := nbParents d1 child0 =? 0 in
    let theCost := p_cost P (n_state (d_nd d1 p)) l in
    let ep := (n_bound (d_nd d1 p) + theCost)%Z in
    do (d2, child, newNode) <-
      match p_sdom P with
      | Some sdom =>
        if newNode0 then
          match checkDominance d1 sdom q child0 ep with
          | Some dominator => do an <- an_pop (d_an d1) ; Ok (with_an d1 an, dominator, false)
          | None => Ok (d1, child0, newNode0)
          end
        else Ok (d1, child0, newNode0)
      | None => Ok (d1, child0, newNode0)
      end ;
    do d3 <- addEdge d2 p child l theCost ;
    let d4 := if isBetter ep (n_bound (d_nd d3 child))
              then with_node d3 child (nset_lab (nset_bound (d_nd d3 child) ep) (n_lab (d_nd d3 p) ++ [l]))
              else d3 in
    let d5 := with_node d4 child (nset_layer (d_nd d4 child)
                (Nat.max (n_layer (d_nd d4 child)) (n_layer (d_nd d4 p) + 1))) in
    if negb (p_eqs P (n_state (d_nd d5 child))) && newNode then Ok (d5, Some child) else Ok (d5, None)
  end.

(** src/dd.cpp:367-380 tighten *)
Definition tighten (d : dd St) (i : nat) : dd St :=
  let nd := d_nd d i in
  let cur0 := if (nbParents d i =? 0) && negb (is_ptr (d_trg d) i) then n_bound nd else initialBest in
  let '(cur, lab) := fold_left (fun '(cur, lab) e =>
      let ep := (n_bound (d_nd d (e_from (d_ed d e))) + e_obj (d_ed d e))%Z in
      if isBetter ep cur then (ep, n_lab (d_nd d (e_from (d_ed d e))) ++ [e_lbl (d_ed d e)]) else (cur, lab))
    (n_par nd) (cur0, n_lab nd) in
  with_node d i (nset_bound (nset_lab nd lab) cur).

(** ** Forward and backward passes (src/dd.cpp:88-105, 198-302) *)

(** src/dd.cpp:88-105 DNode ordering and DNode::operator-- (unsigned degree; 0 wraps).  Simplification: a degree is a natural
    number, that is, no node has 2^32 arcs. *)
Definition dn_ord (a b : nat * N) : bool := (snd a <? snd b)%N.
Definition dn_dec (a : nat * N) : nat * N := (fst a, if (snd a =? 0)%N then 4294967295%N else (snd a - 1)%N).
Definition dn_dflt : nat * N := (0, 0%N).

(** src/dd.cpp:206-216 and 252-262 without the bound initialisation: fill the heap, remember the locations in [nl] *)
Fixpoint deg_fill (h : heap (nat * N)) (nl : nat -> option nat) (deg : nat -> nat) (an : list nat)
  : heap (nat * N) * (nat -> option nat) :=
  match an with
  | [] => (h, nl)
  | i :: r => let '(h1, l) := heap_insert dn_dflt h (i, N.of_nat (deg i)) in
              deg_fill h1 (fupd nl i (Some l)) deg r
  end.

(** src/dd.cpp:233-238 and 292-297: decrease the degree of each neighbour *)
Fixpoint deg_decrease (h : heap (nat * N)) (nl : nat -> option nat) (ns : list nat) : res (heap (nat * N)) :=
  match ns with
  | [] => Ok h
  | i :: r => match nl i with
              | Some l => deg_decrease (heap_decrease dn_ord dn_dec h l) nl r
              | None => Err UB
              end
  end.

(** src/dd.cpp:217-239 and 263-298: the main loop; [proc] is the treatment of one extracted node, [nexts] its neighbours *)
Fixpoint deg_loop (fuel : nat) (proc : dd St -> nat -> dd St) (nexts : dd St -> nat -> list nat)
   (h : heap (nat * N)) (nl : nat -> option nat) (d : dd St) : res (dd St) :=
  if heap_size h =? 0 then Ok d
  else match fuel with
  | O => Err OutOfFuel
  | S f =>
    match heap_extractMax dn_ord h with
    | None => Err UB
    | Some (dn, h1) =>
      let d1 := proc d (fst dn) in
      do h2 <- deg_decrease h1 nl (nexts d1 (fst dn)) ;
      deg_loop f proc nexts h2 nl d1
    end
  end.

(** src/dd.cpp:217-232: bound and labels of one node from its parents *)
Definition best_proc (d : dd St) (i : nat) : dd St :=
  let nd := d_nd d i in
  let cur0 := if nbParents d i =? 0 then n_bound nd else initialBest in
  let '(cur, lab) := fold_left (fun '(cur, lab) e =>
      let ep := (n_bound (d_nd d (e_from (d_ed d e))) + e_obj (d_ed d e))%Z in
      if isBetter ep cur then (ep, n_lab (d_nd d (e_from (d_ed d e))) ++ [e_lbl (d_ed d e)]) else (cur, lab))
    (n_par nd) (cur0, n_lab nd) in
  with_node d i (nset_bound (nset_lab nd lab) cur).
(** src/dd.cpp:264-291: backward bound of one node from its children *)
Definition bback_proc (d : dd St) (i : nat) : dd St :=
  let nd := d_nd d i in
  let cur0 := if nbChildren d i =? 0 then n_bb nd else initialBest in
  let cur := fold_left (fun cur e =>
      let ep := (n_bb (d_nd d (e_to (d_ed d e))) + e_obj (d_ed d e))%Z in
      if isBetter ep cur then ep else cur) (n_kids nd) cur0 in
  with_node d i (nset_bb nd cur).

Definition kid_ids (d : dd St) (i : nat) : list nat := map (fun e => e_to (d_ed d e)) (n_kids (d_nd d i)).
Definition par_ids (d : dd St) (i : nat) : list nat := map (fun e => e_from (d_ed d e)) (n_par (d_nd d i)).

(** src/dd.cpp:210-215 / 256-261: initial values *)
Definition best_init (d : dd St) : dd St :=
  fold_left (fun d i => if is_ptr (d_root d) i then d else with_node d i (nset_bound (d_nd d i) initialBest)) (d_an d) d.
Definition bback_init (d : dd St) : dd St :=
  fold_left (fun d i => with_node d i (nset_bb (d_nd d i) (if is_ptr (d_trg d) i then 0%Z else initialBest))) (d_an d) d.

(** src/dd.cpp:200-246 computeBest *)
Definition computeBest (d : dd St) : res (dd St) :=
  let '(h, nl) := deg_fill (heap_new dn_dflt 1000) (fun _ => None) (nbParents d) (d_an d) in
  deg_loop (length (d_an d)) best_proc kid_ids (heap_buildHeap dn_ord h) nl (best_init d).
(** src/dd.cpp:248-302 computeBestBackward *)
Definition computeBestBackward (d : dd St) : res (dd St) :=
  let '(h, nl) := deg_fill (heap_new dn_dflt 1000) (fun _ => None) (nbChildren d) (d_an d) in
  deg_loop (length (d_an d)) bback_proc par_ids (heap_buildHeap dn_ord h) nl (bback_init d).

(** ** Exact (src/dd.cpp:308-334) *)

(** src/dd.cpp:319-330 one label *)
Definition ex_arc (d : dd St) (primal : Z) (q : list nat) (p : nat) (l : Z) : res (dd St * list nat) :=
  match transition d primal p l with
  | (d1, None) => Ok (d1, q)
  | (d1, Some child) =>
    let newNode := nbParents d1 child =? 0 in
    do d2 <- addEdge d1 p child l (p_cost P (n_state (d_nd d1 p)) l) ;
    Ok (d2, if negb (p_eqs P (n_state (d_nd d2 child))) && newNode then q ++ [child] else q)
  end.
(** src/dd.cpp:318-331 *)
Fixpoint ex_labels (d : dd St) (primal : Z) (q : list nat) (p : nat) (ls : list Z) : res (dd St * list nat) :=
  match ls with
  | [] => Ok (d, q)
  | l :: r => do (d1, q1) <- ex_arc d primal q p l ; ex_labels d1 primal q1 p r
  end.
(** src/dd.cpp:315-332; the CQueue is a list (C32) *)
Fixpoint ex_loop (fuel : nat) (d : dd St) (primal : Z) (q : list nat) : res (dd St) :=
  match q with
  | [] => Ok d
  | p :: q' => match fuel with
    | O => Err OutOfFuel
    | S f => do (d1, q1) <- ex_labels d primal q' p (p_labels P (n_state (d_nd d p))) ; ex_loop f d1 primal q1
    end
  end.
(** src/dd.cpp:310-334 after init() *)
Definition ex_compute (fuel : nat) (d : dd St) (primal : Z) : res (dd St) :=
  match d_root d with
  | None => Err UB
  | Some r => do d1 <- ex_loop fuel (with_dexact (target d) true) primal [r] ; computeBest d1
  end.

(** ** Restricted (src/dd.cpp:336-365, 407-462) *)

(** src/dd.cpp:336-347: the prefix of the queue that lies on the layer of its first node *)
Fixpoint same_layer_prefix (d : dd St) (cL : nat) (q : list nat) : list nat * list nat :=
  match q with
  | [] => ([], [])
  | i :: r => if n_layer (d_nd d i) =? cL then let '(a, b) := same_layer_prefix d cL r in (i :: a, b) else ([], q)
  end.
Definition rs_pull (d : dd St) (n : nat) (q : list nat) : list nat * list nat :=
  let '(a, b) := same_layer_prefix d (n_layer (d_nd d n)) q in
  (msort_list (fun a b => isBetter (n_bound (d_nd d a)) (n_bound (d_nd d b))) 0 (n :: a), b).
(** src/dd.cpp:354-365 estimate (the queue is not empty where it is called) *)
Definition rs_estimate (d : dd St) (q : list nat) : nat :=
  match q with
  | [] => 0
  | n :: _ => length (filter (fun i => n_layer (d_nd d i) =? n_layer (d_nd d n)) q)
  end.
(** src/dd.cpp:448: nbNode > _mxw - 1 with _mxw unsigned (32 bits), wraps at 0 *)
Definition rs_full (nb w : nat) : bool := ((N.of_nat w + 4294967295) mod 4294967296 <? N.of_nat nb)%N.

(** src/dd.cpp:420-456; the Boolean says that "goto next" was taken *)
Fixpoint rs_labels (d : dd St) (primal : Z) (w : nat) (q : list nat) (p : nat) (ls : list Z) : res (dd St * list nat * bool) :=
  match ls with
  | [] => Ok (d, q, false)
  | l :: r =>
    do (d1, enq) <- step_arc d primal q p l ;
    match enq with
    | None => rs_labels d1 primal w q p r
    | Some c => let q1 := q ++ [c] in
                if rs_full (rs_estimate d1 q1) w then Ok (with_dexact d1 false, q1, true)
                else rs_labels d1 primal w q1 p r
    end
  end.
(** src/dd.cpp:418-457 *)
Fixpoint rs_layer (d : dd St) (primal : Z) (w : nat) (q : list nat) (lk : list nat) : res (dd St * list nat) :=
  match lk with
  | [] => Ok (d, q)
  | p :: r =>
    do (d1, q1, jump) <- rs_labels d primal w q p (p_labels P (n_state (d_nd d p))) ;
    if jump then Ok (d1, q1) else rs_layer d1 primal w q1 r
  end.
(** src/dd.cpp:416-459 *)
Fixpoint rs_loop (fuel : nat) (d : dd St) (primal : Z) (w : nat) (q : list nat) : res (dd St) :=
  match q with
  | [] => Ok d
  | n :: q' => match fuel with
    | O => Err OutOfFuel
    | S f => let '(lk, q1) := rs_pull d n q' in
             do (d1, q2) <- rs_layer d primal w q1 lk ; rs_loop f d1 primal w q2
    end
  end.
(** src/dd.cpp:407-462 after init() *)
Definition rs_compute (fuel : nat) (d : dd St) (primal : Z) (w : nat) : res (dd St) :=
  match d_root d with
  | None => Err UB
  | Some r =>
    let d0 := target (with_dexact d true) in
    let d1 := with_node d0 r (nset_layer (d_nd d0 r) 0) in
    do d2 <- rs_loop fuel d1 primal w [r] ;
    match d_trg d2 with None => Err UB | Some t => Ok (tighten d2 t) end
  end.

(** ** Relaxed (src/dd.cpp:467-792) *)

(** src/dd.hpp:517-539 merge + node.hpp:89-94 copyBoundAndLabels *)
Definition copyBL (d : dd St) (dst src : nat) : dd St :=
  let n := d_nd d dst in let s := d_nd d src in
  with_node d dst (mkNode (n_state n) (n_par n) (n_kids n) (n_lab s) (n_bound s) (n_bb s) (n_layer n) false).
Definition merge (d : dd St) (f s : nat) : option (dd St * nat) :=
  match p_smf P (n_state (d_nd d f)) (n_state (d_nd d s)) with
  | None => None
  | Some vs =>
    let refuse := match hasNode d vs with
                  | Some m => n_layer (d_nd d m) <? Nat.max (n_layer (d_nd d f)) (n_layer (d_nd d s))
                  | None => false
                  end in
    if refuse then None
    else
      let '(d1, rv) := makeNode d vs true in
      let d2 := if isBetter (n_bound (d_nd d1 f)) (n_bound (d_nd d1 rv)) then copyBL d1 rv f else d1 in
      let d3 := if isBetter (n_bound (d_nd d2 s)) (n_bound (d_nd d2 rv)) then copyBL d2 rv s else d2 in
      Some (d3, rv)
  end.

(** src/dd.cpp:467-481 transferArcs, net effect (ArcModel.v, C44): the parents' arcs are redirected to the receiver and appended
    to its parents, the parents' child lists stay as they are, the donor loses its parents.  The donor has no children at the only
    call site (mergeOne, lines 514-530), so lines 475-479 do nothing.  A self loop is not followed. *)
Fixpoint redirect (d : dd St) (es : list nat) (receiver : nat) : res (dd St) :=
  match es with
  | [] => Ok d
  | e :: r =>
    let x := d_ed d e in
    if e_from x =? receiver then Err Unmodelled
    else
      let d1 := with_edge d e (mkEdge (e_from x) receiver (e_obj x) (e_lbl x)) in
      redirect (with_node d1 receiver (nset_par (d_nd d1 receiver) (n_par (d_nd d1 receiver) ++ [e]))) r receiver
  end.
Definition transferArcs (d : dd St) (donor receiver : nat) : res (dd St) :=
  do d1 <- redirect d (n_par (d_nd d donor)) receiver ;
  Ok (with_node d1 donor (nset_par (d_nd d1 donor) [])).

(** src/dd.hpp:295-299 *)
Inductive ndaction := Delay | InFront | Noop.

(** src/dd.cpp:498-504 for one of the two nodes: (store, addIt) *)
Definition mp_donor (d : dd St) (m dn : nat) : res (dd St * bool) :=
  if dn =? m then Ok (d, true)
  else do d1 <- transferArcs d dn m ; Ok (with_an d1 (an_remove (d_an d1) dn), false).
(** src/dd.cpp:483-508 mergePair *)
Definition mergePair (d : dd St) (m n1 n2 : nat) : res (dd St * ndaction) :=
  let newNode := nbParents d m =? 0 in
  let l1 := n_layer (d_nd d n1) in
  let d1 := if newNode then with_node d m (nset_layer (d_nd d m) l1) else d in
  let sameLayer := n_layer (d_nd d1 m) =? n_layer (d_nd d1 n1) in
  let d2 := with_node d1 m (nset_exact (nset_layer (d_nd d1 m)
              (Nat.max (n_layer (d_nd d1 m)) (n_layer (d_nd d1 n1)))) false) in
  let d3 := with_dexact d2 false in
  do (d4, a1) <- mp_donor d3 m n1 ;
  do (d5, a2) <- mp_donor d4 m n2 ;
  Ok (d5, if sameLayer then (if newNode || (a1 || a2) then InFront else Noop) else Delay).

(** src/dd.cpp:522-548: first later node that n1 can be merged with *)
Fixpoint find_partner (d : dd St) (n1 : nat) (rest : list nat) : option (nat * (dd St * nat)) :=
  match rest with
  | [] => None
  | n2 :: r =>
    if negb (nbChildren d n2 =? 0) || negb (n_layer (d_nd d n1) =? n_layer (d_nd d n2)) then find_partner d n1 r
    else match merge d n1 n2 with
         | Some x => Some (n2, x)
         | None => find_partner d n1 r
         end
  end.
(** list::erase of the first occurrence *)
Fixpoint erase1 (i : nat) (l : list nat) : list nat :=
  match l with [] => [] | j :: r => if j =? i then r else j :: erase1 i r end.

(** src/dd.cpp:510-569 mergeOne on a non-empty layer: new store, layer, skip list, delayed node *)
Definition mergeOne (d : dd St) (n1 : nat) (rest skip : list nat) : res (dd St * list nat * list nat * option nat) :=
  if negb (nbChildren d n1 =? 0) then Ok (d, rest, skip ++ [n1], None)
  else match find_partner d n1 rest with
  | Some (n2, (d1, m)) =>
    do (d2, act) <- mergePair d1 m n1 n2 ;
    let rest' := erase1 n2 rest in
    match act with
    | Delay => Ok (d2, rest', skip, Some m)
    | InFront => Ok (d2, m :: rest', skip, None)
    | Noop => Ok (d2, rest', skip, None)
    end
  | None => Ok (d, rest, skip ++ [n1], None)
  end.

(** src/dd.cpp:597-610 adjustBounds *)
Fixpoint adjustBounds (fuel : nat) (d : dd St) (i : nat) : res (dd St) :=
  match fuel with
  | O => Err OutOfFuel
  | S f =>
    fold_left (fun (acc : res (dd St)) e =>
      do d <- acc ;
      let en := e_to (d_ed d e) in
      let ep := (n_bound (d_nd d i) + e_obj (d_ed d e))%Z in
      if isBetter ep (n_bound (d_nd d en))
      then adjustBounds f (with_node d en (nset_lab (nset_bound (d_nd d en) ep) (n_lab (d_nd d i) ++ [e_lbl (d_ed d e)]))) en
      else Ok d) (n_kids (d_nd d i)) (Ok d)
  end.

(** src/dd.cpp:572-595 mergeLayer with the callback of pullLayer (663-670).  Every round shortens the layer list or the sum of
    the two lists, so fuel 2*length suffices. *)
Fixpoint mergeLayer (fuel : nat) (d : dd St) (w : nat) (layer skip : list nat) : res (dd St * list nat) :=
  match layer with
  | [] => Ok (d, skip)
  | n1 :: rest =>
    if length skip + length layer <=? w then Ok (d, skip ++ layer)
    else match fuel with
    | O => Err OutOfFuel
    | S f =>
      do (d1, layer1, skip1, dn) <- mergeOne d n1 rest skip ;
      match dn with
      | None => mergeLayer f d1 w layer1 skip1
      | Some m => do d2 <- adjustBounds f d1 m ; mergeLayer f d2 w layer1 skip1
      end
    end
  end.

(** src/dd.cpp:613-682 LQueue: (_next,_rest).  [srt] is the effect of std::list::sort (see DESIGN.md section 2): it may depend on
    the store and returns the layer in some order. *)
Variable srt : dd St -> list nat -> list nat.
Definition lqueue := (list nat * list nat)%type.
Definition lq_enQueue (d : dd St) (q : lqueue) (n : nat) : lqueue :=
  let '(next, rest) := q in
  match next with
  | [] => ([n], rest)
  | f :: _ => if n_layer (d_nd d f) =? n_layer (d_nd d n) then (n :: next, rest) else (next, rest ++ [n])
  end.
(** src/dd.cpp:656-681 pullLayer *)
Definition lq_pull (fuel : nat) (d : dd St) (w : nat) (q : lqueue) : res (dd St * list nat * lqueue) :=
  let '(next, rest) := q in
  do (d1, lk) <- mergeLayer fuel d w (srt d next) [] ;
  match rest with
  | [] => Ok (d1, lk, ([], []))
  | r :: _ => let '(a, b) := same_layer_prefix d1 (n_layer (d_nd d1 r)) rest in Ok (d1, lk, (a, b))
  end.

(** src/dd.cpp:699-731 *)
Fixpoint rx_labels (d : dd St) (primal : Z) (q : lqueue) (p : nat) (ls : list Z) : res (dd St * lqueue) :=
  match ls with
  | [] => Ok (d, q)
  | l :: r =>
    do (d1, enq) <- step_arc d primal (fst q) p l ;
    rx_labels d1 primal (match enq with Some c => lq_enQueue d1 q c | None => q end) p r
  end.
(** src/dd.cpp:697-732 *)
Fixpoint rx_layer (d : dd St) (primal : Z) (q : lqueue) (lk : list nat) : res (dd St * lqueue) :=
  match lk with
  | [] => Ok (d, q)
  | p :: r =>
    do (d1, q1) <- rx_labels d primal q p (p_labels P (n_state (d_nd d p))) ;
    rx_layer d1 primal q1 r
  end.
(** src/dd.cpp:694-733; [mfuel] is the fuel handed to mergeLayer *)
Fixpoint rx_loop (fuel : nat) (mfuel : dd St -> list nat -> nat) (d : dd St) (primal : Z) (w : nat) (q : lqueue) : res (dd St) :=
  match fst q ++ snd q with
  | [] => Ok d
  | _ => match fuel with
    | O => Err OutOfFuel
    | S f => do (d1, lk, q1) <- lq_pull (mfuel d (fst q)) d w q ;
             do (d2, q2) <- rx_layer d1 primal q1 lk ;
             rx_loop f mfuel d2 primal w q2
    end
  end.
(** fuel of one pullLayer: enough for the merge rounds and for a chain of bound adjustments *)
Definition mfuel_std (d : dd St) (next : list nat) : nat := 2 * length next + d_nn d + 2.
(** src/dd.cpp:684-741 after init() *)
Definition rx_compute (fuel : nat) (d : dd St) (primal : Z) (w : nat) : res (dd St) :=
  match d_root d with
  | None => Err UB
  | Some r =>
    let d0 := target (with_dexact d true) in
    let d1 := with_node d0 r (nset_layer (d_nd d0 r) 0) in
    do d2 <- rx_loop fuel mfuel_std d1 primal w (lq_enQueue d1 ([], []) r) ;
    match d_trg d2 with None => Err UB | Some t => computeBestBackward (tighten d2 t) end
  end.

(** src/dd.cpp:743-792 computeCutSet; the queue's inQueue[] array is the list [seen] *)
Definition all_kids_exact (d : dd St) (i : nat) : bool :=
  forallb (fun e => is_ptr (d_trg d) (e_to (d_ed d e)) || n_exact (d_nd d (e_to (d_ed d e)))) (n_kids (d_nd d i)).
Definition cs_push (d : dd St) (i : nat) (q seen : list nat) : list nat * list nat :=
  fold_left (fun '(q, seen) e =>
    let t := e_to (d_ed d e) in
    if negb (existsb (Nat.eqb t) seen) && negb (is_ptr (d_trg d) t) then (q ++ [t], t :: seen) else (q, seen))
    (n_kids (d_nd d i)) (q, seen).
Fixpoint cs_loop (fuel : nat) (d : dd St) (q seen cs : list nat) : res (list nat) :=
  match q with
  | [] => Ok cs
  | cur :: q' => match fuel with
    | O => Err OutOfFuel
    | S f =>
      if n_exact (d_nd d cur) then
        if all_kids_exact d cur then let '(q1, seen1) := cs_push d cur q' seen in cs_loop f d q1 seen1 cs
        else cs_loop f d q' seen (cs ++ [cur])
      else cs_loop f d q' seen cs
    end
  end.
Definition computeCutSet (d : dd St) : res (list nat) :=
  match d_root d with
  | None => Err UB
  | Some r => cs_loop (S (d_nn d)) d [r] [r] []
  end.

(** ** apply (src/dd.cpp:65-73) and update (src/dd.hpp:428-439) *)

(** which strategy a diagram uses, with its width: Exact, Restricted, Relaxed *)
Inductive strategy := SExact | SRestricted (w : nat) | SRelaxed (w : nat).
(** src/dd.hpp:127-149, 284-313: primal() / dual() *)
Definition st_primal (s : strategy) : bool := match s with SRelaxed _ => false | _ => true end.
Definition st_dual (s : strategy) : bool := match s with SRestricted _ => false | _ => true end.
Definition compute (fuel : nat) (s : strategy) (d : dd St) (primal : Z) : res (dd St) :=
  match s with
  | SExact => ex_compute fuel d primal
  | SRestricted w => rs_compute fuel d primal w
  | SRelaxed w => rx_compute fuel d primal w
  end.
(** src/dd.hpp:114, dd.cpp:75-81 *)
Definition trg_node (d : dd St) : res (node St) := match d_trg d with Some t => Ok (d_nd d t) | None => Err UB end.
Definition currentOpt (d : dd St) : res Z := do t <- trg_node d ; Ok (n_bound t).
Definition incumbent (d : dd St) : res (list Z) := do t <- trg_node d ; Ok (n_lab t).
(** src/dd.hpp:428-439 update, 35-44 setPrimal/setIncumbent *)
Definition update (s : strategy) (d : dd St) (b : bounds) : res bounds :=
  do t <- trg_node d ;
  if st_primal s || (st_dual s && d_exact d)
  then Ok (mkBounds (better (n_bound t) (b_primal b)) (n_lab t) (n_lab t :: b_log b))
  else Ok b.
(** src/dd.cpp:65-73 apply(from,bnds); result: diagram, bounds, isBetterValue *)
Definition apply (fuel : nat) (s : strategy) (d : dd St) (from : node St) (b : bounds) : res (dd St * bounds * bool) :=
  do d1 <- compute fuel s (initFrom d from) (b_primal b) ;
  do t <- trg_node d1 ;
  if isBetter (n_bound t) (b_primal b)
  then do b1 <- update s d1 b ; Ok (d1, b1, true)
  else Ok (d1, b, false).
(** src/dd.cpp:58-63 compute on a new diagram (init from _sti) *)
Definition run (fuel : nat) (s : strategy) (primal : Z) : res (dd St) :=
  compute fuel s (initDefault (dd_empty true)) primal.
End DD.
