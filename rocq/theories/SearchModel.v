(** Model of branch and bound: src/search.cpp, src/search.hpp, and Bounds (src/dd.hpp:23-51, src/dd.cpp:17-29),
    DDNodeAllocator::cloneNode (src/dd.hpp:347-376).  Executable definitions only. *)
From Verif Require Import Base HeapModel DDModel.

Section Search.
Context {St : Type}.
Variable P : prob St.
Variable srt : dd St -> list nat -> list nat.   (* order of a layer, see DDModel *)
Variable dfuel : nat.                           (* rounds allowed to one diagram compilation *)
(** src/search.cpp:75 _timeLimit(fs): the answer after the k-th extraction (fun _ => false: no limit set) *)
Variable lim : nat -> bool.

(** src/dd.hpp:29-37, src/dd.cpp:17-29: Bounds before the search (_primalSet = false is None) and attach *)
Definition attach (user : option Z) : bounds :=
  mkBounds (match user with Some p => p | None => initialBest P end) [] [].

(** A node of bbPool is its position in the list of nodes created so far.  release is empty (src/dd.hpp:373-375), so nothing is
    ever taken out and claimNode always yields null.
    src/dd.hpp:352-372 cloneNode + node.cpp:33-44; None: a node with that state exists. *)
Definition clone_of (src : node St) : node St :=
  mkNode (n_state src) [] [] (n_lab src) (n_bound src) (n_bb src) 0 true.
Definition cloneNode (pool : list (node St)) (src : node St) : option (list (node St)) :=
  if existsb (fun x => p_eqb P (n_state x) (n_state src)) pool then None else Some (pool ++ [clone_of src]).
Definition pool_node (pool : list (node St)) (i : nat) : node St := nth i pool (dflt_node P).

(** src/search.cpp:11-19, 42-44 QNode and hOrder *)
Definition qnode := (nat * Z)%type.
Definition q_ord (a b : qnode) : bool := isBetter P (snd a) (snd b).
Definition q_dflt : qnode := (0, 0%Z).
(** src/search.cpp:45 *)
Definition pq_cap : nat := 64000.

(** State of the search at the head of the loop.  Two fields are not in the code and only record what happened, so that theorems can
    speak about it: [s_hist], for each cut set computed the relaxed diagram and the primal bound of that moment, and [s_out], the
    extracted queue entries (both most recent first). *)
Record sst := mkS {
  s_pool : list (node St);
  s_pq : heap qnode;
  s_w : nat;                    (* ddr[0]->getWidth() *)
  s_b : bounds;
  s_relaxed : dd St;
  s_restr : dd St;
  s_nNode : nat; s_ttl : nat;   (* search.cpp:55 *)
  s_pruned : nat; s_insDom : nat;
  s_seen : nat;                 (* search.cpp:25 nbSeen *)
  s_hist : list (dd St * Z);
  s_out : list qnode }.

(** src/search.cpp:142-152: which queued nodes are dominated by n (locations, in order), and whether n is dominated *)
Fixpoint dom_scan (sdom : St -> St -> bool) (pool : list (node St)) (h : heap qnode) (n : node St) (locs : list nat) (acc : list nat) : bool * list nat :=
  match locs with
  | [] => (false, acc)
  | l :: r =>
    let q := pool_node pool (fst (hval h l)) in
    if isBetterEQ P (n_bound q) (n_bound n) && sdom (n_state q) (n_state n) then (true, acc)
    else if isBetterEQ P (n_bound n) (n_bound q) && sdom (n_state n) (n_state q)
    then dom_scan sdom pool h n r (acc ++ [l])
    else dom_scan sdom pool h n r acc
  end.
(** src/search.cpp:155-156 *)
Fixpoint pq_remove (h : heap qnode) (locs : list nat) : res (heap qnode) :=
  match locs with
  | [] => Ok h
  | l :: r => match heap_remove q_ord h l with Some (_, h1) => pq_remove h1 r | None => Err UB end
  end.

(** src/search.cpp:138-160: new queue, number of nodes removed, newGuyDominated *)
Definition dom_phase (pool : list (node St)) (h : heap qnode) (n : node St) : res (heap qnode * nat * bool) :=
  match p_sdom P with
  | None => Ok (h, 0, false)
  | Some sdom =>
    let '(b, locs) := dom_scan sdom pool h n (map (heap_nth h) (seq 0 (heap_size h))) [] in
    do h1 <- pq_remove h locs ; Ok (h1, length locs, b)
  end.

(** update of the fields the cut set loop writes *)
Definition cut_upd (s : sst) (pool : list (node St)) (h : heap qnode) (w pruned insDom seen : nat) : sst :=
  mkS pool h w (s_b s) (s_relaxed s) (s_restr s) (s_nNode s) (s_ttl s) pruned insDom seen (s_hist s) (s_out s).

(** src/search.cpp:125-183: one node of the cut set of the relaxed diagram d *)
Definition cut_step (d : dd St) (s : sst) (i : nat) : res sst :=
  let n := d_nd d i in
  let w := if is_ptr (d_root d) i then S (s_w s) else s_w s in
  if negb (isBetter P (n_bound n + n_bb n) (b_primal (s_b s)))
  then Ok (cut_upd s (s_pool s) (s_pq s) w (s_pruned s) (s_insDom s) (s_seen s))
  else
    do (h, k, dominated) <- dom_phase (s_pool s) (s_pq s) n ;
    let pruned := s_pruned s + k in
    if dominated
    then Ok (cut_upd s (s_pool s) h w pruned (S (s_insDom s)) (s_seen s))
    else match cloneNode (s_pool s) n with
      | None => Ok (cut_upd s (s_pool s) h w pruned (s_insDom s) (S (s_seen s)))
      | Some pool =>
        let bwd := match p_local P with Some local => local (n_state n) false | None => n_bb n end in
        let insKey := (n_bound n + bwd)%Z in
        let h2 := if isBetter P insKey (b_primal (s_b s)) then fst (heap_insertHeap q_ord q_dflt h (length (s_pool s), insKey)) else h in
        Ok (cut_upd s pool h2 w pruned (s_insDom s) (s_seen s))
      end.
(** src/search.cpp:121-184 *)
Fixpoint cut_loop (d : dd St) (s : sst) (cs : list nat) : res sst :=
  match cs with
  | [] => Ok s
  | i :: r => do s1 <- cut_step d s i ; cut_loop d s1 r
  end.

(** update of the fields written outside the cut set loop *)
Definition run_upd (s : sst) (b : bounds) (d1 d2 : dd St) (nNode ttl : nat) (hist : list (dd St * Z)) : sst :=
  mkS (s_pool s) (s_pq s) (s_w s) b d1 d2 nNode ttl (s_pruned s) (s_insDom s) (s_seen s) hist (s_out s).

(** src/search.cpp:100-188: the treatment of one extracted node [q]; [s] is the state after the extraction.
    [mxw] is BAndB::_mxw, the width of the restricted diagrams. *)
Definition bb_node (mxw : nat) (s : sst) (q : qnode) : res sst :=
  let ttl := S (s_ttl s) in
  if negb (isBetter P (snd q) (b_primal (s_b s)))
  then Ok (run_upd s (s_b s) (s_relaxed s) (s_restr s) (s_nNode s) ttl (s_hist s))
  else
    let from := pool_node (s_pool s) (fst q) in
    let nNode := S (s_nNode s) in
    do (d1, b1, dualBetter) <- apply P srt dfuel (SRelaxed (s_w s)) (s_relaxed s) from (s_b s) ;
    if dualBetter then
      do (d2, b2, _) <- apply P srt dfuel (SRestricted mxw) (s_restr s) from b1 ;
      if negb (d_exact d2) && negb (d_exact d1) then
        do cs <- computeCutSet d1 ;
        cut_loop d1 (run_upd s b2 d1 d2 nNode ttl ((d1, b_primal b2) :: s_hist s)) cs
      else Ok (run_upd s b2 d1 d2 nNode ttl (s_hist s))
    else Ok (run_upd s b1 d1 (s_restr s) nNode ttl (s_hist s)).

(** src/search.cpp:70: the extraction *)
Definition popped (s : sst) (q : qnode) (h : heap qnode) : sst :=
  mkS (s_pool s) h (s_w s) (s_b s) (s_relaxed s) (s_restr s) (s_nNode s) (s_ttl s) (s_pruned s) (s_insDom s) (s_seen s) (s_hist s) (q :: s_out s).

(** How the loop ends: queue empty, or time limit after extracting the node given (line 75-76: it is not put back) *)
Inductive ending := Emptied | Limited (q : qnode).

(** src/search.cpp:59-189; [k] counts extractions.  Printing (77-90, 94-99) is left out. *)
Fixpoint bb_loop (fuel mxw k : nat) (s : sst) : res (sst * ending) :=
  if heap_empty (s_pq s) then Ok (s, Emptied)
  else match fuel with
  | O => Err OutOfFuel
  | S f =>
    match heap_extractMax q_ord (s_pq s) with
    | None => Err UB
    | Some (q, h) =>
      if lim k then Ok (popped s q h, Limited q)
      else do s1 <- bb_node mxw (popped s q h) q ; bb_loop f mxw (S k) s1
    end
  end.

(** src/search.cpp:23-58: initial state.  relaxed->init() is the node of _sti with bound 0 (src/dd.hpp:564-571). *)
Definition bb_start (mxw : nat) (user : option Z) : sst :=
  let root := clone_of (mkNode (p_init P) [] [] [] 0 0 0 true) in
  let root1 := match p_local P with Some local => nset_bb root (local (p_init P) false) | None => root end in
  let key := match p_local P with Some local => local (p_init P) false | None => initialWorst P end in
  mkS [root1] (fst (heap_insertHeap q_ord q_dflt (heap_new q_dflt pq_cap) (0, key))) mxw (attach user)
      (initDefault P (dd_empty P true)) (dd_empty P true) 0 0 0 0 0 [] [].

(** src/search.cpp:21-198 *)
Definition search (fuel mxw : nat) (user : option Z) : res (sst * ending) := bb_loop fuel mxw 0 (bb_start mxw user).
(** src/search.cpp:195: what LIM? prints *)
Definition lim_flag (s : sst) : bool := negb (heap_size (s_pq s) =? 0).
End Search.
