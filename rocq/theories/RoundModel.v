(** The engine with an addition of doubles.  DDModel.v and SearchModel.v add objective values as integers; here the functions that add two values, and their
    callers, take the addition [fadd] as a parameter.  All other functions (creation and merging of nodes, arcs, queues) do not add values and are those of
    DDModel.v and SearchModel.v.  Comparisons of doubles are exact. *)
From Verif Require Import Base HeapModel DDModel SearchModel.

Section Round.
Context {St : Type}.
Variable fadd : Z -> Z -> Z.
Variable P : prob St.

(** src/dd.hpp:484-504 *)
Definition transitionF (d : dd St) (primal : Z) (src : nat) (label : Z) : dd St * option nat :=
  let s := n_state (d_nd d src) in
  match p_stf P s label with
  | Some vs =>
    match p_local P with
    | Some local =>
      let cVal := p_cost P s label in
      let dual := local vs true in
      let sCost := fadd (fadd (n_bound (d_nd d src)) cVal) dual in
      if negb (isBetter P sCost primal) then (d, None)
      else
        let '(d1, rv) := makeNode P d vs (n_exact (d_nd d src)) in
        let d2 := if negb (isBetter P (fadd cVal dual) (n_bound (d_nd d1 rv)))
                  then with_node d1 rv (nset_bb (d_nd d1 rv) (fadd cVal dual)) else d1 in
        (d2, Some rv)
    | None => let '(d1, rv) := makeNode P d vs (n_exact (d_nd d src)) in (d1, Some rv)
    end
  | None => (d, None)
  end.

(** src/dd.cpp:421-445 (Restricted) and 700-729 (Relaxed) *)
Definition step_arcF (d : dd St) (primal : Z) (q : list nat) (p : nat) (l : Z) : res (dd St * option nat) :=
  match transitionF d primal p l with
  | (d1, None) => Ok (d1, None)
  | (d1, Some child0) =>
    let newNode0 := nbParents d1 child0 =? 0 in
    let theCost := p_cost P (n_state (d_nd d1 p)) l in
    let ep := fadd (n_bound (d_nd d1 p)) theCost in
    do (d2, child, newNode) <-
      match p_sdom P with
      | Some sdom =>
        if newNode0 then
          match checkDominance P d1 sdom q child0 ep with
          | Some dominator => do an <- an_pop (d_an d1) ; Ok (with_an d1 an, dominator, false)
          | None => Ok (d1, child0, newNode0)
          end
        else Ok (d1, child0, newNode0)
      | None => Ok (d1, child0, newNode0)
      end ;
    do d3 <- addEdge d2 p child l theCost ;
    let d4 := if isBetter P ep (n_bound (d_nd d3 child))
              then with_node d3 child (nset_lab (nset_bound (d_nd d3 child) ep) (n_lab (d_nd d3 p) ++ [l]))
              else d3 in
    let d5 := with_node d4 child (nset_layer (d_nd d4 child)
                (Nat.max (n_layer (d_nd d4 child)) (n_layer (d_nd d4 p) + 1))) in
    if negb (p_eqs P (n_state (d_nd d5 child))) && newNode then Ok (d5, Some child) else Ok (d5, None)
  end.

(** src/dd.cpp:367-380 *)
Definition tightenF (d : dd St) (i : nat) : dd St :=
  let nd := d_nd d i in
  let cur0 := if (nbParents d i =? 0) && negb (is_ptr (d_trg d) i) then n_bound nd else initialBest P in
  let '(cur, lab) := fold_left (fun '(cur, lab) e =>
      let ep := fadd (n_bound (d_nd d (e_from (d_ed d e)))) (e_obj (d_ed d e)) in
      if isBetter P ep cur then (ep, n_lab (d_nd d (e_from (d_ed d e))) ++ [e_lbl (d_ed d e)]) else (cur, lab))
    (n_par nd) (cur0, n_lab nd) in
  with_node d i (nset_bound (nset_lab nd lab) cur).

(** src/dd.cpp:264-291 *)
Definition bback_procF (d : dd St) (i : nat) : dd St :=
  let nd := d_nd d i in
  let cur0 := if nbChildren d i =? 0 then n_bb nd else initialBest P in
  let cur := fold_left (fun cur e =>
      let ep := fadd (n_bb (d_nd d (e_to (d_ed d e)))) (e_obj (d_ed d e)) in
      if isBetter P ep cur then ep else cur) (n_kids nd) cur0 in
  with_node d i (nset_bb nd cur).
(** src/dd.cpp:248-302 *)
Definition computeBestBackwardF (d : dd St) : res (dd St) :=
  let '(h, nl) := deg_fill (heap_new dn_dflt 1000) (fun _ => None) (nbChildren d) (d_an d) in
  deg_loop (length (d_an d)) bback_procF par_ids (heap_buildHeap dn_ord h) nl (bback_init P d).

(** src/dd.cpp:420-456 *)
Fixpoint rs_labelsF (d : dd St) (primal : Z) (w : nat) (q : list nat) (p : nat) (ls : list Z) : res (dd St * list nat * bool) :=
  match ls with
  | [] => Ok (d, q, false)
  | l :: r =>
    do (d1, enq) <- step_arcF d primal q p l ;
    match enq with
    | None => rs_labelsF d1 primal w q p r
    | Some c => let q1 := q ++ [c] in
                if rs_full (rs_estimate d1 q1) w then Ok (with_dexact d1 false, q1, true)
                else rs_labelsF d1 primal w q1 p r
    end
  end.
(** src/dd.cpp:418-457 *)
Fixpoint rs_layerF (d : dd St) (primal : Z) (w : nat) (q : list nat) (lk : list nat) : res (dd St * list nat) :=
  match lk with
  | [] => Ok (d, q)
  | p :: r =>
    do (d1, q1, jump) <- rs_labelsF d primal w q p (p_labels P (n_state (d_nd d p))) ;
    if jump then Ok (d1, q1) else rs_layerF d1 primal w q1 r
  end.
(** src/dd.cpp:416-459 *)
Fixpoint rs_loopF (fuel : nat) (d : dd St) (primal : Z) (w : nat) (q : list nat) : res (dd St) :=
  match q with
  | [] => Ok d
  | n :: q' => match fuel with
    | O => Err OutOfFuel
    | S f => let '(lk, q1) := rs_pull P d n q' in
             do (d1, q2) <- rs_layerF d primal w q1 lk ; rs_loopF f d1 primal w q2
    end
  end.
(** src/dd.cpp:407-462 *)
Definition rs_computeF (fuel : nat) (d : dd St) (primal : Z) (w : nat) : res (dd St) :=
  match d_root d with
  | None => Err UB
  | Some r =>
    let d0 := target P (with_dexact d true) in
    let d1 := with_node d0 r (nset_layer (d_nd d0 r) 0) in
    do d2 <- rs_loopF fuel d1 primal w [r] ;
    match d_trg d2 with None => Err UB | Some t => Ok (tightenF d2 t) end
  end.

(** src/dd.cpp:597-610 *)
Fixpoint adjustBoundsF (fuel : nat) (d : dd St) (i : nat) : res (dd St) :=
  match fuel with
  | O => Err OutOfFuel
  | S f =>
    fold_left (fun (acc : res (dd St)) e =>
      do d <- acc ;
      let en := e_to (d_ed d e) in
      let ep := fadd (n_bound (d_nd d i)) (e_obj (d_ed d e)) in
      if isBetter P ep (n_bound (d_nd d en))
      then adjustBoundsF f (with_node d en (nset_lab (nset_bound (d_nd d en) ep) (n_lab (d_nd d i) ++ [e_lbl (d_ed d e)]))) en
      else Ok d) (n_kids (d_nd d i)) (Ok d)
  end.
(** src/dd.cpp:572-595 *)
Fixpoint mergeLayerF (fuel : nat) (d : dd St) (w : nat) (layer skip : list nat) : res (dd St * list nat) :=
  match layer with
  | [] => Ok (d, skip)
  | n1 :: rest =>
    if length skip + length layer <=? w then Ok (d, skip ++ layer)
    else match fuel with
    | O => Err OutOfFuel
    | S f =>
      do (d1, layer1, skip1, dn) <- mergeOne P d n1 rest skip ;
      match dn with
      | None => mergeLayerF f d1 w layer1 skip1
      | Some m => do d2 <- adjustBoundsF f d1 m ; mergeLayerF f d2 w layer1 skip1
      end
    end
  end.

Variable srt : dd St -> list nat -> list nat.
(** src/dd.cpp:656-681 *)
Definition lq_pullF (fuel : nat) (d : dd St) (w : nat) (q : lqueue) : res (dd St * list nat * lqueue) :=
  let '(next, rest) := q in
  do (d1, lk) <- mergeLayerF fuel d w (srt d next) [] ;
  match rest with
  | [] => Ok (d1, lk, ([], []))
  | r :: _ => let '(a, b) := same_layer_prefix d1 (n_layer (d_nd d1 r)) rest in Ok (d1, lk, (a, b))
  end.
(** src/dd.cpp:699-731 *)
Fixpoint rx_labelsF (d : dd St) (primal : Z) (q : lqueue) (p : nat) (ls : list Z) : res (dd St * lqueue) :=
  match ls with
  | [] => Ok (d, q)
  | l :: r =>
    do (d1, enq) <- step_arcF d primal (fst q) p l ;
    rx_labelsF d1 primal (match enq with Some c => lq_enQueue d1 q c | None => q end) p r
  end.
(** src/dd.cpp:697-732 *)
Fixpoint rx_layerF (d : dd St) (primal : Z) (q : lqueue) (lk : list nat) : res (dd St * lqueue) :=
  match lk with
  | [] => Ok (d, q)
  | p :: r =>
    do (d1, q1) <- rx_labelsF d primal q p (p_labels P (n_state (d_nd d p))) ;
    rx_layerF d1 primal q1 r
  end.
(** src/dd.cpp:694-733 *)
Fixpoint rx_loopF (fuel : nat) (mfuel : dd St -> list nat -> nat) (d : dd St) (primal : Z) (w : nat) (q : lqueue) : res (dd St) :=
  match fst q ++ snd q with
  | [] => Ok d
  | _ => match fuel with
    | O => Err OutOfFuel
    | S f => do (d1, lk, q1) <- lq_pullF (mfuel d (fst q)) d w q ;
             do (d2, q2) <- rx_layerF d1 primal q1 lk ;
             rx_loopF f mfuel d2 primal w q2
    end
  end.
(** src/dd.cpp:684-741 *)
Definition rx_computeF (fuel : nat) (d : dd St) (primal : Z) (w : nat) : res (dd St) :=
  match d_root d with
  | None => Err UB
  | Some r =>
    let d0 := target P (with_dexact d true) in
    let d1 := with_node d0 r (nset_layer (d_nd d0 r) 0) in
    do d2 <- rx_loopF fuel mfuel_std d1 primal w (lq_enQueue d1 ([], []) r) ;
    match d_trg d2 with None => Err UB | Some t => computeBestBackwardF (tightenF d2 t) end
  end.

(** src/dd.cpp:65-73; the two strategies the search uses *)
Definition computeF (fuel : nat) (s : strategy) (d : dd St) (primal : Z) : res (dd St) :=
  match s with
  | SExact => Err Unmodelled
  | SRestricted w => rs_computeF fuel d primal w
  | SRelaxed w => rx_computeF fuel d primal w
  end.
Definition applyF (fuel : nat) (s : strategy) (d : dd St) (from : node St) (b : bounds) : res (dd St * bounds * bool) :=
  do d1 <- computeF fuel s (initFrom P d from) (b_primal b) ;
  do t <- trg_node d1 ;
  if isBetter P (n_bound t) (b_primal b)
  then do b1 <- update P s d1 b ; Ok (d1, b1, true)
  else Ok (d1, b, false).

Variable dfuel : nat.
Variable lim : nat -> bool.
(** src/search.cpp:125-183 *)
Definition cut_stepF (d : dd St) (s : sst) (i : nat) : res sst :=
  let n := d_nd d i in
  let w := if is_ptr (d_root d) i then S (s_w s) else s_w s in
  if negb (isBetter P (fadd (n_bound n) (n_bb n)) (b_primal (s_b s)))
  then Ok (cut_upd s (s_pool s) (s_pq s) w (s_pruned s) (s_insDom s) (s_seen s))
  else
    do (h, k, dominated) <- dom_phase P (s_pool s) (s_pq s) n ;
    let pruned := s_pruned s + k in
    if dominated
    then Ok (cut_upd s (s_pool s) h w pruned (S (s_insDom s)) (s_seen s))
    else match cloneNode P (s_pool s) n with
      | None => Ok (cut_upd s (s_pool s) h w pruned (s_insDom s) (S (s_seen s)))
      | Some pool =>
        let bwd := match p_local P with Some local => local (n_state n) false | None => n_bb n end in
        let insKey := fadd (n_bound n) bwd in
        let h2 := if isBetter P insKey (b_primal (s_b s)) then fst (heap_insertHeap (q_ord P) q_dflt h (length (s_pool s), insKey)) else h in
        Ok (cut_upd s pool h2 w pruned (s_insDom s) (s_seen s))
      end.
(** src/search.cpp:121-184 *)
Fixpoint cut_loopF (d : dd St) (s : sst) (cs : list nat) : res sst :=
  match cs with
  | [] => Ok s
  | i :: r => do s1 <- cut_stepF d s i ; cut_loopF d s1 r
  end.
(** src/search.cpp:100-188 *)
Definition bb_nodeF (mxw : nat) (s : sst) (q : qnode) : res sst :=
  let ttl := S (s_ttl s) in
  if negb (isBetter P (snd q) (b_primal (s_b s)))
  then Ok (run_upd s (s_b s) (s_relaxed s) (s_restr s) (s_nNode s) ttl (s_hist s))
  else
    let from := pool_node P (s_pool s) (fst q) in
    let nNode := S (s_nNode s) in
    do (d1, b1, dualBetter) <- applyF dfuel (SRelaxed (s_w s)) (s_relaxed s) from (s_b s) ;
    if dualBetter then
      do (d2, b2, _) <- applyF dfuel (SRestricted mxw) (s_restr s) from b1 ;
      if negb (d_exact d2) && negb (d_exact d1) then
        do cs <- computeCutSet d1 ;
        cut_loopF d1 (run_upd s b2 d1 d2 nNode ttl ((d1, b_primal b2) :: s_hist s)) cs
      else Ok (run_upd s b2 d1 d2 nNode ttl (s_hist s))
    else Ok (run_upd s b1 d1 (s_restr s) nNode ttl (s_hist s)).
(** src/search.cpp:59-189 *)
Fixpoint bb_loopF (fuel mxw k : nat) (s : sst) : res (sst * ending) :=
  if heap_empty (s_pq s) then Ok (s, Emptied)
  else match fuel with
  | O => Err OutOfFuel
  | S f =>
    match heap_extractMax (q_ord P) (s_pq s) with
    | None => Err UB
    | Some (q, h) =>
      if lim k then Ok (popped s q h, Limited q)
      else do s1 <- bb_nodeF mxw (popped s q h) q ; bb_loopF f mxw (S k) s1
    end
  end.
(** src/search.cpp:21-198 *)
Definition searchF (fuel mxw : nat) (user : option Z) : res (sst * ending) := bb_loopF fuel mxw 0 (bb_start P mxw user).
End Round.

(** IEEE 754 binary64 addition on doubles that are integers: the exact sum, rounded to 53 significant bits, ties to even.  Infinities are left out.
    The doubles: src/node.hpp:32 (obj), 47-48 (bounds), src/dd.hpp:24 (primal), 98-99 (cost, local). *)
Definition round53 (z : Z) : Z :=
  let a := Z.abs z in
  let e := (Z.log2 a - 52)%Z in
  if (e <=? 0)%Z then z
  else
    let u := (2 ^ e)%Z in
    let q := (a / u)%Z in
    let r := (a mod u)%Z in
    let q' := if (r * 2 <? u)%Z then q else if (u <? r * 2)%Z then (q + 1)%Z else if Z.even q then q else (q + 1)%Z in
    (Z.sgn z * (q' * u))%Z.
(** the same places *)
Definition dbl_add (a b : Z) : Z := round53 (a + b).
