(** Model of examples/misp4_lag.cpp: the closures are those of misp4.cpp (MispModel.v) with three choices of local bound.  Vertex sets (GNSet) are bit masks
    as in TspModel.v.  Numbers of type double are exact rationals here (Q; [Qred] only keeps the fractions small): rounding is not modelled.  Weights are
    arbitrary integers (the program gives every vertex 1.0, lines 469-471). *)
From Coq Require Import QArith Qround.
From Verif Require Import Base DDModel TspModel MispModel ColorModel SearchLoc.
Local Open Scope nat_scope.

Section Lag.
(** the instance: number of vertices and edges (41-59; adj is [adjs es], MispModel.v) *)
Variables (nv : nat) (es : list (nat * nat)).

(** adj[i] in increasing order *)
Definition nb_list (i : nat) : list nat := blist (N.size_nat (adjs es i)) (adjs es i).
(** visited[i], a vector<bool> of nv entries *)
Definition rd (visited : list bool) (i : nat) : res bool := match nth_error visited i with Some b => Ok b | None => Err UB end.
(** lines 99, 138: the number of unvisited neighbours of i (sum: src/util.hpp:791-798) *)
Definition degree (visited : list bool) (i : nat) : res nat :=
  fold_left (fun r v => do k <- r ; do b <- rd visited v ; Ok (if b then k else S k)) (nb_list i) (Ok 0).
(** lines 96-106 and 131-144: the first of the unvisited candidates with most unvisited neighbours; None is -1 *)
Definition scan (visited : list bool) (cand : nat -> res bool) : res (option (nat * nat)) :=
  fold_left (fun r i => do best <- r ; do v <- rd visited i ;
    if v then Ok best else
    do c <- cand i ;
    if c then do d <- degree visited i ;
      Ok (match best with Some (_, m) => if m <? d then Some (i, d) else best | None => Some (i, d) end)
    else Ok best) (seq 0 nv) (Ok None).
(** lines 95-107 *)
Definition findHighest (visited : list bool) : res (option (nat * nat)) := scan visited (fun _ => Ok true).
(** lines 110-115 *)
Definition isClique (clique : list nat) (v : nat) : bool := forallb (fun u => bmem (adjs es u) v) clique.
(** lines 130-148; the exit of line 136 is the error Unmodelled.  [fuel] exceeds the number of vertices *)
Fixpoint grow (fuel : nat) (start : nat) (clique : list nat) (visited : list bool) : res (list nat * list bool) :=
  match fuel with
  | O => Err OutOfFuel
  | S f =>
    do b <- scan visited (fun i => if isClique clique i then if bmem (adjs es start) i then Ok true else Err Unmodelled else Ok false) ;
    match b with None => Ok (clique, visited) | Some (v, _) => grow f start (clique ++ [v]) (upd visited v true) end
  end.
(** lines 118-150 *)
Definition findMaximalClique (visited : list bool) : res (list nat * list bool) :=
  do b <- findHighest visited ;
  match b with None => Ok ([], visited) | Some (s, _) => grow (S nv) s [s] (upd visited s true) end.
(** lines 177-182 *)
Fixpoint partition_loop (fuel : nat) (visited : list bool) (acc : list (list nat)) : res (list (list nat)) :=
  match fuel with
  | O => Err OutOfFuel
  | S f => do (c, v) <- findMaximalClique visited ; match c with [] => Ok acc | _ => partition_loop f v (acc ++ [c]) end
  end.
(** lines 153-156; nc is the number of cliques *)
Record clqPartition := mkClq { q_of : list Z; q_cliques : list (list nat) }.
(** lines 187-189 *)
Definition clq_of (cs : list (list nat)) : list Z :=
  fold_left (fun a ic => fold_left (fun a v => upd a v (Z.of_nat (fst ic))) (snd ic) a) (combine (seq 0 (length cs)) cs) (repeat (-1)%Z nv).
(** lines 172-192 *)
Definition maximalCliquePartition : res clqPartition :=
  do cs <- partition_loop (S nv) (repeat false nv) [] ; Ok (mkClq (clq_of cs) cs).

(** ** the bounds, for a partition and weights *)
Variables (part : clqPartition) (weight : nat -> Z).
(** CliqueOfVertex[v]; -1 does not occur (C65) *)
Definition cof (v : nat) : nat := Z.to_nat (nth v (q_of part) (-1)%Z).
Definition nc : nat := length (q_cliques part).
(** the vector<double> of the weights (469-471) *)
Definition warr : list Q := map (fun v => inject_Z (weight v)) (seq 0 nv) ++ [0%Q].
Definition get (a : list Q) (i : nat) : Q := nth i a 0%Q.
Definition qsum (l : list Q) : Q := fold_left (fun a x => Qred (a + x)%Q) l 0%Q.
(** std::max *)
Definition qmax (a b : Q) : Q := if Qle_bool b a then a else b.
(** lines 403-406 and 421-426: per clique the largest weight of a member of S, at least 0; summed *)
Definition cliqueSum (w : list Q) (S : N) : Q :=
  qsum (fold_left (fun a v => upd a (cof v) (qmax (get a (cof v)) (get w v))) (blist nv S) (repeat 0%Q nc)).
(** lines 402-407: the sum is a whole number when the weights are *)
Definition cliqueBound (S : N) : Z := Qfloor (cliqueSum warr S).

(** line 243: PairMap.  operator[] on an absent key inserts 0: such entries are left out, they change no sum *)
Definition pairmap := list ((nat * nat) * Q).
Definition eqp (a b : nat * nat) : bool := (fst a =? fst b) && (snd a =? snd b).
Definition lget (lam : pairmap) (e : nat * nat) : Q := match find (fun x => eqp (fst x) e) lam with Some x => snd x | None => 0%Q end.
Definition lerase (lam : pairmap) (e : nat * nat) : pairmap := filter (fun x => negb (eqp (fst x) e)) lam.
Definition lset (lam : pairmap) (e : nat * nat) (l : Q) : pairmap := (e, l) :: lerase lam e.
(** lines 325-326, 416-417 *)
Definition lower (w : list Q) (e : nat * nat) (l : Q) : list Q :=
  let w1 := upd w (fst e) (Qred (get w (fst e) - l)%Q) in upd w1 (snd e) (Qred (get w1 (snd e) - l)%Q).
(** lines 397, 427 *)
Definition eps : Q := (1 # 100000)%Q.
(** lines 412-426 *)
Definition lagValue (lam : pairmap) (S : N) : Q :=
  let r := fold_left (fun x el => if bmem S (fst (fst el)) && bmem S (snd (fst el)) then (lower (fst x) (fst el) (snd el), Qred (snd x + snd el)%Q) else x) lam (warr, 0%Q) in
  (snd r + cliqueSum (fst r) S)%Q.
(** lines 409-429 *)
Definition lagBound (lam : pairmap) (S : N) : Z := Qfloor (lagValue lam S + eps)%Q.

(** lines 287-298: the pairs inserted, then the std::set: every pair once, in increasing order *)
Definition edge_inserts (S : N) : list (nat * nat) :=
  flat_map (fun ic => flat_map (fun i =>
    if bmem S i then map (fun j => (i, j)) (filter (fun j => bmem S j && negb (cof j =? fst ic) && (i <? j)) (nb_list i)) else []) (snd ic))
    (combine (seq 0 nc) (q_cliques part)).
Definition edgeSet (S : N) : list (nat * nat) := filter (fun e => existsb (eqp e) (edge_inserts S)) (list_prod (seq 0 nv) (seq 0 nv)).
(** lines 219-231: the best member of S in one clique *)
Definition best_of (w : list Q) (S : N) (clique : list nat) : Q * option nat :=
  fold_left (fun b v => if bmem S v && negb (Qle_bool (get w v) (fst b)) then (get w v, Some v) else b) clique (0%Q, None).
(** lines 214-234; x is the 0/1 vector *)
Definition solveClique (w : list Q) (S : N) : Q * list Z :=
  fold_left (fun r c => let b := best_of w S c in (Qred (fst r + fst b)%Q, match snd b with Some v => upd (snd r) v 1%Z | None => snd r end))
    (q_cliques part) (0%Q, repeat 0%Z (nv + 1)).
Definition xat (x : list Z) (i : nat) : Z := nth i x 0%Z.
(** lines 246-258: the multipliers and whether no edge was violated *)
Definition updateMultipliers (lam : pairmap) (x : list Z) (alpha : Q) (edges : list (nat * nat)) : pairmap * bool :=
  fold_left (fun r e =>
    let g := (xat x (fst e) + xat x (snd e) - 1)%Z in
    let l := qmax 0 (Qred (lget (fst r) e + alpha * inject_Z g)%Q) in
    (if Qeq_bool l 0%Q then lerase (fst r) e else lset (fst r) e l, snd r && negb (0 <? g)%Z)) edges (lam, true).
(** line 353 *)
Definition gradient (x : list Z) (edges : list (nat * nat)) : nat := length (filter (fun e => (xat x (fst e) =? xat x (snd e))%Z) edges).
(** lines 321-327 and 334-335 *)
Definition lagWeights (lam : pairmap) (edges : list (nat * nat)) : list Q := fold_left (fun w e => lower w e (lget lam e)) edges warr.
Definition lamSum (lam : pairmap) (edges : list (nat * nat)) : Q := qsum (map (lget lam) edges).
Definition qmin (a b : Q) : Q := if Qle_bool a b then a else b.
(** lines 319-395: [rounds] are left; [dual] is dualBound, None the initial numeric_limits::max(); [unch] is unchanged_iters.  0.1*maxIter is taken exactly *)
Fixpoint dual_loop (rounds : nat) (first : bool) (maxIter : nat) (alpha0 : Q) (edges : list (nat * nat)) (S : N) (lam : pairmap) (dual : option Q) (unch : nat)
  : option Q * pairmap :=
  match rounds with
  | O => (dual, lam)
  | Datatypes.S r =>
    let (p0, x) := solveClique (lagWeights lam edges) S in
    let p := Qred (p0 + lamSum lam edges)%Q in
    let low d := Some (match d with Some q => qmin q p | None => p end) in
    let dual1 := if first then low dual else dual in
    let g := gradient x edges in
    if g =? 0 then (dual1, lam)
    else
      let (lam1, ok) := updateMultipliers lam x (alpha0 / inject_Z (Z.of_nat g))%Q edges in
      if ok then (low dual1, lam1)
      else if (match dual1 with Some q => negb (Qle_bool q p) | None => true end) then dual_loop r false maxIter alpha0 edges S lam1 (Some p) 0
      else if maxIter <? 10 * (unch + 1) then (dual1, lam1)
      else dual_loop r false maxIter alpha0 edges S lam1 dual1 (unch + 1)
  end.
(** lines 275-399: the new multipliers, and the bound; None: without a round the initial value of dualBound is returned.  Line 305 divides by 0 when there are
    no edges; the quotient (infinity) is not used then. *)
Definition lagrangianDual (maxIter : nat) (alpha0 : Q) (lam : pairmap) (reOpt : bool) (S : N) : option Z * pairmap :=
  let edges := edgeSet S in
  let init := (inject_Z (Z.of_nat nc) / inject_Z (Z.of_nat (length edges)))%Q in
  let lam0 := if reOpt then lam else fold_left (fun l e => lset l e (Qred ((1 # 100) * init)%Q)) edges lam in
  let (d, lam1) := dual_loop maxIter true maxIter alpha0 edges S lam0 None 0 in
  (option_map (fun q => Qfloor (q + eps)%Q) d, lam1).

(** ** main *)
(** lines 497-532: the closures of misp4.cpp, without a local bound *)
Definition lag_base : prob misp4 := relocal (misp4p nv es weight) None.
(** lines 538-540, LBopt = 1.  LBopt = 0 (535-537) is misp4.cpp *)
Definition misp_clique : prob misp4 := relocal (misp4p nv es weight) (Some (fun s _ => cliqueBound (q_sel s))).
(** lines 547-548 and 543-545, LBopt = 2 *)
Definition lag_dd (lam : pairmap) (s : misp4) : Z := lagBound lam (q_sel s).
Definition lag_bb (lam : pairmap) (s : misp4) : Z * pairmap :=
  let (d, lam1) := lagrangianDual 50 1 lam true (q_sel s) in (match d with Some z => z | None => 0%Z end, lam1).
(** lines 483-489: the multipliers before the search *)
Definition lag_start : pairmap := snd (lagrangianDual (N.to_nat (N.min (50 * N.of_nat nv) 100000)) 1 [] false (bfull nv)).
End Lag.
