(** Model of what branch and bound reports while it runs: src/search.cpp:77-91.  Executable definitions only. *)
From Verif Require Import Base HeapModel DDModel SearchModel.
From Coq Require Import QArith Qabs.

(** src/search.cpp:78, 84-86: the gap column.  Simplification: the quotient of doubles is a rational number, not rounded and printed with all its
    digits.  With a primal of 0 the quotient is infinite (and printed as "-", since inf > 100) or, if the dual is 0 too, NaN. *)
Inductive gap := Dash | NaN | Pct (g : Q).
Definition gap_of (primal dual : Z) : gap :=
  if (primal =? 0)%Z then if (dual =? 0)%Z then NaN else Dash
  else let g := (inject_Z (100 * Z.abs (primal - dual)) / inject_Z primal)%Q in
       if Qlt_le_dec 100 g then Dash else Pct g.

(** src/search.cpp:79-88: one progress line without the time.  [None] in the dual column is the "-" of line 81. *)
Record pline := mkPL { pl_n : nat; pl_dual : option Z; pl_primal : Z; pl_gap : gap }.

Section Progress.
Context {St : Type}.
Variable P : prob St.
Variable srt : dd St -> list nat -> list nat.
Variable dfuel : nat.
Variable lim : nat -> bool.
(** src/search.cpp:77 fl > 5000 at the k-th extraction *)
Variable late : nat -> bool.

Definition progress (s : @sst St) (dual : Z) : pline :=
  mkPL (s_nNode s) (if (dual =? initialWorst P)%Z then None else Some dual) (b_primal (s_b s)) (gap_of (b_primal (s_b s)) dual).

(** src/search.cpp:93-188: SearchModel.bb_node with the flag primalBetter (lines 93 and 117) *)
Definition bb_nodeP (mxw : nat) (s : sst) (q : qnode) : res (sst * bool) :=
  let ttl := S (s_ttl s) in
  if negb (isBetter P (snd q) (b_primal (s_b s)))
  then Ok (run_upd s (s_b s) (s_relaxed s) (s_restr s) (s_nNode s) ttl (s_hist s), false)
  else
    let from := pool_node P (s_pool s) (fst q) in
    let nNode := S (s_nNode s) in
    do (d1, b1, dualBetter) <- apply P srt dfuel (SRelaxed (s_w s)) (s_relaxed s) from (s_b s) ;
    if dualBetter then
      do (d2, b2, primalBetter) <- apply P srt dfuel (SRestricted mxw) (s_restr s) from b1 ;
      if negb (d_exact d2) && negb (d_exact d1) then
        do cs <- computeCutSet d1 ;
        do s1 <- cut_loop P d1 (run_upd s b2 d1 d2 nNode ttl ((d1, b_primal b2) :: s_hist s)) cs ;
        Ok (s1, primalBetter)
      else Ok (run_upd s b2 d1 d2 nNode ttl (s_hist s), primalBetter)
    else Ok (run_upd s b1 d1 (s_restr s) nNode ttl (s_hist s), false).

(** src/search.cpp:56-189 with the lines printed, first one first *)
Fixpoint bb_loopP (fuel mxw k : nat) (better : bool) (s : sst) : res (sst * ending * list pline) :=
  if heap_empty (s_pq s) then Ok (s, Emptied, [])
  else match fuel with
  | O => Err OutOfFuel
  | S f =>
    match heap_extractMax (q_ord P) (s_pq s) with
    | None => Err UB
    | Some (q, h) =>
      if lim k then Ok (popped s q h, Limited q, [])
      else
        let line := if better || late k then [progress s (snd q)] else [] in
        do (s1, b1) <- bb_nodeP mxw (popped s q h) q ;
        do (s2, e, ls) <- bb_loopP f mxw (S k) b1 s1 ;
        Ok (s2, e, line ++ ls)
    end
  end.
Definition searchP (fuel mxw : nat) (user : option Z) : res (sst * ending * list pline) := bb_loopP fuel mxw 0 false (bb_start P mxw user).
End Progress.
