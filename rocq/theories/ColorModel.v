(** Models of examples/coloring.cpp, coloring2.cpp, coloring3.cpp and coloringtoy.cpp as problems for the engine.  Sets of colours and of vertices (GNSet) are bit masks as in
    TspModel.v: the operations used are those of SetModel.v on sets without the defects of C27, C28.  The label functions read the primal bound
    (bnds.getPrimal()), here the parameter [b]; SearchDyn.v models the search with such labels. *)
From Verif Require Import Base DDModel TspModel MispModel SetModel.

(** _tab[i] = x; nothing happens out of bounds (not reached: the indices are vertices) *)
Fixpoint upd {A} (l : list A) (i : nat) (x : A) : list A :=
  match l, i with [], _ => [] | _ :: r, O => x :: r | a :: r, S k => a :: upd r k x end.
(** Range::close(f,t) as the engine enumerates it (src/util.hpp:112, 86-99): upwards, or downwards when f > t *)
Definition rclose (f t : Z) : list Z :=
  if (f <=? t)%Z then map (fun i => f + Z.of_nat i)%Z (seq 0 (Z.to_nat (t + 1 - f)))
  else map (fun i => f - Z.of_nat i)%Z (seq 0 (Z.to_nat (f + 1 - t))).
(** operator== of FArray (src/util.hpp:976-983) *)
Fixpoint arr_eqb {A} (eqb : A -> A -> bool) (a b : list A) : bool :=
  match a, b with [], [] => true | x :: r, y :: q => eqb x y && arr_eqb eqb r q | _, _ => false end.

Section Color.
(** the instance: K vertices, edges (coloring.cpp:41-52), colours 1..UB (coloring.cpp:175-176: UB is K when the file gives none) *)
Variables (K : nat) (es : list (nat * nat)) (UB : nat).

(** coloring.cpp:202: the set {1..UB} *)
Definition co_labels : N := bdel (bfull (S UB)) 0.

(** ** coloring.cpp *)
(** coloring.cpp:14-26 COLOR = (s, last, vtx) *)
Record color := mkCol { co_s : list N; co_last : Z; co_vtx : nat }.
(** coloring.cpp:28-32 *)
Definition color_eqb (a c : color) : bool := (co_last a =? co_last c)%Z && (co_vtx a =? co_vtx c) && arr_eqb N.eqb (co_s a) (co_s c).
(** coloring.cpp:203-209 *)
Definition co_init : color := mkCol (repeat co_labels K) 0 0.
Definition co_target : color := mkCol [] 0 K.
(** coloring.cpp:210-215; without a bound ([None]) for the labels the bound does not cut *)
Definition co_lgf (b : option Z) (s : color) : list Z :=
  if K <=? co_vtx s then []
  else rclose 1 (match b with Some b => Z.min b (co_last s + 1) | None => co_last s + 1 end)%Z.
(** coloring.cpp:221-223: adj[v] is Instance::convert (64-70), adjs of MispModel.v *)
Definition co_strip (s : list N) (l : nat) (B : list N) (v : nat) : list N :=
  if bmem (nth v s 0%N) l then upd B v (bdel (nth v B 0%N) l) else B.
(** coloring.cpp:216-228, coloringtoy.cpp:83-97; [nb v] are the vertices that lose the colour given to v, in order *)
Definition co_stf (nb : nat -> list nat) (s : color) (label : Z) : option color :=
  if zmem (nth (co_vtx s) (co_s s) 0%N) label then
    if co_vtx s + 1 =? K then Some co_target
    else let l := Z.to_nat label in
         let B := fold_left (co_strip (co_s s) l) (nb (co_vtx s)) (co_s s) in
         Some (mkCol (upd B (co_vtx s) (badd 0 l)) (Z.max label (co_last s)) (co_vtx s + 1))
  else None.
(** coloring.cpp:221: all neighbours *)
Definition co_nb (v : nat) : list nat := blist K (adjs es v).
(** coloringtoy.cpp:86-89: the neighbours above v *)
Definition ct_nb (v : nat) : list nat :=
  filter (fun j => existsb (fun e => ((fst e =? v) && (snd e =? j)) || ((fst e =? j) && (snd e =? v))) es) (seq (v + 1) (K - (v + 1))).
(** coloring.cpp:229-231 *)
Definition co_scf (s : color) (label : Z) : Z := Z.max 0 (label - co_last s).
(** coloring.cpp:232-240 *)
Definition co_smf (a c : color) : option color :=
  if (co_last a =? co_last c)%Z && (co_vtx a =? co_vtx c)
  then Some (mkCol (fold_left (fun B i => upd B i (N.lor (nth i B 0%N) (nth i (co_s c) 0%N))) (seq 0 K) (co_s a)) (co_last a) (co_vtx a))
  else None.
(** coloring.cpp:241-243 *)
Definition co_eqs (s : color) : bool := co_vtx s =? K.
(** coloring.cpp:247-257, coloringtoy.cpp:116-124; the other closures of coloringtoy.cpp (66-82, 98-112) are those of coloring.cpp, with the colours 1..K *)
Definition cg_prob (nb : nat -> list nat) (b : option Z) : prob color :=
  mkProb color co_init co_target (co_lgf b) (co_stf nb) co_scf co_smf co_eqs None None true color_eqb.
Definition co_prob : option Z -> prob color := cg_prob co_nb.
Definition ct_prob : option Z -> prob color := cg_prob ct_nb.

(** ** coloring2.cpp and coloring3.cpp *)
(** coloring2.cpp:5-17 COLOR = (s, last, vtx), s the colours given so far, 0 for none.  The colours are unsigned short. *)
Record color2 := mkCol2 { c2_s : list nat; c2_last : Z; c2_vtx : nat }.
(** coloring2.cpp:19-23 *)
Definition color2_eqb (a c : color2) : bool := (c2_last a =? c2_last c)%Z && (c2_vtx a =? c2_vtx c) && arr_eqb Nat.eqb (c2_s a) (c2_s c).
(** coloring2.cpp:179-180 *)
Definition c2_init : color2 := mkCol2 (repeat 0 K) 0 0.
Definition c2_target : color2 := mkCol2 [] 0 K.
(** coloring3.cpp:70-71: the neighbours not above v (util.hpp removeAbove); coloring2.cpp keeps all of them *)
Definition c3_adj (v : nat) : N := N.land (adjs es v) (bfull (S v)).
(** coloring2.cpp:185-187 *)
Definition c2_forbid (s : list nat) (valid : N) (a : nat) : N := if nth a s 0 =? 0 then valid else bdel valid (nth a s 0).
(** coloring2.cpp:181-191 (coloring3.cpp:213-223): the labels in increasing order.  The test s.vtx >= K+1 is not modelled: labels are asked of states with
    vtx < K only (the target is never expanded); for vtx = K the code reads adj[K], past the end. *)
Definition c2_lgf (adj : nat -> N) (b : option Z) (s : color2) : list Z :=
  let valid := fold_left (c2_forbid (c2_s s)) (blist K (adj (c2_vtx s))) co_labels in
  let ub := (match b with Some b => Z.min b (c2_last s + 1) | None => c2_last s + 1 end)%Z in
  filter (fun l => l <=? ub)%Z (map Z.of_nat (blist (S UB) valid)).
(** coloring2.cpp:192-198; the colour is converted to unsigned short *)
Definition c2_stf (s : color2) (label : Z) : option color2 :=
  if c2_vtx s + 1 =? K then Some c2_target
  else Some (mkCol2 (upd (c2_s s) (c2_vtx s) (Z.to_nat (label mod 65536))) (Z.max label (c2_last s)) (c2_vtx s + 1)).
(** coloring2.cpp:199 *)
Definition c2_scf (s : color2) (label : Z) : Z := Z.max 0 (label - c2_last s).
(** coloring2.cpp:200-208 *)
Definition c2_smf (a c : color2) : option color2 :=
  if (c2_last a =? c2_last c)%Z && (c2_vtx a =? c2_vtx c)
  then Some (mkCol2 (fold_left (fun B i => upd B i (if nth i (c2_s a) 0 =? nth i (c2_s c) 0 then nth i (c2_s a) 0 else 0)) (seq 0 (c2_vtx a + 1)) (c2_s a))
         (c2_last a) (c2_vtx a))
  else None.
(** coloring2.cpp:209 *)
Definition c2_eqs (s : color2) : bool := c2_vtx s =? K.
(** coloring2.cpp:211-218 (coloring3.cpp:260-269) *)
Definition c2_prob (adj : nat -> N) (b : option Z) : prob color2 := mkProb color2 c2_init c2_target (c2_lgf adj b) c2_stf c2_scf c2_smf c2_eqs None None true color2_eqb.
End Color.

(** coloring.cpp:177-195 (coloring2.cpp:165-175, coloring3.cpp:179-198): what the callback tests, "CHECKER is ..."; the assertions are off in the default
    build.  An edge beyond the colouring would be an out-of-bounds read. *)
Definition co_check (es : list (nat * nat)) (inc : list Z) : res bool :=
  fold_left (fun r e => do ok <- r ;
    match nth_error inc (fst e), nth_error inc (snd e) with Some x, Some y => Ok (ok && negb (x =? y)%Z) | _, _ => Err UB end) es (Ok true).
(** coloringtoy.cpp:57-63 *)
Definition ct_es : list (nat * nat) := [(0, 3); (0, 4); (1, 2); (1, 3); (1, 4); (2, 4)].
