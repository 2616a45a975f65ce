(** Models of examples/gruler.cpp, gruler_mid.cpp and gruler_midlb.cpp (Golomb rulers) as problems for the engine.  The sets of marks and distances
    (NatSet<4>, NatSet<6>) are bit masks of type N as in TspModel.v, here without a limit on the elements; the model with the 4-word sets of the code is
    at the end.  The label function reads the primal bound of the running search: here it is a parameter [b], the value of (int)bnds.getPrimal() while
    one diagram is compiled.  The table OPT of the code is a parameter too. *)
From Verif Require Import Base BitModel SetModel SubModel DDModel TspModel.
Local Open Scope Z_scope.

(** gruler.cpp:52-84 OPT (the same in gruler_mid.cpp; gruler_midlb.cpp:55-76 stops at 19); std::map yields 0 for the other keys *)
Definition opt_table : list Z :=
  [0; 0; 1; 3; 6; 11; 17; 25; 34; 44; 55; 72; 85; 106; 127; 151; 177; 199; 216; 246; 283; 333; 356; 372; 425; 480; 492; 553; 585; 586; 588].
Definition OPT (k : Z) : Z := if k <? 0 then 0 else nth (Z.to_nat k) opt_table 0.
Definition OPT19 (k : Z) : Z := if k <? 0 then 0 else nth (Z.to_nat k) (firstn 20 opt_table) 0.

(** gruler.cpp:17-25 SGRuler: marks, distances, number of marks, last mark *)
Record ruler := mkR { r_m : N; r_d : N; r_k : Z; r_e : Z }.
(** gruler.cpp:27-31: the distances are not compared *)
Definition ruler_eqb (a c : ruler) : bool := (r_k a =? r_k c) && (r_e a =? r_e c) && (r_m a =? r_m c)%N.

(** not in the code: an equality that compares the distances too *)
Definition ruler_eqb2 (a c : ruler) : bool := ruler_eqb a c && (r_d a =? r_d c)%N.

(** membership of an integer *)
Definition imem (s : N) (v : Z) : bool := (0 <=? v) && bmem s (Z.to_nat v).
(** the members in increasing order *)
Definition members (s : N) : list Z := map Z.of_nat (blist (N.size_nat s) s).
(** the set with the given members *)
Definition setOf (l : list Z) : N := fold_left (fun s v => badd s (Z.to_nat v)) l 0%N.
(** l - s: src/util.hpp:160-260, 398 as specified by C30 *)
Definition refl (l : Z) (s : N) : N := setOf (map (fun i => l - i) (members s)).
(** Range::closeInc(lb,ub) as the engine enumerates it (src/util.hpp:114, C31) *)
Definition closeInc (lb ub : Z) : list Z := map (fun i => lb + Z.of_nat i) (seq 0 (Z.to_nat (ub + 1 - lb))).

Section Ruler.
(** number of marks, length limit (gruler.cpp:48-49), table, primal bound *)
Variables (n L : Z) (opt : Z -> Z) (b : Z).

(** gruler.cpp:88-93 *)
Definition ru_init : ruler := mkR (setOf [0]) 0 1 0.
Definition ru_target : ruler := mkR 0 0 n 0.
(** gruler.cpp:96-100: std::ceil is applied to an int *)
Definition ru_lb (e0 k : Z) : Z :=
  let lb := Z.max e0 (k * (k - 1) / 2) in if k <? n - 1 then Z.max lb (opt (k + 1)) else Z.max lb (opt k + 1).
(** gruler.cpp:95 *)
Definition ru_ub (k : Z) : Z := Z.min (b - opt (n - k) - 1) (L + 1 - opt (n - k)).
(** gruler.cpp:94-102, for an upper limit [ub] on the labels of a state with k marks *)
Definition ru_lgf (ub : Z -> Z) (s : ruler) : list Z := closeInc (ru_lb (r_e s + 1) (r_k s)) (ub (r_k s)).
(** gruler.cpp:104 *)
Definition ru_illegal (s : ruler) (label : Z) : bool := existsb (fun i => imem (r_d s) (label - i)) (members (r_m s)).
(** gruler.cpp:109 *)
Definition ru_next (s : ruler) (label : Z) : ruler := mkR (N.lor (r_m s) (setOf [label])) (N.lor (refl label (r_m s)) (r_d s)) (r_k s + 1) label.
(** gruler.cpp:103-111 *)
Definition ru_stf (s : ruler) (label : Z) : option ruler :=
  if ru_illegal s label then None else if r_k s =? n - 1 then Some ru_target else Some (ru_next s label).
(** gruler.cpp:112-114 *)
Definition ru_scf (s : ruler) (label : Z) : Z := label - r_e s.
(** gruler.cpp:115-120 *)
Definition ru_smf (a c : ruler) : option ruler :=
  if (r_k a =? r_k c) && (r_e a =? r_e c) then Some (mkR (N.land (r_m a) (r_m c)) (N.land (r_d a) (r_d c)) (r_k a) (Z.min (r_e a) (r_e c))) else None.
(** gruler.cpp:121-123 *)
Definition ru_eqs (s : ruler) : bool := r_k s =? n.
(** gruler.cpp:127-135, for an upper limit on the labels and an equality of states *)
Definition gr_prob (ub : Z -> Z) (eqb : ruler -> ruler -> bool) : prob ruler :=
  mkProb ruler ru_init ru_target (ru_lgf ub) ru_stf ru_scf ru_smf ru_eqs None None true eqb.
Definition ru_prob : prob ruler := gr_prob ru_ub ruler_eqb.

(** ** gruler_mid.cpp: only the label function differs *)
(** gruler_mid.cpp:97-102 (gruler_midlb.cpp:90-95): the marks of the first half stay in the first half; n/2 and the halves are int divisions of numbers >= 0 *)
Definition mid_ub (k : Z) : Z :=
  if k <? n / 2 then Z.min (b / 2 - opt (n / 2 - k)) ((L + 1) / 2 - opt (n / 2 - k)) else Z.min (b - 1 - opt (n - k)) (L + 1 - opt (n - k)).
(** gruler_mid.cpp:96-111 *)
Definition mid_prob : prob ruler := gr_prob mid_ub ruler_eqb.
End Ruler.

(** ** gruler_midlb.cpp *)
(** gruler_midlb.cpp:17-26; sm: smallest unused distance *)
Record rulerL := mkRL { l_m : N; l_d : N; l_k : Z; l_e : Z; l_sm : Z }.
(** gruler_midlb.cpp:28-33: neither the distances nor sm are compared *)
Definition rulerL_eqb (a c : rulerL) : bool := (l_k a =? l_k c) && (l_e a =? l_e c) && (l_m a =? l_m c)%N.
(** gruler_midlb.cpp:117: while (d.contains(x)) x += 1.  The set has at most N.size_nat members, so the fuel is never used up. *)
Fixpoint unused (fuel : nat) (s : N) (x : Z) : Z := match fuel with O => x | S f => if imem s x then unused f s (x + 1) else x end.

Section RulerL.
Variables (n L : Z) (opt : Z -> Z) (b : Z).
(** gruler_midlb.cpp:83-88 *)
Definition ml_init : rulerL := mkRL (setOf [0]) 0 1 0 1.
Definition ml_target : rulerL := mkRL 0 0 n 0 (L + 1).
(** gruler_midlb.cpp:104-106 *)
Definition ml_legal (s : rulerL) (label : Z) : bool := (N.land (l_d s) (refl label (l_m s)) =? 0)%N.
(** gruler_midlb.cpp:89-110: the set of the legal labels, enumerated in increasing order *)
Definition ml_lgf (s : rulerL) : list Z :=
  filter (ml_legal s) (closeInc (ru_lb n opt (l_e s + l_sm s) (l_k s)) (mid_ub n L opt b (l_k s))).
(** gruler_midlb.cpp:111-121 *)
Definition ml_stf (s : rulerL) (label : Z) : option rulerL :=
  if l_k s =? n - 1 then Some ml_target
  else let dn := N.lor (refl label (l_m s)) (l_d s) in
       Some (mkRL (N.lor (l_m s) (setOf [label])) dn (l_k s + 1) label (unused (S (N.size_nat dn)) dn (l_sm s))).
(** gruler_midlb.cpp:122-124 *)
Definition ml_scf (s : rulerL) (label : Z) : Z := label - l_e s.
(** gruler_midlb.cpp:125-130 *)
Definition ml_smf (a c : rulerL) : option rulerL :=
  if (l_k a =? l_k c) && (l_e a =? l_e c)
  then Some (mkRL (N.land (l_m a) (l_m c)) (N.land (l_d a) (l_d c)) (l_k a) (Z.min (l_e a) (l_e c)) (Z.min (l_sm a) (l_sm c))) else None.
(** gruler_midlb.cpp:131-133 *)
Definition ml_eqs (s : rulerL) : bool := l_k s =? n.
(** gruler_midlb.cpp:137-147 *)
Definition ml_prob : prob rulerL := mkProb rulerL ml_init ml_target ml_lgf ml_stf ml_scf ml_smf ml_eqs None None true rulerL_eqb.
End RulerL.

(** ** gruler.cpp with the sets of the code: NatSet<4>, 4 words (SetModel.v, SubModel.v) *)
Record rulerW := mkRW { w_m : list N; w_d : list N; w_k : Z; w_e : Z }.
(** foldl over the members: acc || s.d.contains(label - i); contains is not called once acc is true *)
Fixpoint wr_illegal (d : list N) (label : Z) (ms : list Z) : res bool :=
  match ms with [] => Ok false | i :: r => do c <- ns_contains d (label - i) ; if c then Ok true else wr_illegal d label r end.
(** gruler.cpp:103-111 *)
Definition wr_stf (n : Z) (s : rulerW) (label : Z) : res (option rulerW) :=
  do ms <- ns_list (w_m s) ;
  do bad <- wr_illegal (w_d s) label ms ;
  if bad then Ok None
  else if w_k s =? n - 1 then Ok (Some (mkRW (ns_new 4) (ns_new 4) n 0))
  else do one <- ns_ofList 4 [label] ;
       do r <- ns_sub label (w_m s) ;
       Ok (Some (mkRW (ns_union (w_m s) one) (ns_union r (w_d s)) (w_k s + 1) label)).
(** gruler.cpp:27-31 and 33-40 (std::hash<int> of a nonnegative int is its value): the hash reads the distances, the equality does not *)
Definition wr_eqb (a c : rulerW) : bool := (w_k a =? w_k c) && (w_e a =? w_e c) && ns_eq (w_m a) (w_m c).
Definition wr_hash (s : rulerW) : N :=
  N.lor (N.lor (N.lor (wrotl (ns_hash (w_m s)) 20) (wrotl (ns_hash (w_d s)) 10)) (wrotl (Z.to_N (w_k s)) 8)) (Z.to_N (w_e s)).
(** gruler.cpp:115-120 *)
Definition wr_smf (a c : rulerW) : option rulerW :=
  if (w_k a =? w_k c) && (w_e a =? w_e c) then Some (mkRW (ns_inter (w_m a) (w_m c)) (ns_inter (w_d a) (w_d c)) (w_k a) (Z.min (w_e a) (w_e c))) else None.
(** gruler.cpp:88-90 *)
Definition wr_init : res rulerW := do z <- ns_ofList 4 [0] ; Ok (mkRW z (ns_new 4) 1 0).
(** the states along a label sequence *)
Fixpoint wr_run (n : Z) (s : rulerW) (ls : list Z) : res (option rulerW) :=
  match ls with [] => Ok (Some s) | l :: r => do o <- wr_stf n s l ; match o with Some s1 => wr_run n s1 r | None => Ok None end end.
