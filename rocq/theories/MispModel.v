(** Models of examples/misp.cpp, misp2.cpp, misp3.cpp, misp4.cpp and misp5.cpp as problems for the engine.  Vertex sets (GNSet) are bit masks as in
    TspModel.v.  The examples give every vertex weight 1 (misp.cpp:140-142); here the weights are arbitrary integers.
    doc/CODD.org presents misp4.cpp. *)
From Verif Require Import Base DDModel TspModel.

(** misp.cpp:13-24 MISP = (sel, n, l) (the same in misp2, misp3 and misp5) *)
Record misp := mkM { m_sel : N; m_n : nat; m_l : Z }.
(** misp.cpp:26-32 *)
Definition misp_eqb (a b : misp) : bool := (m_sel a =? m_sel b)%N && (m_n a =? m_n b) && (m_l a =? m_l b)%Z.
(** misp4.cpp:3-9 MISP = (sel, n) *)
Record misp4 := mkM4 { q_sel : N; q_n : nat }.
(** misp4.cpp:11-15 *)
Definition misp4_eqb (a b : misp4) : bool := (q_n a =? q_n b) && (q_sel a =? q_sel b)%N.

(** the set with the given members *)
Definition bof (l : list nat) : N := fold_left badd l 0%N.

Section Misp.
(** the instance: number of vertices, edges (misp.cpp:53-58), weights *)
Variables (top : nat) (es : list (nat * nat)) (weight : nat -> Z).

(** misp.cpp:143-149: neighbors[i], a vertex counts as its own neighbour *)
Definition nbrs (i : nat) : N :=
  bof (filter (fun j => (j =? i) || existsb (fun e => ((fst e =? i) && (snd e =? j)) || ((fst e =? j) && (snd e =? i))) es) (seq 0 top)).
(** misp4.cpp (Instance::convert, as misp.cpp:63-70): adj[i] *)
Definition adjs (i : nat) : N :=
  fold_left (fun acc e => let acc1 := if fst e =? i then badd acc (snd e) else acc in if snd e =? i then badd acc1 (fst e) else acc1) es 0%N.
(** util.hpp:620-623 removeBelow(p): keep the members >= p *)
Definition bfrom (p : Z) (s : N) : N := N.ldiff s (bfull (Z.to_nat p)).
(** contains *)
Definition zmem (s : N) (v : Z) : bool := (0 <=? v)%Z && bmem s (Z.to_nat v).

(** ** misp.cpp *)
(** misp.cpp:151-160 *)
Definition m1_init : misp := mkM (bfull top) 0 (-1).
Definition m1_target : misp := mkM 0 0 0.
(** misp.cpp:161-166; the labels in increasing order *)
Definition m1_lgf (s : misp) : list Z :=
  let rv := bfrom (m_l s + 1) (m_sel s) in if (rv =? 0)%N then [Z.of_nat top] else map Z.of_nat (blist top rv).
(** misp.cpp:167-179 *)
Definition m1_stf (s : misp) (label : Z) : option misp :=
  if (label =? Z.of_nat top)%Z then Some (mkM 0 0 0)
  else let out := bfrom label (N.ldiff (m_sel s) (nbrs (Z.to_nat label))) in
       let empty := (out =? 0)%N in
       Some (mkM out (if empty then 0 else S (m_n s)) (if empty then 0%Z else label)).
(** misp.cpp:180-182; weight[top] = 0 *)
Definition m1_scf (s : misp) (label : Z) : Z := if (label =? Z.of_nat top)%Z then 0%Z else weight (Z.to_nat label).
(** misp.cpp:183-191 (the same in misp2.cpp:185-193 and misp3.cpp:178-186) *)
Definition m1_smf (a b : misp) : option misp :=
  if (m_l a =? m_l b)%Z then Some (mkM (N.lor (m_sel a) (m_sel b)) (Nat.min (m_n a) (m_n b)) (Z.min (m_l a) (m_l b))) else None.
(** misp.cpp:192-194 (the same in the other versions) *)
Definition m1_eqs (s : misp) : bool := (m_sel s =? 0)%N.
Definition misp1 : prob misp := mkProb misp m1_init m1_target m1_lgf m1_stf m1_scf m1_smf m1_eqs None None false misp_eqb.

(** ** misp2.cpp *)
(** misp2.cpp:158-160 (and 180-182, misp3.cpp:167-169): the next member from v on; [fuel] exceeds the number of rounds (top + 2 - v) *)
Fixpoint m_next (fuel : nat) (sel : N) (v : Z) : Z :=
  match fuel with O => v | S f => if negb (zmem sel v) && (v <=? Z.of_nat top)%Z then m_next f sel (v + 1) else v end.
Definition m2_v (s : misp) : Z := m_next (top + 2) (m_sel s) (m_l s + 1).
(** misp2.cpp:145-156: Range::close(0,1) enumerates 0, 1 *)
Definition m2_init : misp := mkM (bfull top) 0 (-1).
Definition m2_target : misp := mkM 0 0 (Z.of_nat top).
Definition m2_lgf (s : misp) : list Z := [0%Z; 1%Z].
(** misp2.cpp:157-178 *)
Definition m2_stf (s : misp) (label : Z) : option misp :=
  let v := m2_v s in
  if (v =? Z.of_nat top)%Z then if (m_sel s =? 0)%N then Some (mkM 0 0 (Z.of_nat top)) else None
  else let out := if (label =? 0)%Z then bdel (m_sel s) (Z.to_nat v) else N.ldiff (m_sel s) (nbrs (Z.to_nat v)) in
       let empty := (out =? 0)%N in
       Some (mkM out (if empty then 0 else S (m_n s)) (if empty then Z.of_nat top else v)).
(** misp2.cpp:179-184 *)
Definition m2_scf (s : misp) (label : Z) : Z := (label * weight (Z.to_nat (m2_v s)))%Z.
Definition misp2 : prob misp := mkProb misp m2_init m2_target m2_lgf m2_stf m2_scf m1_smf m1_eqs None None false misp_eqb.

(** ** misp3.cpp *)
(** misp3.cpp:145-156 *)
Definition m3_init : misp := mkM (bfull top) 0 0.
(** misp3.cpp:157-174 *)
Definition m3_stf (s : misp) (label : Z) : option misp :=
  if (Z.of_nat top <=? m_l s)%Z then if (m_sel s =? 0)%N then Some (mkM 0 0 (Z.of_nat top)) else None
  else let out1 := bdel (m_sel s) (Z.to_nat (m_l s)) in
       let out := if (label =? 0)%Z then out1 else N.ldiff out1 (nbrs (Z.to_nat (m_l s))) in
       let empty := (out =? 0)%N in
       let n := m_next (top + 2) out (m_l s + 1) in
       Some (mkM out (if empty then 0 else S (m_n s)) (if empty then Z.of_nat top else n)).
(** misp3.cpp:175-177 *)
Definition m3_scf (s : misp) (label : Z) : Z := (label * weight (Z.to_nat (m_l s)))%Z.
(** total weight of a list of vertices *)
Definition wsum (l : list nat) : Z := fold_right (fun v a => (weight v + a)%Z) 0%Z l.
(** misp3.cpp:190-195 *)
Definition m3_local (s : misp) (ctx : bool) : Z := wsum (filter (fun v => (m_l s <=? Z.of_nat v)%Z) (blist top (m_sel s))).
Definition misp3 : prob misp := mkProb misp m3_init m2_target m2_lgf m3_stf m3_scf m1_smf m1_eqs (Some m3_local) None false misp_eqb.

(** ** misp4.cpp *)
(** misp4.cpp:122-133 *)
Definition m4_init : misp4 := mkM4 (bfull top) 0.
Definition m4_target : misp4 := mkM4 0 top.
Definition m4_lgf (s : misp4) : list Z := [0%Z; 1%Z].
(** misp4.cpp:134-147 *)
Definition m4_stf (s : misp4) (label : Z) : option misp4 :=
  if top <=? q_n s then if (q_sel s =? 0)%N then Some (mkM4 0 top) else None
  else if negb (bmem (q_sel s) (q_n s)) && negb (label =? 0)%Z then None
  else let out1 := bdel (q_sel s) (q_n s) in
       let out := if (label =? 0)%Z then out1 else N.ldiff out1 (adjs (q_n s)) in
       Some (mkM4 out (if (out =? 0)%N then top else S (q_n s))).
(** misp4.cpp:148-150 *)
Definition m4_scf (s : misp4) (label : Z) : Z := (label * weight (q_n s))%Z.
(** misp4.cpp:151-153 *)
Definition m4_smf (a b : misp4) : option misp4 := Some (mkM4 (N.lor (q_sel a) (q_sel b)) (Nat.min (q_n a) (q_n b))).
(** misp4.cpp:154-156 *)
Definition m4_eqs (s : misp4) : bool := (q_sel s =? 0)%N.
(** misp4.cpp:157-159; sum: util.hpp:791-798 *)
Definition m4_local (s : misp4) (ctx : bool) : Z := wsum (blist top (q_sel s)).
Definition misp4p : prob misp4 := mkProb misp4 m4_init m4_target m4_lgf m4_stf m4_scf m4_smf m4_eqs (Some m4_local) None false misp4_eqb.

(** ** misp5.cpp *)
(** misp5.cpp:126-137 *)
Definition m5_init : misp := mkM (bfull top) 0 (-1).
Definition m5_target : misp := mkM 0 top 0.
(** misp5.cpp:138-160 *)
Definition m5_stf (s : misp) (label : Z) : option misp :=
  if negb (bmem (m_sel s) (m_n s)) && negb (label =? 0)%Z then None
  else let out1 := bdel (m_sel s) (m_n s) in
       let out := if (label =? 0)%Z then out1 else N.ldiff out1 (adjs (m_n s)) in
       let done := (out =? 0)%N in
       Some (mkM out (if done then top else S (m_n s)) (if done then 0%Z else Z.of_nat (m_n s))).
(** misp5.cpp:161-164 *)
Definition m5_scf (s : misp) (label : Z) : Z := (label * weight (m_n s))%Z.
(** misp5.cpp:165-169 *)
Definition m5_smf (a b : misp) : option misp :=
  if (m_l a =? m_l b)%Z then Some (mkM (N.lor (m_sel a) (m_sel b)) (Nat.min (m_n a) (m_n b)) (m_l a)) else None.
(** misp5.cpp:173-175 *)
Definition m5_local (s : misp) (ctx : bool) : Z := wsum (blist top (m_sel s)).
Definition misp5 : prob misp := mkProb misp m5_init m5_target m2_lgf m5_stf m5_scf m5_smf m1_eqs (Some m5_local) None false misp_eqb.

(** ** the solution checkers *)
(** misp.cpp:126-138 (the same in misp2-misp4, and the first half of misp5's): no edge has both ends flagged *)
Definition flagged (inc : list Z) (a : nat) : bool := match nth_error inc a with Some x => negb (x =? 0)%Z | None => false end.
Definition checker (inc : list Z) : bool := forallb (fun e => negb (flagged inc (fst e) && flagged inc (snd e))) es.
(** misp5.cpp:120-122: ttl += inc[i] * weight[i] for i < top; reading past the end of inc is undefined *)
Fixpoint m5_ttl (k i : nat) (inc : list Z) (ttl : Z) : res Z :=
  match k with O => Ok ttl | S k' => match nth_error inc i with Some x => m5_ttl k' (S i) inc (ttl + x * weight i) | None => Err UB end end.
Definition m5_sum (inc : list Z) : res Z := m5_ttl top 0 inc 0.
End Misp.
