(** Models of examples/tsp_test2.cpp, tsp_test3.cpp, tsp_test4.cpp and tsptw.cpp: the travelling salesman with depot 0 and with local bounds.  Sets of
    cities are bit masks and distances exact integers as in TspModel.v (tsptw.cpp reads doubles: only integral ones are modelled; its time windows are
    read but not used, tsptw.cpp:118).  The container code inside the bounds is the verified one: Heap (HeapModel.v), UnionFind (UFModel.v), mergeSort
    (MSortModel.v). *)
From Verif Require Import Base HeapModel MSortModel UFModel DDModel TspModel.

Section Tour.
Variables (nv : nat) (d : nat -> nat -> Z).

(** ** the problem of tsp_test2.cpp, tsp_test4.cpp and tsptw.cpp.  The state is that of tsp.cpp; the component lb of tsp_test2.cpp is left out here (see
    [withlb] below). *)
(** tsp_test2.cpp:142-143, tsp_test4.cpp:218-219, tsptw.cpp:124-125 *)
Definition tz_init : tsp := mkTsp (badd 0 0) 0 0.
Definition tz_target : tsp := mkTsp (bfull nv) 0 nv.
(** tsp_test2.cpp:144-149, tsp_test4.cpp:220-225, tsptw.cpp:126-131 *)
Definition tz_lgf (s : tsp) : list Z :=
  if (Z.of_nat nv - 1 <=? Z.of_nat (t_h s))%Z then [0%Z] else map Z.of_nat (blist nv (N.ldiff (bfull nv) (t_s s))).
(** tsp_test2.cpp:150-155, tsp_test4.cpp:226-231, tsptw.cpp:132-137 *)
Definition tz_stf (s : tsp) (label : Z) : option tsp :=
  if (label =? 0)%Z then Some (mkTsp (bfull nv) 0 nv) else Some (mkTsp (badd (t_s s) (Z.to_nat label)) (Z.to_nat label) (S (t_h s))).
(** tsp_test2.cpp:156-158, tsp_test4.cpp:232-234, tsptw.cpp:138-140 *)
Definition tz_scf (s : tsp) (label : Z) : Z := d (t_e s) (Z.to_nat label).
(** tsp_test2.cpp:159-164, tsp_test4.cpp:235-244, tsptw.cpp:141-145; [mc]: the further condition of tsp_test4.cpp *)
Definition tz_smf (mc : tsp -> tsp -> bool) (a b : tsp) : option tsp :=
  if (t_e a =? t_e b) && (t_h a =? t_h b) && mc a b then Some (mkTsp (N.land (t_s a) (t_s b)) (t_e a) (t_h a)) else None.
(** tsp_test2.cpp:165, tsp_test4.cpp:245, tsptw.cpp:146 *)
Definition tz_eqs (s : tsp) : bool := (t_e s =? 0) && (t_h s =? nv).
(** the equality is that of tsp.cpp (tsp_test2.cpp:15-19, tsp_test4.cpp:14-18, tsptw.cpp:13-17) *)
Definition tz_prob (mc : tsp -> tsp -> bool) (local : option (tsp -> bool -> Z)) : prob tsp :=
  mkProb tsp tz_init tz_target tz_lgf tz_stf tz_scf (tz_smf mc) tz_eqs local None true tsp_eqb.
(** tsp_test4.cpp:241: abs(s1.A.size() - s2.A.size()) < 5; the sets hold cities only *)
Definition near5 (a b : tsp) : bool := (Z.abs (Z.of_nat (length (blist nv (t_s a))) - Z.of_nat (length (blist nv (t_s b)))) <? 5)%Z.

(** ** the problem of tsp_test3.cpp *)
(** tsp_test3.cpp:5-14 TSP = (A, S, e, hops, lb) without lb *)
Record tsp3 := mkTsp3 { u_A : N; u_S : N; u_e : nat; u_h : nat }.
(** tsp_test3.cpp:16-20 *)
Definition tsp3_eqb (a b : tsp3) : bool := (u_e a =? u_e b) && (u_h a =? u_h b) && (u_A a =? u_A b)%N && (u_S a =? u_S b)%N.
(** tsp_test3.cpp:183-184 *)
Definition t3_init : tsp3 := mkTsp3 (badd 0 0) (badd 0 0) 0 0.
Definition t3_target : tsp3 := mkTsp3 (bfull nv) (bfull nv) 0 nv.
(** tsp_test3.cpp:185-195 *)
Definition t3_lgf (s : tsp3) : list Z :=
  if (Z.of_nat nv - 1 <=? Z.of_nat (u_h s))%Z then [0%Z]
  else if length (blist nv (u_S s)) =? u_h s + 1 then map Z.of_nat (blist nv (N.ldiff (bfull nv) (u_S s)))
  else map Z.of_nat (blist nv (N.ldiff (bfull nv) (u_A s))).
(** tsp_test3.cpp:196-201 *)
Definition t3_stf (s : tsp3) (label : Z) : option tsp3 :=
  if (label =? 0)%Z then Some (mkTsp3 (bfull nv) (bfull nv) 0 nv)
  else Some (mkTsp3 (badd (u_A s) (Z.to_nat label)) (badd (u_S s) (Z.to_nat label)) (Z.to_nat label) (S (u_h s))).
(** tsp_test3.cpp:202-204 *)
Definition t3_scf (s : tsp3) (label : Z) : Z := d (u_e s) (Z.to_nat label).
(** tsp_test3.cpp:205-211 *)
Definition t3_smf (a b : tsp3) : option tsp3 :=
  if (u_e a =? u_e b) && (u_h a =? u_h b) then Some (mkTsp3 (N.land (u_A a) (u_A b)) (N.lor (u_S a) (u_S b)) (u_e a) (u_h a)) else None.
(** tsp_test3.cpp:212 *)
Definition t3_eqs (s : tsp3) : bool := (u_e s =? 0) && (u_h s =? nv).
Definition t3_prob (local : option (tsp3 -> bool -> Z)) : prob tsp3 :=
  mkProb tsp3 t3_init t3_target t3_lgf t3_stf t3_scf t3_smf t3_eqs local None true tsp3_eqb.

(** ** the local bounds *)
(** (C - V).insert(src).insert(sink), with src the depot (tsp_test2.cpp:104, tsp_test3.cpp:106, 144, tsp_test4.cpp:152, 180, tsptw.cpp:94) *)
Definition tset (V : N) (sink : nat) : N := badd (badd (N.ldiff (bfull nv) V) 0) sink.
(** the cheapest arc from i to another city of t: the loop of tsp_test3.cpp:151-156, or min of util.hpp:807-816 (tsp_test4.cpp:187, tsptw.cpp:101);
    [inf] is the largest double or the largest int *)
Definition cheapest (inf : Z) (t : N) (i : nat) : Z :=
  fold_left (fun m j => if i =? j then m else if (m <? d i j)%Z then m else d i j) (blist nv t) inf.
Definition zsum (l : list Z) : Z := fold_right Z.add 0%Z l.
(** tsp_test3.cpp:139-165, tsp_test4.cpp:175-191, tsptw.cpp:89-105.  The array edge has t.size() cells, of which the first ne are written and sorted; reading
    further than that is undefined behaviour.  C.size() - hops is not negative: hops is at most nv. *)
Definition greedy (inf : Z) (V : N) (sink hops : nat) : res Z :=
  let t := tset V sink in
  let edge := msort_list Z.ltb 0%Z (map (cheapest inf t) (filter (fun i => negb (i =? 0)) (blist nv t))) in
  let ts := nv - hops in
  if ts <=? length edge then Ok (zsum (firstn ts edge)) else Err UB.

(** tsp_test2.cpp:37-46 GE = (a, b, w) *)
Record ge := mkGE { g_a : nat; g_b : nat; g_w : Z }.
(** tsp_test2.cpp:110-113: the arcs between different cities of t *)
Definition arcs (t : list nat) : list ge := flat_map (fun a => flat_map (fun b => if a =? b then [] else [mkGE a b (d a b)]) t) t.
(** tsp_test2.cpp:110 *)
Definition ge_lt (x y : ge) : bool := (g_w x <? g_w y)%Z.
(** tsp_test2.cpp:106-107: vm maps the i-th city of t to the i-th set made *)
Fixpoint index (t : list nat) (v : nat) : nat := match t with [] => 0 | x :: r => if x =? v then 0 else S (index r v) end.
Definition makeSets (k : nat) : uf := Nat.iter k (fun u => snd (u_makeSet u)) u_new.
(** tsp_test2.cpp:117-124; tsp_test4.cpp:165-172 also stops when the heap is empty ([guard]).  The two finds are unsequenced in the code; their order does not
    matter, they only compress paths. *)
Fixpoint mst_loop (guard : bool) (fuel : nat) (vm : nat -> nat) (ts : nat) (pq : heap ge) (u : uf) (ne : nat) (l : Z) : res Z :=
  if ne =? ts then Ok l
  else if guard && heap_empty pq then Ok l
  else match fuel with
  | O => Err OutOfFuel
  | S f =>
    match heap_extractMax ge_lt pq with
    | None => Err UB
    | Some (e, pq) =>
      do (u, same) <- u_same u (vm (g_a e)) (vm (g_b e)) ;
      if same then mst_loop guard f vm ts pq u ne l
      else do (u, _) <- u_merge (S (u_n u)) u (vm (g_a e)) (vm (g_b e)) ; mst_loop guard f vm ts pq u (S ne) (l + g_w e)%Z
    end
  end.
(** tsp_test2.cpp:102-126, tsp_test4.cpp:150-173 (tsp_test3.cpp:104-126 is not called) *)
Definition mst (guard : bool) (V : N) (sink hops : nat) : res Z :=
  let t := blist nv (tset V sink) in
  let pq := fold_left (fun h e => fst (heap_insert (mkGE 0 0 0) h e)) (arcs t) (heap_new (mkGE 0 0 0) (length t * length t)) in
  mst_loop guard (S (length (arcs t))) (index t) (nv - hops) (heap_buildHeap ge_lt pq) (makeSets (length t)) 0 0%Z.

(** ** the states with the component lb, which tsp_test2.cpp:5-19 and tsp_test3.cpp:5-20 carry along (the equality does not compare it) *)
Record withlb (T : Type) := mkLb { lb_t : T; lb_v : Z }.
Arguments mkLb {T}. Arguments lb_t {T}. Arguments lb_v {T}.
(** tsp_test2.cpp:142-165 and tsp_test3.cpp:183-212 with lb *)
Definition l2_init : withlb tsp := mkLb tz_init 0%Z.
Definition l2_target : withlb tsp := mkLb tz_target 0%Z.
Definition l2_stf (s : withlb tsp) (label : Z) : option (withlb tsp) :=
  if (label =? 0)%Z then Some (mkLb (mkTsp (bfull nv) 0 nv) 0%Z)
  else Some (mkLb (mkTsp (badd (t_s (lb_t s)) (Z.to_nat label)) (Z.to_nat label) (S (t_h (lb_t s)))) (lb_v s + d (t_e (lb_t s)) (Z.to_nat label))%Z).
Definition l2_smf (a b : withlb tsp) : option (withlb tsp) :=
  if (t_e (lb_t a) =? t_e (lb_t b)) && (t_h (lb_t a) =? t_h (lb_t b))
  then Some (mkLb (mkTsp (N.land (t_s (lb_t a)) (t_s (lb_t b))) (t_e (lb_t a)) (t_h (lb_t a))) (Z.min (lb_v a) (lb_v b))) else None.
Definition l3_init : withlb tsp3 := mkLb t3_init 0%Z.
Definition l3_target : withlb tsp3 := mkLb t3_target 0%Z.
Definition l3_stf (s : withlb tsp3) (label : Z) : option (withlb tsp3) :=
  if (label =? 0)%Z then Some (mkLb (mkTsp3 (bfull nv) (bfull nv) 0 nv) 0%Z)
  else Some (mkLb (mkTsp3 (badd (u_A (lb_t s)) (Z.to_nat label)) (badd (u_S (lb_t s)) (Z.to_nat label)) (Z.to_nat label) (S (u_h (lb_t s))))
                  (lb_v s + d (u_e (lb_t s)) (Z.to_nat label))%Z).
Definition l3_smf (a b : withlb tsp3) : option (withlb tsp3) :=
  if (u_e (lb_t a) =? u_e (lb_t b)) && (u_h (lb_t a) =? u_h (lb_t b))
  then Some (mkLb (mkTsp3 (N.land (u_A (lb_t a)) (u_A (lb_t b))) (N.lor (u_S (lb_t a)) (u_S (lb_t b))) (u_e (lb_t a)) (u_h (lb_t a))) (Z.min (lb_v a) (lb_v b))) else None.
(** the other closures and the equality do not look at lb *)
Definition l_prob {T} (P : prob T) (init target : withlb T) stf smf : prob (withlb T) :=
  mkProb (withlb T) init target (fun s => p_labels P (lb_t s)) stf (fun s l => p_cost P (lb_t s) l) smf (fun s => p_eqs P (lb_t s))
    (match p_local P with Some f => Some (fun s c => f (lb_t s) c) | None => None end) None true (fun a b => p_eqb P (lb_t a) (lb_t b)).

(** the largest double (as an integer) and the largest int *)
Definition dmax : Z := (2 ^ 1024 - 2 ^ 971)%Z.
Definition imax : Z := 2147483647%Z.
(** tsp_test2.cpp:166-168, tsp_test4.cpp:246-252, tsptw.cpp:147-150, tsp_test3.cpp:213-217.  [junk] is what an undefined evaluation yields. *)
Definition or_junk (junk : Z) (r : res Z) : Z := match r with Ok v => v | Err _ => junk end.
Definition t2_local (junk : Z) (s : tsp) (_ : bool) : Z := or_junk junk (mst false (t_s s) (t_e s) (t_h s)).
Definition t4_local (junk : Z) (s : tsp) (_ : bool) : Z :=
  or_junk junk (do a <- mst true (t_s s) (t_e s) (t_h s) ; do b <- greedy imax (t_s s) (t_e s) (t_h s) ; Ok (Z.max a b)).
Definition tw_local (junk : Z) (s : tsp) (_ : bool) : Z := or_junk junk (greedy imax (t_s s) (t_e s) (t_h s)).
Definition t3_local (junk : Z) (s : tsp3) (_ : bool) : Z := or_junk junk (greedy dmax (u_A s) (u_e s) (u_h s)).
(** the four programs *)
Definition t2_prob junk := tz_prob (fun _ _ => true) (Some (t2_local junk)).
Definition t3_probj junk := t3_prob (Some (t3_local junk)).
Definition t4_prob junk := tz_prob near5 (Some (t4_local junk)).
Definition tw_prob junk := tz_prob (fun _ _ => true) (Some (tw_local junk)).
(** tsp_test2.cpp and tsp_test3.cpp with lb *)
Definition t2_full junk := l_prob (t2_prob junk) l2_init l2_target l2_stf l2_smf.
Definition t3_full junk := l_prob (t3_probj junk) l3_init l3_target l3_stf l3_smf.
End Tour.
