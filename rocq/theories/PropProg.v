(** Properties C76 to C79: the programs from the instance file to the reported result. *)
From Coq Require Import Ascii.
From Verif Require Import Base DDModel SearchModel KnapModel TspModel TourModel TourTop MispModel ColorModel DDExamples DDRelaxedEnd SearchEx ReadModel ReadSpec ReadEx ProgModel ProgSpec ProgProofs ProgKnap ProgTsp ProgColor ProgEx.

(** ** C76: misp, misp2, misp3, misp4 and misp5 ([mprogram prog]) on DIMACS files: they end, *)
Theorem C76_misp_ends : forall ls t nv ne, dimacs ls t -> problems ls = [(nv, ne)] -> (1 <= nv < 2147483647)%Z -> (ne <= 2147483647)%Z ->
  Forall (fun e => 1 <= fst e <= nv /\ 1 <= snd e <= nv)%Z (edges1 ls) ->
  forall St (prog : nat -> list (nat * nat) -> (nat -> Z) -> prob St), mprogram prog ->
  forall srt dfuel w lim, (forall dd l, Permutation (srt dd l) l) -> Z.to_nat nv < dfuel -> (N.of_nat w < 4294967296)%N ->
  forall fuel, 2 ^ Z.to_nat nv * (Z.to_nat nv + 1) * (Z.to_nat nv + 1) + 1 <= fuel -> exists s e, main_misp srt dfuel lim fuel w prog (Some t) = Ok (s, e).
Proof. exact @misp_ends. Qed.
Print Assumptions C76_misp_ends.
(** report only sizes of independent sets of the file, *)
Theorem C76_misp_reports_sets : forall ls t nv ne, dimacs ls t -> problems ls = [(nv, ne)] -> (1 <= nv < 2147483647)%Z -> (ne <= 2147483647)%Z ->
  Forall (fun e => 1 <= fst e <= nv /\ 1 <= snd e <= nv)%Z (edges1 ls) ->
  forall St (prog : nat -> list (nat * nat) -> (nat -> Z) -> prob St), mprogram prog ->
  forall srt dfuel w lim, (forall dd l, Permutation (srt dd l) l) -> Z.to_nat nv < dfuel -> (N.of_nat w < 4294967296)%N ->
  forall fuel s e, main_misp srt dfuel lim fuel w prog (Some t) = Ok (s, e) -> b_primal (s_b s) <> (-2147483647)%Z ->
  exists S, dimacs_set nv ls S /\ b_primal (s_b s) = Z.of_nat (length S).
Proof. exact @misp_found. Qed.
Print Assumptions C76_misp_reports_sets.
(** and with a width that no layer exceeds the size of a largest one *)
Theorem C76_misp_maximum : forall ls t nv ne, dimacs ls t -> problems ls = [(nv, ne)] -> (1 <= nv < 2147483647)%Z -> (ne <= 2147483647)%Z ->
  Forall (fun e => 1 <= fst e <= nv /\ 1 <= snd e <= nv)%Z (edges1 ls) ->
  forall St (prog : nat -> list (nat * nat) -> (nat -> Z) -> prob St), mprogram prog ->
  forall srt dfuel w lim, (forall dd l, Permutation (srt dd l) l) -> Z.to_nat nv < dfuel -> (N.of_nat w < 4294967296)%N ->
  forall fuel, lim 0 = false -> 1 <= fuel -> 2 ^ Z.to_nat nv * (Z.to_nat nv + 1) * (Z.to_nat nv + 1) + 1 <= w ->
  exists s S, main_misp srt dfuel lim fuel w prog (Some t) = Ok (s, Emptied) /\ dimacs_set nv ls S /\ b_primal (s_b s) = Z.of_nat (length S) /\
    forall S', dimacs_set nv ls S' -> length S' <= length S.
Proof. exact @misp_best. Qed.
Print Assumptions C76_misp_maximum.
Example C76_case : exists s S, main_misp (exSrt (misp5 4 MispEnd.g5 (fun _ => 1%Z))) 20 nolim 1 500 misp5 (Some f_misp) = Ok (s, Emptied) /\ dimacs_set 4 l_misp S /\
  b_primal (s_b s) = Z.of_nat (length S) /\ 3 <= length S.
Proof.
  destruct (C76_misp_maximum l_misp f_misp 4 3 f_misp_ok eq_refl ltac:(lia) ltac:(lia) f_misp_edges _ misp5 mp_5 (exSrt (misp5 4 MispEnd.g5 (fun _ => 1%Z))) 20 500 nolim)
    with (fuel := 1) as (s & S & E & D & P & B); [intros; apply exSrt_perm|cbn; lia|lia|reflexivity|lia|cbn; lia|]. exists s, S.
  split; [exact E|]. split; [exact D|]. split; [exact P|]. exact (B _ (proj1 misp_wrong)).
Qed.
(** finding: with a smaller width not necessarily.  misp4, width 1, on a file with 4 vertices *)
Theorem C76_misp_maximum_refuted : dimacs l_misp f_misp /\ dimacs_set 4 l_misp [1; 2; 4]%Z /\
  exists s, main_misp (exSrt (misp4p 4 MispEnd.g5 (fun _ => 1%Z))) 20 nolim 100 1 misp4p (Some f_misp) = Ok (s, Emptied) /\ b_primal (s_b s) = 1%Z.
Proof. exact (conj f_misp_ok misp_wrong). Qed.
Print Assumptions C76_misp_maximum_refuted.

(** ** C77: knapsack.cpp *)
Theorem C77_knapsack_ends : forall capa items t tail, ints (knap_nums capa items) (nl :: t) -> no_digit tail -> items <> [] -> (0 <= capa)%Z ->
  Forall (fun i => 0 <= fst i /\ 0 <= snd i)%Z items ->
  forall srt dfuel w lim, (forall dd l, Permutation (srt dd l) l) -> length items + 1 < dfuel -> (N.of_nat w < 4294967296)%N ->
  forall fuel, length items * Z.to_nat (capa + 1) + 1 <= fuel -> exists s e, main_knap srt dfuel lim fuel w (Some (t ++ tail)) = Ok (s, e).
Proof. exact knap_ends. Qed.
Print Assumptions C77_knapsack_ends.
(** what is reported is the profit of a packing; the labels say which items are taken *)
Theorem C77_knapsack_reports_packings : forall capa items t tail, ints (knap_nums capa items) (nl :: t) -> no_digit tail -> items <> [] -> (0 <= capa)%Z ->
  Forall (fun i => 0 <= fst i /\ 0 <= snd i)%Z items ->
  forall srt dfuel w lim, (forall dd l, Permutation (srt dd l) l) -> length items + 1 < dfuel -> (N.of_nat w < 4294967296)%N ->
  forall fuel s e, main_knap srt dfuel lim fuel w (Some (t ++ tail)) = Ok (s, e) -> b_primal (s_b s) <> (-2147483647)%Z ->
  exists pick, packing capa items pick /\ b_primal (s_b s) = taken fst items pick /\ b_inc (s_b s) = map (fun b : bool => if b then 1%Z else 0%Z) pick.
Proof. exact knap_found. Qed.
Print Assumptions C77_knapsack_reports_packings.
Theorem C77_knapsack_best : forall capa items t tail, ints (knap_nums capa items) (nl :: t) -> no_digit tail -> items <> [] -> (0 <= capa)%Z ->
  Forall (fun i => 0 <= fst i /\ 0 <= snd i)%Z items ->
  forall srt dfuel w lim, (forall dd l, Permutation (srt dd l) l) -> length items + 1 < dfuel -> (N.of_nat w < 4294967296)%N ->
  forall fuel, lim 0 = false -> 1 <= fuel -> (capa + 1 <= Z.of_nat w)%Z -> (fold_right Z.add 0 (map fst items) <= 2147483647)%Z ->
  exists s pick, main_knap srt dfuel lim fuel w (Some (t ++ tail)) = Ok (s, Emptied) /\ packing capa items pick /\ b_primal (s_b s) = taken fst items pick /\
    b_inc (s_b s) = map (fun b : bool => if b then 1%Z else 0%Z) pick /\ forall q, packing capa items q -> (taken fst items q <= taken fst items pick)%Z.
Proof. exact knap_best. Qed.
Print Assumptions C77_knapsack_best.
Example C77_case : exists s pick, main_knap (exSrt (knapsack [2; 4; 6; 7]%Z [6; 10; 12; 13]%Z 11)) 20 nolim 1 12 (Some (ex_knap ++ [nl])) = Ok (s, Emptied) /\ packing 11 ex_items pick /\
  b_primal (s_b s) = taken fst ex_items pick /\ (23 <= taken fst ex_items pick)%Z.
Proof.
  destruct (C77_knapsack_best 11 ex_items ex_knap [nl] ex_knap_ok) with (srt := exSrt (knapsack [2; 4; 6; 7]%Z [6; 10; 12; 13]%Z 11)) (dfuel := 20) (w := 12) (lim := nolim) (fuel := 1)
    as (s & pick & E & A & B & _ & C); [cbn; lia|discriminate|lia|repeat (constructor; [cbn; lia|]); constructor|intros; apply exSrt_perm|cbn; lia|lia|reflexivity|lia|lia|cbn; lia|].
  exists s, pick. split; [exact E|]. split; [exact A|]. split; [exact B|]. apply (C [false; true; false; true]). split; [reflexivity|cbn; lia].
Qed.
(** findings on knapsack2.cpp: undefined behaviour when anything follows the last number of the file, even a newline, *)
Theorem C77_knapsack2_trailing_refuted : forall le capa items t tail, ints (knap_nums capa items) (nl :: t) -> no_digit tail -> forall srt dfuel w lim fuel,
  tail <> [] -> main_knap2 srt dfuel lim fuel w le (Some (t ++ tail)) = Err UB.
Proof. exact knap2_trailing. Qed.
Print Assumptions C77_knapsack2_trailing_refuted.
(** and when all items fit together; *)
Theorem C77_knapsack2_all_fit_refuted : forall le capa items t, ints (knap_nums capa items) (nl :: t) -> forall srt dfuel w lim fuel,
  items <> [] -> (0 <= capa)%Z -> Forall (fun i => 0 <= fst i /\ 0 <= snd i)%Z items -> (fold_right Z.add 0 (map snd items) <= capa)%Z ->
  main_knap2 srt dfuel lim fuel w le (Some t) = Err UB.
Proof. exact knap2_all_fit. Qed.
Print Assumptions C77_knapsack2_all_fit_refuted.
(** otherwise the result can be less than the best profit.  Width 2, file with 5 items *)
Theorem C77_knapsack2_best_refuted : ints (knap_nums 23 i_knap2) (nl :: f_knap2) /\
  packing 23 i_knap2 [false; true; true; false; false] /\ taken fst i_knap2 [false; true; true; false; false] = 31%Z /\
  exists s, main_knap2 (exSrt (knapsack2 [11; 13; 10; 8; 7]%Z [16; 18; 13; 6; 5]%Z 23 frac_double)) 20 nolim 100 2 ratio_le (Some f_knap2) = Ok (s, Emptied) /\ b_primal (s_b s) = 29%Z.
Proof. exact (conj f_knap2_ok knap2_wrong). Qed.
Print Assumptions C77_knapsack2_best_refuted.

(** ** C78: tsp.cpp.  [tsp_file n ds rfuel t]: t is a TSPLIB file of one of the two forms with n cities and the matrix ds; [cells_ok n hi ds]: n*n entries from 0 to hi,
    n*hi below the largest int *)
Theorem C78_tsp_ends : forall n hi ds rfuel t, tsp_file n ds rfuel t -> (2 <= n)%Z -> cells_ok n hi ds -> (n <= 18446744073709551615)%Z ->
  forall srt dfuel w lim, (forall dd l, Permutation (srt dd l) l) -> Z.to_nat n < dfuel -> (N.of_nat w < 4294967296)%N ->
  forall fuel, 2 ^ Z.to_nat n * Z.to_nat n * Z.to_nat n + 1 <= fuel -> exists s e, main_tsp srt dfuel lim fuel w tsp_prob rfuel (Some t) = Ok (s, e).
Proof. exact tsp_ends. Qed.
Print Assumptions C78_tsp_ends.
Theorem C78_tsp_reports_trips : forall n hi ds rfuel t, tsp_file n ds rfuel t -> (2 <= n)%Z -> cells_ok n hi ds -> (n <= 18446744073709551615)%Z ->
  forall srt dfuel w lim, (forall dd l, Permutation (srt dd l) l) -> Z.to_nat n < dfuel -> (N.of_nat w < 4294967296)%N ->
  forall fuel s e, main_tsp srt dfuel lim fuel w tsp_prob rfuel (Some t) = Ok (s, e) -> b_primal (s_b s) <> 2147483647%Z ->
  exists r, round_trip (Z.to_nat n) (1 :: r) /\ b_inc (s_b s) = map Z.of_nat (r ++ [1]) /\ b_primal (s_b s) = trip_length (full_entry (Z.to_nat n) ds) (1 :: r).
Proof. exact tsp_found. Qed.
Print Assumptions C78_tsp_reports_trips.
Theorem C78_tsp_shortest : forall n hi ds rfuel t, tsp_file n ds rfuel t -> (2 <= n)%Z -> cells_ok n hi ds -> (n <= 18446744073709551615)%Z ->
  forall srt dfuel w lim, (forall dd l, Permutation (srt dd l) l) -> Z.to_nat n < dfuel -> (N.of_nat w < 4294967296)%N ->
  forall fuel, lim 0 = false -> 1 <= fuel -> 2 ^ Z.to_nat n * Z.to_nat n * Z.to_nat n + 1 <= w ->
  exists s r, main_tsp srt dfuel lim fuel w tsp_prob rfuel (Some t) = Ok (s, Emptied) /\ round_trip (Z.to_nat n) (1 :: r) /\ b_inc (s_b s) = map Z.of_nat (r ++ [1]) /\
    b_primal (s_b s) = trip_length (full_entry (Z.to_nat n) ds) (1 :: r) /\
    forall t', round_trip (Z.to_nat n) t' -> (b_primal (s_b s) <= trip_length (full_entry (Z.to_nat n) ds) t')%Z.
Proof. exact tsp_best. Qed.
Print Assumptions C78_tsp_shortest.
Example C78_case : exists s r, main_tsp (exSrt (tsp_prob 5 (full_entry 5 m_tsp))) 20 nolim 1 1000 tsp_prob 200 (Some f_tsp) = Ok (s, Emptied) /\ round_trip 5 (1 :: r) /\
  b_primal (s_b s) = trip_length (full_entry 5 m_tsp) (1 :: r) /\ (b_primal (s_b s) <= 43)%Z.
Proof.
  destruct (C78_tsp_shortest 5 30 m_tsp 200 f_tsp) with (srt := exSrt (tsp_prob 5 (full_entry 5 m_tsp))) (dfuel := 20) (w := 1000) (lim := nolim) (fuel := 1) as (s & r & E & R & _ & P & B);
    [right; split; [exact f_tsp_ok|vm_compute; lia]|lia|exact f_tsp_cells|lia|intros; apply exSrt_perm|cbn; lia|lia|reflexivity|lia|cbn; lia|].
  exists s, r. split; [exact E|]. split; [exact R|]. split; [exact P|]. destruct tsp_wrong as (T & L & _). rewrite <- L. exact (B _ T).
Qed.
(** C78: the programs with depot 0 (tsp_test2 and tsp_test3 with their reader, tsp_test4 with its own reader, full matrix or lower half).  [junk] is the undefined value that
    the bound of the first node uses, assumed not to exceed the length of any trip (else C62).  [good_run n size lim w run d]: with enough fuel the run ends; it reports
    only lengths of round trips, with the cities in order; with a width of at least [size n] the shortest *)
Theorem C78_tour_programs : forall n hi junk size, (1 <= n <= 2147483647)%Z -> forall St (prog : nat -> (nat -> nat -> Z) -> prob St),
  (forall k d, tprogram k d junk (prog k d) (size k)) ->
  forall srt dfuel w lim rfuel, (forall dd l, Permutation (srt dd l) l) -> Z.to_nat n < dfuel -> (N.of_nat w < 4294967296)%N ->
  forall ds t, tsp_file n ds rfuel t -> cells_ok n hi ds -> (forall r, round_trip (Z.to_nat n) r -> (junk <= trip_length (full_entry (Z.to_nat n) ds) r)%Z) ->
  (forall fuel, size (Z.to_nat n) + 1 <= fuel -> exists s e, main_tsp srt dfuel lim fuel w prog rfuel (Some t) = Ok (s, e)) /\
  (forall fuel s e, main_tsp srt dfuel lim fuel w prog rfuel (Some t) = Ok (s, e) -> b_primal (s_b s) <> 2147483647%Z ->
    exists r, round_trip (Z.to_nat n) (0 :: r) /\ b_inc (s_b s) = map Z.of_nat (r ++ [0]) /\ b_primal (s_b s) = trip_length (full_entry (Z.to_nat n) ds) (0 :: r)) /\
  (forall fuel, lim 0 = false -> 1 <= fuel -> size (Z.to_nat n) <= w -> exists s, main_tsp srt dfuel lim fuel w prog rfuel (Some t) = Ok (s, Emptied) /\
    (exists r, round_trip (Z.to_nat n) (0 :: r) /\ b_inc (s_b s) = map Z.of_nat (r ++ [0]) /\ b_primal (s_b s) = trip_length (full_entry (Z.to_nat n) ds) (0 :: r)) /\
    forall t', round_trip (Z.to_nat n) t' -> (b_primal (s_b s) <= trip_length (full_entry (Z.to_nat n) ds) t')%Z).
Proof. exact @good_tsp. Qed.
Print Assumptions C78_tour_programs.
Theorem C78_test4_full : forall n hi junk size, (1 <= n <= 2147483647)%Z -> forall St (prog : nat -> (nat -> nat -> Z) -> prob St),
  (forall k d, tprogram k d junk (prog k d) (size k)) ->
  forall srt dfuel w lim rfuel, (forall dd l, Permutation (srt dd l) l) -> Z.to_nat n < dfuel -> (N.of_nat w < 4294967296)%N ->
  forall ds t, tsplib4 n WFull ds t -> length t < rfuel -> cells_ok n hi ds -> (forall r, round_trip (Z.to_nat n) r -> (junk <= trip_length (full_entry (Z.to_nat n) ds) r)%Z) ->
  (forall fuel, size (Z.to_nat n) + 1 <= fuel -> exists s e, main_tsp4 srt dfuel lim fuel w prog rfuel (Some t) = Ok (s, e)) /\
  (forall fuel s e, main_tsp4 srt dfuel lim fuel w prog rfuel (Some t) = Ok (s, e) -> b_primal (s_b s) <> 2147483647%Z ->
    exists r, round_trip (Z.to_nat n) (0 :: r) /\ b_inc (s_b s) = map Z.of_nat (r ++ [0]) /\ b_primal (s_b s) = trip_length (full_entry (Z.to_nat n) ds) (0 :: r)) /\
  (forall fuel, lim 0 = false -> 1 <= fuel -> size (Z.to_nat n) <= w -> exists s, main_tsp4 srt dfuel lim fuel w prog rfuel (Some t) = Ok (s, Emptied) /\
    (exists r, round_trip (Z.to_nat n) (0 :: r) /\ b_inc (s_b s) = map Z.of_nat (r ++ [0]) /\ b_primal (s_b s) = trip_length (full_entry (Z.to_nat n) ds) (0 :: r)) /\
    forall t', round_trip (Z.to_nat n) t' -> (b_primal (s_b s) <= trip_length (full_entry (Z.to_nat n) ds) t')%Z).
Proof. exact @good_tsp4. Qed.
Print Assumptions C78_test4_full.
Theorem C78_test4_lower : forall n hi junk size, (1 <= n <= 2147483647)%Z -> forall St (prog : nat -> (nat -> nat -> Z) -> prob St),
  (forall k d, tprogram k d junk (prog k d) (size k)) ->
  forall srt dfuel w lim rfuel, (forall dd l, Permutation (srt dd l) l) -> Z.to_nat n < dfuel -> (N.of_nat w < 4294967296)%N ->
  forall ds t, tsplib4 n WLowerDiag ds t -> length t < rfuel -> Z.of_nat (length ds) = (n * (n + 1) / 2)%Z -> Forall (fun x => 0 <= x <= hi)%Z ds -> (n * hi < 2147483647)%Z ->
  (forall r, round_trip (Z.to_nat n) r -> (junk <= trip_length (low_entry ds) r)%Z) ->
  (forall fuel, size (Z.to_nat n) + 1 <= fuel -> exists s e, main_tsp4 srt dfuel lim fuel w prog rfuel (Some t) = Ok (s, e)) /\
  (forall fuel s e, main_tsp4 srt dfuel lim fuel w prog rfuel (Some t) = Ok (s, e) -> b_primal (s_b s) <> 2147483647%Z ->
    exists r, round_trip (Z.to_nat n) (0 :: r) /\ b_inc (s_b s) = map Z.of_nat (r ++ [0]) /\ b_primal (s_b s) = trip_length (low_entry ds) (0 :: r)) /\
  (forall fuel, lim 0 = false -> 1 <= fuel -> size (Z.to_nat n) <= w -> exists s, main_tsp4 srt dfuel lim fuel w prog rfuel (Some t) = Ok (s, Emptied) /\
    (exists r, round_trip (Z.to_nat n) (0 :: r) /\ b_inc (s_b s) = map Z.of_nat (r ++ [0]) /\ b_primal (s_b s) = trip_length (low_entry ds) (0 :: r)) /\
    forall t', round_trip (Z.to_nat n) t' -> (b_primal (s_b s) <= trip_length (low_entry ds) t')%Z).
Proof. exact @good_tsp4_low. Qed.
Print Assumptions C78_test4_lower.
Example C78_tour_case : exists s, main_tsp4 (exSrt (t4_prob 3 (low_entry [0; 1; 0; 2; 3; 0]%Z) 0)) 20 nolim 1 100 (fun n d => t4_prob n d 0) 1000 (Some ex_low) = Ok (s, Emptied) /\
  forall t', round_trip 3 t' -> (b_primal (s_b s) <= trip_length (low_entry [0; 1; 0; 2; 3; 0]%Z) t')%Z.
Proof.
  destruct (C78_test4_lower 3 3 0 (fun k => 2 ^ k * k * k)) with (prog := fun n d => t4_prob n d 0%Z) (srt := exSrt (t4_prob 3 (low_entry [0; 1; 0; 2; 3; 0]%Z) 0)) (dfuel := 20) (w := 100) (lim := nolim)
    (rfuel := 1000) (ds := [0; 1; 0; 2; 3; 0]%Z) (t := ex_low) as (_ & _ & G);
    [lia|intros; apply tp_4|intros; apply exSrt_perm|cbn; lia|lia|exact ex_low_ok|vm_compute; lia|reflexivity|repeat (constructor; [lia|]); constructor|lia| |].
  - intros r R. refine (trip_nonneg 3 (low_entry [0; 1; 0; 2; 3; 0]%Z) 3 r _ R). intros i j Hi Hj.
    destruct i as [|[|[|i]]]; try lia; destruct j as [|[|[|j]]]; try lia; cbn; lia.
  - destruct (G 1) as (s & E & _ & B); [reflexivity|lia|cbn; lia|]. exists s. split; [exact E|exact B].
Qed.
(** finding: with a smaller width not necessarily the shortest.  tsp_test2, width 1, on a file with 5 cities *)
Theorem C78_shortest_refuted : tsp_file 5 m_tsp 200 f_tsp /\ round_trip 5 [0; 1; 4; 2; 3] /\ trip_length (full_entry 5 m_tsp) [0; 1; 4; 2; 3] = 43%Z /\
  exists s, main_tsp (exSrt (t2_prob 5 (full_entry 5 m_tsp) 0)) 40 nolim 400 1 (fun n d => t2_prob n d 0) 200 (Some f_tsp) = Ok (s, Emptied) /\ b_primal (s_b s) = 56%Z.
Proof. split; [right; split; [exact f_tsp_ok|vm_compute; lia]|exact tsp_wrong]. Qed.
Print Assumptions C78_shortest_refuted.

(** ** C79: coloring.cpp, coloring2.cpp and coloring3.cpp ([cprogram prog m]: the number of colours has to be below m).  [upper is nv]: the value K of the file, or the number
    of vertices *)
Theorem C79_colouring_ends : forall is t nv, pfile is t -> pN is = [nv] -> (1 <= nv <= 2147483647)%Z ->
  Forall (fun e => 0 <= fst e < nv /\ 0 <= snd e < nv)%Z (pE is) -> Forall (fun e => fst e <> snd e) (pE is) ->
  forall St (prog : nat -> list (nat * nat) -> nat -> option Z -> prob St) m, cprogram prog m -> (Z.of_nat (upper is nv) < m)%Z ->
  forall srt dfuel w lim, (forall dd l, Permutation (srt dd l) l) -> Z.to_nat nv + 1 < dfuel -> (N.of_nat w < 4294967296)%N ->
  forall fuel, S (upper is nv) ^ Z.to_nat nv + 1 <= fuel -> exists s e, main_color srt dfuel lim fuel w prog (Some t) = Ok (s, e).
Proof. exact @color_ends. Qed.
Print Assumptions C79_colouring_ends.
Theorem C79_reports_colourings : forall is t nv, pfile is t -> pN is = [nv] -> (1 <= nv <= 2147483647)%Z ->
  Forall (fun e => 0 <= fst e < nv /\ 0 <= snd e < nv)%Z (pE is) -> Forall (fun e => fst e <> snd e) (pE is) ->
  forall St (prog : nat -> list (nat * nat) -> nat -> option Z -> prob St) m, cprogram prog m -> (Z.of_nat (upper is nv) < m)%Z ->
  forall srt dfuel w lim, (forall dd l, Permutation (srt dd l) l) -> Z.to_nat nv + 1 < dfuel -> (N.of_nat w < 4294967296)%N ->
  forall fuel s e, main_color srt dfuel lim fuel w prog (Some t) = Ok (s, e) -> b_primal (s_b s) <> 2147483647%Z ->
  exists c k, file_colouring (pE is) c /\ colours_used nv c k /\ k <= upper is nv /\ b_primal (s_b s) = Z.of_nat k /\
    length (b_inc (s_b s)) = Z.to_nat nv /\ forall v, (0 <= v < nv)%Z -> c v = nth (Z.to_nat v) (b_inc (s_b s)) 0%Z.
Proof. exact @color_found. Qed.
Print Assumptions C79_reports_colourings.
Theorem C79_fewest_colours : forall is t nv, pfile is t -> pN is = [nv] -> (1 <= nv <= 2147483647)%Z ->
  Forall (fun e => 0 <= fst e < nv /\ 0 <= snd e < nv)%Z (pE is) -> Forall (fun e => fst e <> snd e) (pE is) ->
  forall St (prog : nat -> list (nat * nat) -> nat -> option Z -> prob St) m, cprogram prog m -> (Z.of_nat (upper is nv) < m)%Z ->
  forall srt dfuel w lim, (forall dd l, Permutation (srt dd l) l) -> Z.to_nat nv + 1 < dfuel -> (N.of_nat w < 4294967296)%N ->
  forall fuel, lim 0 = false -> 1 <= fuel -> S (upper is nv) ^ Z.to_nat nv + 1 <= w ->
  exists s, main_color srt dfuel lim fuel w prog (Some t) = Ok (s, Emptied) /\
    (forall c k, file_colouring (pE is) c -> colours_used nv c k -> k <= upper is nv -> (b_primal (s_b s) <= Z.of_nat k)%Z) /\
    ((exists c k, file_colouring (pE is) c /\ colours_used nv c k /\ k <= upper is nv) -> exists c k, file_colouring (pE is) c /\ colours_used nv c k /\ b_primal (s_b s) = Z.of_nat k).
Proof. exact @color_best. Qed.
Print Assumptions C79_fewest_colours.
Example C79_case : exists s, main_color (exSrt (co_prob 5 [(0, 1); (1, 3); (2, 3)] 5 None)) 40 nolim 1 8000 co_prob (Some f_col) = Ok (s, Emptied) /\ (b_primal (s_b s) <= 2)%Z.
Proof.
  destruct (C79_fewest_colours l_col f_col 5 f_col_ok eq_refl) with (prog := co_prob) (m := 2147483647%Z) (srt := exSrt (co_prob 5 [(0, 1); (1, 3); (2, 3)] 5 None)) (dfuel := 40) (w := 8000) (lim := nolim) (fuel := 1)
    as (s & E & B & _); [lia|apply Forall_forall; intros e He; vm_compute in He; destruct He as [<-|[<-|[<-|[]]]]; cbn; lia|apply Forall_forall; intros e He; vm_compute in He; destruct He as [<-|[<-|[<-|[]]]]; cbn; lia|exact cp_1|cbn; lia|intros; apply exSrt_perm|cbn; lia|vm_compute; reflexivity|reflexivity|lia|
      apply Nat.leb_le; vm_compute; reflexivity|].
  exists s. split; [exact E|]. destruct color_wrong as (A & U & _). apply (B two_col 2 A U). cbn. lia.
Qed.
(** finding: with a smaller width not necessarily.  coloring, width 1, on a file with 5 vertices *)
Theorem C79_fewest_colours_refuted : pfile l_col f_col /\ file_colouring (pE l_col) two_col /\ colours_used 5 two_col 2 /\
  exists s, main_color (exSrt (co_prob 5 [(0, 1); (1, 3); (2, 3)] 5 None)) 40 nolim 400 1 co_prob (Some f_col) = Ok (s, Emptied) /\ b_primal (s_b s) = 3%Z.
Proof. exact (conj f_col_ok color_wrong). Qed.
Print Assumptions C79_fewest_colours_refuted.
