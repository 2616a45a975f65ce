(** Property C83: whole programs with the double arithmetic of the engine.  [main_xF] is [main_x] with [dbl_add] for every addition of a bound and a cost (PropRound.v). *)
From Coq Require Import Ascii.
From Verif Require Import Base DDModel SearchModel KnapModel TspModel TourModel TourTop MispModel ColorModel DDExamples DDRelaxedEnd SearchEx ReadModel ReadSpec ReadEx ProgModel ProgSpec ProgProofs ProgKnap ProgTsp ProgColor ProgEx RoundModel RoundEx ProgRound.

(** misp, misp2, misp3, misp4 and misp5: nothing changes when every addition is rounded to a double *)
Theorem C83_misp_same : forall ls t nv ne, dimacs ls t -> problems ls = [(nv, ne)] -> (1 <= nv < 2147483647)%Z -> (ne <= 2147483647)%Z ->
  Forall (fun e => 1 <= fst e <= nv /\ 1 <= snd e <= nv)%Z (edges1 ls) ->
  forall St (prog : nat -> list (nat * nat) -> (nat -> Z) -> prob St), mprogram prog ->
  forall srt dfuel w lim, (forall dd l, Permutation (srt dd l) l) -> Z.to_nat nv < dfuel -> (N.of_nat w < 4294967296)%N ->
  forall fuel, main_mispF srt dfuel lim fuel w prog (Some t) = main_misp srt dfuel lim fuel w prog (Some t).
Proof. exact @misp_double. Qed.
Print Assumptions C83_misp_same.
(** knapsack.cpp, up to a million items *)
Theorem C83_knapsack_same : forall capa items t tail, ints (knap_nums capa items) (nl :: t) -> no_digit tail -> items <> [] -> (0 <= capa)%Z ->
  Forall (fun i => 0 <= fst i /\ 0 <= snd i)%Z items -> (Z.of_nat (length items) <= 1000000)%Z ->
  forall srt dfuel w lim, (forall dd l, Permutation (srt dd l) l) -> length items + 1 < dfuel -> (N.of_nat w < 4294967296)%N ->
  forall fuel, main_knapF srt dfuel lim fuel w (Some (t ++ tail)) = main_knap srt dfuel lim fuel w (Some (t ++ tail)).
Proof. exact @knap_double. Qed.
Print Assumptions C83_knapsack_same.
(** tsp.cpp *)
Theorem C83_tsp_same : forall n hi ds rfuel t, tsp_file n ds rfuel t -> (2 <= n)%Z -> cells_ok n hi ds -> (n <= 18446744073709551615)%Z ->
  forall srt dfuel w lim, (forall dd l, Permutation (srt dd l) l) -> Z.to_nat n < dfuel -> (N.of_nat w < 4294967296)%N ->
  forall fuel, main_tspF srt dfuel lim fuel w tsp_prob rfuel (Some t) = main_tsp srt dfuel lim fuel w tsp_prob rfuel (Some t).
Proof. exact @tsp_double. Qed.
Print Assumptions C83_tsp_same.
(** coloring.cpp, coloring2.cpp and coloring3.cpp *)
Theorem C83_colouring_same : forall is t nv, pfile is t -> pN is = [nv] -> (1 <= nv <= 2147483647)%Z ->
  Forall (fun e => 0 <= fst e < nv /\ 0 <= snd e < nv)%Z (pE is) -> Forall (fun e => fst e <> snd e) (pE is) ->
  forall St (prog : nat -> list (nat * nat) -> nat -> option Z -> prob St) m, cprogram prog m -> (Z.of_nat (upper is nv) < m)%Z ->
  forall srt dfuel w lim, (forall dd l, Permutation (srt dd l) l) -> Z.to_nat nv + 1 < dfuel -> (N.of_nat w < 4294967296)%N ->
  forall fuel, main_colorF srt dfuel lim fuel w prog (Some t) = main_color srt dfuel lim fuel w prog (Some t).
Proof. exact @color_double. Qed.
Print Assumptions C83_colouring_same.
(** so the theorems on the results hold: C76, C77, C78 and C79 with doubles *)
Theorem C83_misp_maximum : forall ls t nv ne, dimacs ls t -> problems ls = [(nv, ne)] -> (1 <= nv < 2147483647)%Z -> (ne <= 2147483647)%Z ->
  Forall (fun e => 1 <= fst e <= nv /\ 1 <= snd e <= nv)%Z (edges1 ls) ->
  forall St (prog : nat -> list (nat * nat) -> (nat -> Z) -> prob St), mprogram prog ->
  forall srt dfuel w lim, (forall dd l, Permutation (srt dd l) l) -> Z.to_nat nv < dfuel -> (N.of_nat w < 4294967296)%N ->
  forall fuel, lim 0 = false -> 1 <= fuel -> 2 ^ Z.to_nat nv * (Z.to_nat nv + 1) * (Z.to_nat nv + 1) + 1 <= w ->
  exists s S, main_mispF srt dfuel lim fuel w prog (Some t) = Ok (s, Emptied) /\ dimacs_set nv ls S /\ b_primal (s_b s) = Z.of_nat (length S) /\
    forall S', dimacs_set nv ls S' -> length S' <= length S.
Proof. exact @misp_bestF. Qed.
Print Assumptions C83_misp_maximum.
Theorem C83_knapsack_best : forall capa items t tail, ints (knap_nums capa items) (nl :: t) -> no_digit tail -> items <> [] -> (0 <= capa)%Z ->
  Forall (fun i => 0 <= fst i /\ 0 <= snd i)%Z items -> (Z.of_nat (length items) <= 1000000)%Z ->
  forall srt dfuel w lim, (forall dd l, Permutation (srt dd l) l) -> length items + 1 < dfuel -> (N.of_nat w < 4294967296)%N ->
  forall fuel, lim 0 = false -> 1 <= fuel -> (capa + 1 <= Z.of_nat w)%Z -> (fold_right Z.add 0 (map fst items) <= 2147483647)%Z ->
  exists s pick, main_knapF srt dfuel lim fuel w (Some (t ++ tail)) = Ok (s, Emptied) /\ packing capa items pick /\ b_primal (s_b s) = taken fst items pick /\
    b_inc (s_b s) = map (fun b : bool => if b then 1%Z else 0%Z) pick /\ forall q, packing capa items q -> (taken fst items q <= taken fst items pick)%Z.
Proof. exact @knap_bestF. Qed.
Print Assumptions C83_knapsack_best.
Theorem C83_tsp_shortest : forall n hi ds rfuel t, tsp_file n ds rfuel t -> (2 <= n)%Z -> cells_ok n hi ds -> (n <= 18446744073709551615)%Z ->
  forall srt dfuel w lim, (forall dd l, Permutation (srt dd l) l) -> Z.to_nat n < dfuel -> (N.of_nat w < 4294967296)%N ->
  forall fuel, lim 0 = false -> 1 <= fuel -> 2 ^ Z.to_nat n * Z.to_nat n * Z.to_nat n + 1 <= w ->
  exists s r, main_tspF srt dfuel lim fuel w tsp_prob rfuel (Some t) = Ok (s, Emptied) /\ round_trip (Z.to_nat n) (1 :: r) /\ b_inc (s_b s) = map Z.of_nat (r ++ [1]) /\
    b_primal (s_b s) = trip_length (full_entry (Z.to_nat n) ds) (1 :: r) /\
    forall t', round_trip (Z.to_nat n) t' -> (b_primal (s_b s) <= trip_length (full_entry (Z.to_nat n) ds) t')%Z.
Proof. exact @tsp_bestF. Qed.
Print Assumptions C83_tsp_shortest.
Theorem C83_fewest_colours : forall is t nv, pfile is t -> pN is = [nv] -> (1 <= nv <= 2147483647)%Z ->
  Forall (fun e => 0 <= fst e < nv /\ 0 <= snd e < nv)%Z (pE is) -> Forall (fun e => fst e <> snd e) (pE is) ->
  forall St (prog : nat -> list (nat * nat) -> nat -> option Z -> prob St) m, cprogram prog m -> (Z.of_nat (upper is nv) < m)%Z ->
  forall srt dfuel w lim, (forall dd l, Permutation (srt dd l) l) -> Z.to_nat nv + 1 < dfuel -> (N.of_nat w < 4294967296)%N ->
  forall fuel, lim 0 = false -> 1 <= fuel -> S (upper is nv) ^ Z.to_nat nv + 1 <= w ->
  exists s, main_colorF srt dfuel lim fuel w prog (Some t) = Ok (s, Emptied) /\
    (forall c k, file_colouring (pE is) c -> colours_used nv c k -> k <= upper is nv -> (b_primal (s_b s) <= Z.of_nat k)%Z) /\
    ((exists c k, file_colouring (pE is) c /\ colours_used nv c k /\ k <= upper is nv) -> exists c k, file_colouring (pE is) c /\ colours_used nv c k /\ b_primal (s_b s) = Z.of_nat k).
Proof. exact @color_bestF. Qed.
Print Assumptions C83_fewest_colours.
Example C83_misp_case : exists s S, main_mispF (exSrt (misp5 4 MispEnd.g5 (fun _ => 1%Z))) 20 nolim 1 500 misp5 (Some f_misp) = Ok (s, Emptied) /\ dimacs_set 4 l_misp S /\
  b_primal (s_b s) = Z.of_nat (length S) /\ 3 <= length S.
Proof.
  destruct (C83_misp_maximum l_misp f_misp 4 3 f_misp_ok eq_refl ltac:(lia) ltac:(lia) f_misp_edges _ misp5 mp_5 (exSrt (misp5 4 MispEnd.g5 (fun _ => 1%Z))) 20 500 nolim)
    with (fuel := 1) as (s & S & E & D & P & B); [intros; apply exSrt_perm|cbn; lia|lia|reflexivity|lia|cbn; lia|]. exists s, S.
  split; [exact E|]. split; [exact D|]. split; [exact P|]. exact (B _ (proj1 misp_wrong)).
Qed.
Example C83_knapsack_case : exists s pick, main_knapF (exSrt (knapsack [2; 4; 6; 7]%Z [6; 10; 12; 13]%Z 11)) 20 nolim 1 12 (Some (ex_knap ++ [nl])) = Ok (s, Emptied) /\ packing 11 ex_items pick /\
  b_primal (s_b s) = taken fst ex_items pick /\ (23 <= taken fst ex_items pick)%Z.
Proof.
  destruct (C83_knapsack_best 11 ex_items ex_knap [nl] ex_knap_ok) with (srt := exSrt (knapsack [2; 4; 6; 7]%Z [6; 10; 12; 13]%Z 11)) (dfuel := 20) (w := 12) (lim := nolim) (fuel := 1)
    as (s & pick & E & A & B & _ & C); [cbn; lia|discriminate|lia|repeat (constructor; [cbn; lia|]); constructor|cbn; lia|intros; apply exSrt_perm|cbn; lia|lia|reflexivity|lia|lia|cbn; lia|].
  exists s, pick. split; [exact E|]. split; [exact A|]. split; [exact B|]. apply (C [false; true; false; true]). split; [reflexivity|cbn; lia].
Qed.
Example C83_tsp_case : exists s r, main_tspF (exSrt (tsp_prob 5 (full_entry 5 m_tsp))) 20 nolim 1 1000 tsp_prob 200 (Some f_tsp) = Ok (s, Emptied) /\ round_trip 5 (1 :: r) /\
  b_primal (s_b s) = trip_length (full_entry 5 m_tsp) (1 :: r) /\ (b_primal (s_b s) <= 43)%Z.
Proof.
  destruct (C83_tsp_shortest 5 30 m_tsp 200 f_tsp) with (srt := exSrt (tsp_prob 5 (full_entry 5 m_tsp))) (dfuel := 20) (w := 1000) (lim := nolim) (fuel := 1) as (s & r & E & R & _ & P & B);
    [right; split; [exact f_tsp_ok|vm_compute; lia]|lia|exact f_tsp_cells|lia|intros; apply exSrt_perm|cbn; lia|lia|reflexivity|lia|cbn; lia|].
  exists s, r. split; [exact E|]. split; [exact R|]. split; [exact P|]. destruct tsp_wrong as (T & L & _). rewrite <- L. exact (B _ T).
Qed.
Example C83_colouring_case : exists s, main_colorF (exSrt (co_prob 5 [(0, 1); (1, 3); (2, 3)] 5 None)) 40 nolim 1 8000 co_prob (Some f_col) = Ok (s, Emptied) /\ (b_primal (s_b s) <= 2)%Z.
Proof.
  destruct (C83_fewest_colours l_col f_col 5 f_col_ok eq_refl) with (prog := co_prob) (m := 2147483647%Z) (srt := exSrt (co_prob 5 [(0, 1); (1, 3); (2, 3)] 5 None)) (dfuel := 40) (w := 8000) (lim := nolim) (fuel := 1)
    as (s & E & B & _); [lia|apply Forall_forall; intros e He; vm_compute in He; destruct He as [<-|[<-|[<-|[]]]]; cbn; lia|apply Forall_forall; intros e He; vm_compute in He; destruct He as [<-|[<-|[<-|[]]]]; cbn; lia|exact cp_1|cbn; lia|intros; apply exSrt_perm|cbn; lia|vm_compute; reflexivity|reflexivity|lia|
      apply Nat.leb_le; vm_compute; reflexivity|].
  exists s. split; [exact E|]. destruct color_wrong as (A & U & _). apply (B two_col 2 A U). cbn. lia.
Qed.
