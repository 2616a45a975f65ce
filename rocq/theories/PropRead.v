(** Properties C72 to C75: reading of instance files. *)
From Coq Require Import Ascii String Sorted.
From Verif Require Import Base TspModel MispModel MSortModel ReadModel ReadSpec ReadProofs ReadTerm ReadRun ReadTsp ReadEx.
Local Open Scope char_scope.
Local Open Scope nat_scope.
Local Open Scope list_scope.

(** ** C72: the DIMACS reader of the misp examples *)
(** every well-formed file gives its graph: number of vertices, edges in file order counted from 0, adjacency sets *)
Theorem C72_dimacs : forall ls t nv ne,
  dimacs ls t -> problems ls = [(nv, ne)] -> (nv < 2147483647)%Z -> (ne <= 2147483647)%Z ->
  Forall (fun e => 1 <= fst e <= nv /\ 1 <= snd e <= nv)%Z (edges1 ls) ->
  exists i, readMisp (Some t) = Ok i /\ in_nv i = nv /\ in_ne i = Some ne /\ in_edges i = edges0 ls /\
    (forall v, in_adj i v = adjs (map nat_edge (edges0 ls)) v).
Proof. exact readMisp_ok. Qed.
Print Assumptions C72_dimacs.
Example C72_dimacs_ex : exists i, readMisp (Some ex_dimacs) = Ok i /\ in_nv i = 3%Z /\ in_edges i = [(0, 1); (1, 2)]%Z.
Proof.
  destruct (C72_dimacs _ _ 3 2 ex_dimacs_ok eq_refl eq_refl) as (i & H1 & H2 & _ & H3 & _); [lia|repeat constructor; cbn; lia|]. exists i. auto.
Qed.

(** an edge with a vertex outside 1..nv+1: undefined behaviour *)
Theorem C72_bad_vertex : forall ls t nv ne,
  dimacs ls t -> Forall dm_small ls -> problems ls = [(nv, ne)] -> (nv < 2147483647)%Z ->
  Exists (fun e => ~ (1 <= fst e <= nv + 1 /\ 1 <= snd e <= nv + 1))%Z (edges1 ls) -> readMisp (Some t) = Err UB.
Proof. exact readMisp_bad_vertex. Qed.
Print Assumptions C72_bad_vertex.
Example C72_bad_vertex_ex : readMisp (Some ex_zero) = Err UB.
Proof. apply (C72_bad_vertex _ _ 3 1 ex_zero_ok); [repeat constructor; discriminate|reflexivity|reflexivity|]. apply Exists_exists. exists (0, 2)%Z. split; [now left|]. cbn. lia. Qed.

(** no character p in the file, or no file: undefined behaviour *)
Theorem C72_no_problem_line : forall t, ~ In "p" t -> readMisp (Some t) = Err UB.
Proof. exact readMisp_needs_p. Qed.
Print Assumptions C72_no_problem_line.
Example C72_no_problem_line_ex : readMisp (Some (chars "e 1 2")) = Err UB.
Proof. apply C72_no_problem_line. cbn. intuition discriminate. Qed.
Theorem C72_missing_file : readMisp None = Err UB /\ (forall ub, readPy ub None = Err UB) /\ readKnap None = Err UB /\ (forall le, readKnap2 le None = Err UB) /\
  (forall fuel, readTsp fuel None = Err UB) /\ (forall n rv, read_label n (opened None) rv = Err OutOfFuel).
Proof. repeat split. exact readLabel_missing. Qed.
Print Assumptions C72_missing_file.

(** the reader always comes back (or is undefined), whatever the file contains *)
Theorem C72_ends : forall file, readMisp file <> Err OutOfFuel.
Proof. exact readMisp_ends. Qed.
Print Assumptions C72_ends.
Example C72_ends_ex : readMisp (Some (chars "e x y")) = Err UB.
Proof. vm_compute. reflexivity. Qed.

(** ** C73: the reader of the colouring examples *)
Theorem C73_colouring_file : forall is t nv ub0,
  pfile is t -> pN is = [nv] -> (0 <= nv <= 2147483647)%Z -> Forall (fun e => 0 <= fst e < nv /\ 0 <= snd e < nv)%Z (pE is) ->
  exists i, readPy ub0 (Some t) = Ok (i, last (pK is) ub0) /\ in_nv i = nv /\ in_ne i = Some (Z.of_nat (List.length (pE is))) /\
    StronglySorted edge_lt (in_edges i) /\ (forall e, In e (in_edges i) <-> In e (pE is)) /\
    (forall v, in_adj i v = adjs (map nat_edge (in_edges i)) v).
Proof. exact readPy_ok. Qed.
Print Assumptions C73_colouring_file.
Example C73_colouring_file_ex : exists i, readPy (-1) (Some ex_py) = Ok (i, 2%Z) /\ in_nv i = 3%Z /\ In (0, 1)%Z (in_edges i).
Proof.
  destruct (C73_colouring_file _ _ 3 (-1) ex_py_ok eq_refl) as (i & H1 & H2 & _ & _ & H3 & _); [lia|repeat constructor; cbn; lia|].
  exists i. split; [exact H1|]. split; [exact H2|]. apply H3. right. now left.
Qed.
(** a graph without edges, written as E = {}: undefined behaviour, whatever comes before and after *)
Theorem C73_no_edges_refuted : forall is p ub0 s s1 s2 s3 r, pfile is p -> wgap s -> whites s1 -> wgap s2 -> whites s3 -> not_number r ->
  readPy ub0 (Some (p ++ s ++ "E" :: s1 ++ "=" :: s2 ++ "{" :: s3 ++ "}" :: r)) = Err UB.
Proof. exact readPy_empty_edges. Qed.
Print Assumptions C73_no_edges_refuted.
Example C73_no_edges_ex : readPy (-1) (Some (chars "N = 3
E = {}
K = 2")) = Err UB.
Proof. apply (C73_no_edges_refuted _ _ (-1) [nl] [" "] [" "] [] (nl :: chars "K = 2") ex_py_n); first [exact ex_not_number|tx]. Qed.
(** a file without N is never accepted; the shipped colouring data are DIMACS files, which give undefined behaviour *)
Theorem C73_needs_N : forall ub0 t i, ~ In "N" t -> readPy ub0 (Some t) <> Ok i.
Proof. exact readPy_needs_N. Qed.
Print Assumptions C73_needs_N.
Example C73_needs_N_ex : ~ In "N" (chars "p edge 3 1
e 1 2").
Proof. cbn. intuition discriminate. Qed.
Theorem C73_dimacs_file_refuted : exists ls t, dimacs ls t /\ (exists i, readMisp (Some t) = Ok i) /\ readPy (-1) (Some t) = Err UB.
Proof. exact (ex_intro _ _ (ex_intro _ _ ex_col_undefined)). Qed.
Print Assumptions C73_dimacs_file_refuted.
Theorem C73_ends : forall ub0 file, readPy ub0 file <> Err OutOfFuel.
Proof. exact readPy_ends. Qed.
Print Assumptions C73_ends.
Example C73_ends_ex : readPy (-1) (Some (chars "E = {(0,1), ")) = Err UB.
Proof. vm_compute. reflexivity. Qed.

(** ** C74: the knapsack readers *)
Theorem C74_knapsack_file : forall capa items t tail, ints (knap_nums capa items) (nl :: t) -> no_digit tail ->
  readKnap (Some (t ++ tail)) = Ok (mkK (Some (Z.of_nat (List.length items))) (Some capa) items).
Proof. exact readKnap_ok. Qed.
Print Assumptions C74_knapsack_file.
Example C74_knapsack_file_ex : readKnap (Some (ex_knap ++ [nl])) = Ok (mkK (Some 4%Z) (Some 11%Z) ex_items) /\ readKnap (Some (ex_knap ++ [])) = Ok (mkK (Some 4%Z) (Some 11%Z) ex_items).
Proof. split; apply (C74_knapsack_file 11 ex_items); try exact ex_knap_ok; cbn; lia. Qed.
(** knapsack2.cpp: a permutation, sorted by the comparison, exactly when nothing follows the last digit; otherwise it writes past the end of the array *)
Theorem C74_knapsack2_file : forall le capa items t tail, ints (knap_nums capa items) (nl :: t) -> no_digit tail ->
  readKnap2 le (Some (t ++ tail)) =
  match tail with [] => Ok (mkK (Some (Z.of_nat (List.length items))) (Some capa) (msort_list le (0, 0)%Z items)) | _ => Err UB end.
Proof. exact readKnap2_exact. Qed.
Print Assumptions C74_knapsack2_file.
Example C74_knapsack2_file_ex : readKnap2 (fun a b => fst a <=? fst b)%Z (Some (ex_knap ++ [])) = Ok (mkK (Some 4%Z) (Some 11%Z) ex_items).
Proof. rewrite (C74_knapsack2_file _ 11 ex_items); [vm_compute; reflexivity|exact ex_knap_ok|exact Logic.I]. Qed.
Theorem C74_knapsack2_newline_refuted : exists capa items t, ints (knap_nums capa items) (nl :: t) /\
  readKnap (Some (t ++ [nl])) = Ok (mkK (Some (Z.of_nat (List.length items))) (Some capa) items) /\ forall le, readKnap2 le (Some (t ++ [nl])) = Err UB.
Proof.
  exists 11%Z, ex_items, ex_knap. split; [exact ex_knap_ok|]. split; [apply C74_knapsack_file; [exact ex_knap_ok|cbn; lia]|].
  intros le. rewrite (C74_knapsack2_file le 11 ex_items); [reflexivity|exact ex_knap_ok|cbn; lia].
Qed.
Print Assumptions C74_knapsack2_newline_refuted.
Theorem C74_ends : forall file, readKnap file <> Err OutOfFuel /\ forall le, readKnap2 le file <> Err OutOfFuel.
Proof. intros file. split; [exact (readKnap_ends file)|]. intros le. exact (readKnap2_ends le file). Qed.
Print Assumptions C74_ends.
Example C74_ends_ex : readKnap (Some (chars "3 5 1 x")) = Err UB.
Proof. vm_compute. reflexivity. Qed.

(** ** C75: the TSP readers *)
Theorem C75_tsp_file : forall n d t fuel, tsplib n d t -> (1 <= n <= 18446744073709551615)%Z -> Z.of_nat (List.length d) = (n * n)%Z -> List.length t <= fuel ->
  readTsp fuel (Some t) = Ok (mkT n d).
Proof. exact readTsp_ok. Qed.
Print Assumptions C75_tsp_file.
Example C75_tsp_file_ex : readTsp 300 (Some ex_tsp) = Ok (mkT 2 [9999; 3; 5; 9999]%Z).
Proof. apply (C75_tsp_file _ _ _ _ ex_tsp_ok); [lia|reflexivity|vm_compute; lia]. Qed.
Theorem C75_tsp_file_old : forall n d t fuel, tsplib_old n d t -> (1 <= n <= 18446744073709551615)%Z -> Z.of_nat (List.length d) = (n * n)%Z ->
  readTsp fuel (Some t) = Ok (mkT n d).
Proof. exact readTsp_old_ok. Qed.
Print Assumptions C75_tsp_file_old.
Example C75_tsp_file_old_ex : readTsp 0 (Some ex_old) = Ok (mkT 2 [9999; 3; 5; 9999]%Z).
Proof. apply (C75_tsp_file_old _ _ _ _ ex_old_ok); [lia|reflexivity]. Qed.
Theorem C75_tsp4_full : forall n d t fuel, tsplib4 n WFull d t -> (1 <= n <= 18446744073709551615)%Z -> Z.of_nat (List.length d) = (n * n)%Z -> List.length t < fuel ->
  readTsp4 fuel (Some t) = Ok (mkT n d).
Proof. exact readTsp4_full. Qed.
Print Assumptions C75_tsp4_full.
Example C75_tsp4_full_ex : readTsp4 300 (Some ex_tsp) = Ok (mkT 2 [9999; 3; 5; 9999]%Z).
Proof. apply (C75_tsp4_full _ _ _ _ ex_tsp4_ok); [lia|reflexivity|vm_compute; lia]. Qed.
(** the lower triangle is mirrored *)
Theorem C75_tsp4_lower : forall n d t fuel, tsplib4 n WLowerDiag d t -> (1 <= n <= 18446744073709551615)%Z -> Z.of_nat (List.length d) = (n * (n + 1) / 2)%Z -> List.length t < fuel ->
  exists m, readTsp4 fuel (Some t) = Ok (mkT n m) /\ List.length m = Z.to_nat n * Z.to_nat n /\
    forall i j, j <= i < Z.to_nat n -> nth (i * Z.to_nat n + j) m 0%Z = nth (i * (i + 1) / 2 + j) d 0%Z /\ nth (j * Z.to_nat n + i) m 0%Z = nth (i * (i + 1) / 2 + j) d 0%Z.
Proof. exact readTsp4_lower. Qed.
Print Assumptions C75_tsp4_lower.
Example C75_tsp4_lower_ex : exists m, readTsp4 300 (Some ex_low) = Ok (mkT 3 m) /\ nth (0 * 3 + 2) m 0%Z = 2%Z.
Proof.
  destruct (C75_tsp4_lower _ _ _ 300 ex_low_ok) as (m & H1 & _ & H2); [lia|reflexivity|vm_compute; lia|]. exists m. split; [exact H1|]. now destruct (H2 2 0) as [_ H3]; [cbn; lia|].
Qed.
(** any other format: the matrix stays without values *)
Theorem C75_tsp4_other_refuted : forall n d t fuel, tsplib4 n WOther d t -> (1 <= n <= 18446744073709551615)%Z -> d <> [] -> List.length t < fuel -> readTsp4 fuel (Some t) = Err UB.
Proof. exact readTsp4_other. Qed.
Print Assumptions C75_tsp4_other_refuted.
Example C75_tsp4_other_ex : readTsp4 300 (Some (chars "NAME: x
TYPE: TSP
COMMENT: y
DIMENSION: 3
EDGE_WEIGHT_FORMAT: UPPER_ROW
EDGE_WEIGHT_SECTION
1 2 3")) = Err UB.
Proof. vm_compute. reflexivity. Qed.
(** a file without EDGE_WEIGHT_SECTION: both header loops run forever *)
Theorem C75_no_section_endless : forall s w r, whites s -> word (w ++ [":"]) -> (r = [] \/ exists c q, r = c :: q /\ white c) ->
  ~ (exists a b, s ++ w ++ ":" :: r = a ++ section ++ b) -> forall fuel, readTsp fuel (Some (s ++ w ++ ":" :: r)) = Err OutOfFuel.
Proof. intros s w r Hs Hw Hr Hn fuel. exact (readTsp_endless s w r fuel Hs Hw Hr Hn). Qed.
Print Assumptions C75_no_section_endless.
Theorem C75_no_section_endless4 : forall t, ~ (exists a b, t = a ++ section ++ b) -> forall fuel, readTsp4 fuel (Some t) = Err OutOfFuel.
Proof. intros t Ht fuel. exact (readTsp4_endless t fuel Ht). Qed.
Print Assumptions C75_no_section_endless4.
Example C75_no_section_ex : forall fuel, readTsp fuel (Some ([] ++ chars "NAME" ++ ":" :: ex_coord)) = Err OutOfFuel /\ readTsp4 fuel (Some (chars "NAME:" ++ ex_coord)) = Err OutOfFuel.
Proof.
  intros fuel. split.
  - apply C75_no_section_endless; [tx|tx|right; exists " ", (tl ex_coord); split; [reflexivity|left; now left]|apply (infixb_ok section); vm_compute; reflexivity].
  - apply C75_no_section_endless4. apply (infixb_ok section). vm_compute. reflexivity.
Qed.
