(** Properties C56 (examples/gruler.cpp) and C57 (examples/gruler_mid.cpp, gruler_midlb.cpp): Golomb rulers.
    [b] is the primal bound while one diagram is compiled; [opt] the table of lower bounds, of which only validity up to n is assumed. *)
From Verif Require Import Base BitModel SetModel DDModel DDSpec DDFrame DDRestricted DDExact DDExamples TspModel RulerModel RulerSpec RulerProofs RulerEnd RulerLb RulerTop.
Local Open Scope Z_scope.

(** C56: the solutions of gruler.cpp are exactly the Golomb rulers with n marks shorter than the primal bound and at most L+1 long, valued by their length *)
Theorem C56_solutions_are_rulers : forall n L opt b, 2 <= n -> opt_valid opt n -> forall ls v,
  path (ru_prob n L opt b) ru_init ls v (ru_target n) <-> ruler_of n ls /\ v = rlen ls /\ rlen ls <= b - 1 /\ rlen ls <= L + 1.
Proof. exact ru_solutions. Qed.
Print Assumptions C56_solutions_are_rulers.
(** the table of the code is valid as far as six marks (checked by looking for shorter rulers) *)
Example C56_table_case : opt_valid OPT 6.
Proof. exact OPT_6. Qed.
Example C56_solution_case : ruler_of 4 [1; 4; 6] /\ path (ru_prob 4 6 OPT 2147483647) ru_init [1; 4; 6] 6 (ru_target 4).
Proof. split; [exact ruler_4|]. apply C56_solutions_are_rulers; [lia|exact OPT_4|]. csplit; [exact ruler_4|reflexivity|vm_compute; discriminate|vm_compute; discriminate]. Qed.

(** finding: the length limit of the command line is exceeded by one *)
Theorem C56_length_limit_refuted : exists n L ls v, 2 <= n /\ opt_valid OPT n /\ path (ru_prob n L OPT 2147483647) ru_init ls v (ru_target n) /\ L < v.
Proof. exists 3, 2, [1; 3], 3. csplit; [lia|exact OPT_3|exact limit_exceeded|lia]. Qed.
Print Assumptions C56_length_limit_refuted.

(** C56: an exact diagram finds a shortest Golomb ruler, if there is one within the limits ([short]: n marks, length below b and at most L+1) *)
Theorem C56_exact_diagram_finds_shortest : forall n L opt b, 2 <= n -> opt_valid opt n -> 0 <= L + 1 < 2147483647 -> forall fuel primal,
  (2 ^ Z.to_nat (L + 1 + 1) + 1 <= fuel)%nat -> (exists ls, short n L b ls) ->
  exists d nd, ex_compute (ru_prob n L opt b) fuel (initDefault (ru_prob n L opt b) (dd_empty (ru_prob n L opt b) true)) primal = Ok d /\ trg_node d = Ok nd /\
    short n L b (n_lab nd) /\ n_bound nd = rlen (n_lab nd) /\ (forall ls, ruler_of n ls -> n_bound nd <= rlen ls).
Proof. exact ru_top. Qed.
Print Assumptions C56_exact_diagram_finds_shortest.
Example C56_exact_case : short 4 6 2147483647 [1; 4; 6] /\
  outcome (ex_compute (ru_prob 4 6 OPT 2147483647) 200 (initDefault (ru_prob 4 6 OPT 2147483647) (dd_empty (ru_prob 4 6 OPT 2147483647) true)) 2147483647) = Ok (6, [1; 4; 6], true, 17%nat).
Proof. split; [unfold short; csplit; [exact ruler_4|vm_compute; discriminate|vm_compute; discriminate]|vm_compute; reflexivity]. Qed.

(** C56: a restricted diagram of any width, rooted at the state after any marks xs, reports a Golomb ruler within the limits that starts with xs, and
    the shortest of those that beat the primal bound when it is flagged exact *)
Theorem C56_restricted_diagram : forall n L opt b, 2 <= n -> opt_valid opt n -> 0 <= L + 1 < 2147483647 -> forall xs v s d primal w fuel,
  path (ru_prob n L opt b) ru_init xs v s -> s <> ru_target n -> started d s v xs -> (N.of_nat w < 4294967296)%N -> (Z.to_nat n < fuel)%nat ->
  exists d' nd, rs_compute (ru_prob n L opt b) fuel d primal w = Ok d' /\ trg_node d' = Ok nd /\
    (n_bound nd < 2147483647 -> exists ls, n_lab nd = xs ++ ls /\ short n L b (xs ++ ls) /\ n_bound nd = rlen (xs ++ ls)) /\
    (d_exact d' = true -> forall ls, short n L b (xs ++ ls) -> rlen (xs ++ ls) < primal -> n_bound nd <= rlen (xs ++ ls)).
Proof. exact ru_restricted. Qed.
Print Assumptions C56_restricted_diagram.
Example C56_restricted_case :
  outcome (rs_compute (ru_prob 4 8 OPT 2147483647) 10 (initDefault (ru_prob 4 8 OPT 2147483647) (dd_empty (ru_prob 4 8 OPT 2147483647) true)) 2147483647 2) = Ok (6, [1; 4; 6], false, 6%nat).
Proof. vm_compute. reflexivity. Qed.

(** C56: with an equality that compares the distances, the closures are valid for relaxed diagrams too: a merged state has every completion of the
    states it stands for, at the same cost *)
Theorem C56_closures_valid_partial : forall n opt ub, valid_model (gr_prob n opt ub ruler_eqb2) (rl_inv n) rrank (Z.to_nat n).
Proof. exact gr_valid. Qed.
Print Assumptions C56_closures_valid_partial.
(** missing: the code's equality.  It holds of the states that are not merged (C56_restricted_diagram, C56_exact_diagram_finds_shortest): *)
Theorem C56_equality_on_unmerged_states : forall n opt ub M, 0 <= M < 2147483647 -> (forall k, 1 <= k < n -> ub k <= M) ->
  closed (gr_prob n opt ub ruler_eqb) (ex_inv n M).
Proof. exact gr_closed. Qed.
Print Assumptions C56_equality_on_unmerged_states.
Example C56_equality_case : forall k, 1 <= k < 4 -> ru_ub 4 6 OPT 2147483647 k <= 7.
Proof. apply ru_ub_le, OPT_4. Qed.
(** finding: it does not hold of merged states: {0,1,7} merged with {0,2,7} and {0,1,7} merged with {0,6,7} compare equal, but the mark 8 is possible
    after the first only; and their hash values differ although they compare equal *)
Theorem C56_equality_of_merged_states_refuted : exists s1 s2 s3 a c, from_init 5 [1; 7] = Ok (Some s1) /\ from_init 5 [2; 7] = Ok (Some s2) /\ from_init 5 [6; 7] = Ok (Some s3) /\
  wr_smf s1 s2 = Some a /\ wr_smf s1 s3 = Some c /\ wr_eqb a c = true /\ wr_hash a <> wr_hash c /\
  (exists t, wr_stf 5 a 8 = Ok (Some t)) /\ wr_stf 5 c 8 = Ok None.
Proof. exact wr_equal_differs. Qed.
Print Assumptions C56_equality_of_merged_states_refuted.

(** C56: with the 4-word sets of the code the marks with gaps below 64 and up to 255 are handled correctly: a sequence of marks survives exactly when
    it is a Golomb ruler, and there is no undefined behaviour *)
Theorem C56_words_are_sets : forall n ls, near 0 ls -> (forall x, In x ls -> x < 256) -> Z.of_nat (length ls) <= n - 1 ->
  exists w0, wr_init = Ok w0 /\ (golomb ls -> exists w, wr_run n w0 ls = Ok (Some w)) /\ (~ golomb ls -> wr_run n w0 ls = Ok None).
Proof. exact wr_run_ok. Qed.
Print Assumptions C56_words_are_sets.
Example C56_words_case : near 0 [63; 100; 163] /\ from_init 5 [1; 2] = Ok None /\ ~ golomb [1; 2].
Proof. split; [cbn [near]; repeat split; lia|]. split; [vm_compute; reflexivity|exact not_golomb]. Qed.
(** finding: a gap of 64, or the mark 256, is undefined behaviour; both are labels that gruler 5 250 and gruler 3 255 try *)
Theorem C56_words_refuted : (exists s1 s2, path (ru_prob 5 250 OPT 2147483647) ru_init [1; 128] 128 s2 /\ s2 <> ru_target 5 /\ In 192 (p_labels (ru_prob 5 250 OPT 2147483647) s2) /\
  path (ru_prob 3 255 OPT 2147483647) ru_init [1] 1 s1 /\ s1 <> ru_target 3 /\ In 256 (p_labels (ru_prob 3 255 OPT 2147483647) s1)) /\
  golomb [1; 128; 192] /\ from_init 5 [1; 128; 192] = Err UB /\ golomb [1; 256] /\ from_init 3 [1; 256] = Err UB.
Proof. split; [exact overflow_labels|]. csplit; [exact ruler_64|exact wr_gap64|exact ruler_256|exact wr_256]. Qed.
Print Assumptions C56_words_refuted.

(** C57: gruler_mid.cpp restricts the first half of the marks to the first half of the length: every solution is a ruler within the limits, and of each
    ruler within the limits the ruler itself or its mirror image is a solution *)
Theorem C57_mid_sound : forall n L opt b, 2 <= n -> opt_valid opt n -> forall ls v, path (mid_prob n L opt b) ru_init ls v (ru_target n) ->
  ruler_of n ls /\ v = rlen ls /\ rlen ls <= b - 1 /\ rlen ls <= L + 1.
Proof. exact mid_sound. Qed.
Print Assumptions C57_mid_sound.
Theorem C57_mid_complete : forall n L opt b, 2 <= n -> opt_valid opt n -> forall zs, ruler_of n zs -> rlen zs <= b - 1 -> rlen zs <= L + 1 ->
  path (mid_prob n L opt b) ru_init zs (rlen zs) (ru_target n) \/ path (mid_prob n L opt b) ru_init (mirror zs) (rlen zs) (ru_target n).
Proof. exact mid_complete. Qed.
Print Assumptions C57_mid_complete.
(** C57: gruler_midlb.cpp has the solutions of gruler_mid.cpp: skipping the distances that are used already loses nothing *)
Theorem C57_midlb_solutions : forall n L opt b, 2 <= n -> forall ls v,
  path (ml_prob n L opt b) ml_init ls v (ml_target n L) <-> path (mid_prob n L opt b) ru_init ls v (ru_target n).
Proof. intros n L opt b Hn ls v. exact (ml_solutions n L opt b Hn ruler_eqb rulerL_eqb ls v). Qed.
Print Assumptions C57_midlb_solutions.
Example C57_mid_case : exists ls, path (mid_prob 4 6 OPT 2147483647) ru_init ls 6 (ru_target 4) /\ path (ml_prob 4 6 OPT 2147483647) ml_init ls 6 (ml_target 4 6).
Proof.
  destruct (C57_mid_complete 4 6 OPT 2147483647 ltac:(lia) OPT_4 [1; 4; 6] ruler_4) as [H|H]; [vm_compute; discriminate|vm_compute; discriminate| |];
    eexists; (split; [exact H|apply C57_midlb_solutions; [lia|exact H]]).
Qed.

(** C57: exact diagrams of both find a shortest ruler *)
Theorem C57_exact_diagram_mid : forall n L opt b, 2 <= n -> opt_valid opt n -> 0 <= L + 1 < 2147483647 -> forall fuel primal,
  (2 ^ Z.to_nat (L + 1 + 1) + 1 <= fuel)%nat -> (exists ls, short n L b ls) ->
  exists d nd, ex_compute (mid_prob n L opt b) fuel (initDefault (mid_prob n L opt b) (dd_empty (mid_prob n L opt b) true)) primal = Ok d /\ trg_node d = Ok nd /\
    short n L b (n_lab nd) /\ n_bound nd = rlen (n_lab nd) /\ (forall ls, ruler_of n ls -> n_bound nd <= rlen ls).
Proof. exact mid_top. Qed.
Print Assumptions C57_exact_diagram_mid.
Theorem C57_exact_diagram_midlb : forall n L opt b, 2 <= n -> opt_valid opt n -> 0 <= L + 1 < 2147483647 -> forall fuel primal,
  (2 ^ Z.to_nat (L + 1 + 1) + 1 <= fuel)%nat -> (exists ls, short n L b ls) ->
  exists d nd, ex_compute (ml_prob n L opt b) fuel (initDefault (ml_prob n L opt b) (dd_empty (ml_prob n L opt b) true)) primal = Ok d /\ trg_node d = Ok nd /\
    short n L b (n_lab nd) /\ n_bound nd = rlen (n_lab nd) /\ (forall ls, ruler_of n ls -> n_bound nd <= rlen ls).
Proof. exact ml_top. Qed.
Print Assumptions C57_exact_diagram_midlb.
(** C57: the closures of gruler_midlb.cpp are valid with an equality that compares the distances and sm *)
Theorem C57_closures_valid_partial : forall n L opt b, 2 <= n -> valid_model (ml_probE n L opt b rulerL_eqb2) (ml_inv n L) lrank (Z.to_nat n).
Proof. exact ml_valid. Qed.
Print Assumptions C57_closures_valid_partial.
(** missing: the code's equality on merged states, as in C56 (C56_equality_of_merged_states_refuted); and OPT of gruler_midlb.cpp ends at 19 marks:
    beyond, the map yields 0, which is a valid lower bound too *)
Example C57_opt19_case : OPT19 20 = 0 /\ OPT19 19 = 246.
Proof. split; reflexivity. Qed.
