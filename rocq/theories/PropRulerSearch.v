(** Property C87: branch and bound on the Golomb ruler program (examples/gruler.cpp:86-147).  The labels of every compilation read the primal bound of that
    moment.  [opt] is the table of lower bounds (only validity up to n is assumed), [srt] any order of the nodes of a layer, [user] the bound given to the search, if any.
    [ruler_eqb] is the equality of the code, which ignores the distances; [ruler_eqb2] compares them too. *)
From Verif Require Import Base DDModel DDSpec DDFrame DDExamples DDRelaxedEnd DDWide SearchModel SearchProofs SearchEx SearchDyn SearchCut NoMerge TspModel RulerModel RulerSpec RulerEnd RulerTop RulerSearch SoftEq SoftSearch RulerSoft RulerLoss RulerFan.
Local Open Scope Z_scope.

(** C87: the program as it is, when no layer exceeds the width: one node is expanded and the result is a shortest Golomb ruler among those of length at most L+1 *)
Theorem C87_wide_finds_shortest : forall n L opt, 2 <= n -> opt_valid opt n -> 0 <= L + 1 < 2147483647 ->
  forall srt, (forall d l, Permutation (srt d l) l) -> forall dfuel mxw, (Z.to_nat n + 1 < dfuel)%nat -> (N.of_nat mxw < 4294967296)%N ->
  forall lim user, ru_start user <= 2147483647 -> forall fuel, lim 0%nat = false -> narrow (gr_base n L opt ruler_eqb) ru_init mxw -> (1 <= fuel)%nat ->
  exists s, gr_search n L opt ruler_eqb srt dfuel lim fuel mxw user = Ok (s, Emptied) /\ s_ttl s = 1%nat /\
    (forall ls, ruler_of n ls -> rlen ls <= L + 1 -> b_primal (s_b s) <= rlen ls) /\
    (b_primal (s_b s) <> ru_start user -> ruler_of n (b_inc (s_b s)) /\ rlen (b_inc (s_b s)) <= L + 1 /\ b_primal (s_b s) = rlen (b_inc (s_b s))).
Proof. exact ru_wide. Qed.
Print Assumptions C87_wide_finds_shortest.
(** C87: a width for which that is so *)
Theorem C87_width_that_suffices : forall n L opt, 2 <= n -> opt_valid opt n -> 0 <= L + 1 < 2147483647 ->
  forall w, (2 ^ Z.to_nat (L + 1 + 1) <= w)%nat -> narrow (gr_base n L opt ruler_eqb) ru_init w.
Proof. exact gr_narrow. Qed.
Print Assumptions C87_width_that_suffices.
(** C87: why the equality does no harm then: with that width no merge function is ever called, for any problem whose labels read the bound *)
Theorem C87_merging_unused : forall St (P : prob St) lab I rank N srt dfuel mxw, setting (nomerge P) I rank N srt dfuel mxw ->
  forall user, be P (start_bound P user) (sentinel P) -> dyn_ok (nomerge P) lab (start_bound P user) I rank N ->
  forall lim fuel, lim 0%nat = false -> narrow (nomerge P) (p_init P) mxw -> (forall V, solution P (p_init P) 0 V -> be P (initialWorst P) V) -> (1 <= fuel)%nat ->
  exists s, searchD P lab srt dfuel lim fuel mxw user = Ok (s, Emptied) /\ searchD (nomerge P) lab srt dfuel lim fuel mxw user = Ok (s, Emptied).
Proof. exact @searchD_unmerged. Qed.
Print Assumptions C87_merging_unused.

(** C87: the program as it is, whatever the width: everything reported is a Golomb ruler with the value reported, shorter than the bound given *)
Theorem C87_incumbents : forall n L opt, 2 <= n -> opt_valid opt n -> 0 <= L + 1 < 2147483647 ->
  forall srt, (forall d l, Permutation (srt d l) l) -> forall dfuel mxw, (Z.to_nat n + 1 < dfuel)%nat -> (N.of_nat mxw < 4294967296)%N ->
  forall lim user, ru_start user <= 2147483647 -> forall fuel s e, gr_search n L opt ruler_eqb srt dfuel lim fuel mxw user = Ok (s, e) ->
  (b_primal (s_b s) <> ru_start user -> ruler_of n (b_inc (s_b s)) /\ rlen (b_inc (s_b s)) <= L + 1 /\ b_primal (s_b s) = rlen (b_inc (s_b s))) /\
  (forall ls, In ls (b_log (s_b s)) -> ruler_of n ls /\ rlen ls <= L + 1 /\ rlen ls < ru_start user) /\ b_primal (s_b s) <= ru_start user.
Proof. exact ru_run. Qed.
Print Assumptions C87_incumbents.
(** C87: the reason, for any problem whose labels read the bound: an equality that tells the states of exact paths (E) from all others may confuse merged states with
    each other; every incumbent is still the end of a path of the model *)
Theorem C87_confused_merges : forall St (P : prob St) lab E I rank N srt dfuel mxw lim user fuel s e,
  setting (nomerge P) E rank N srt dfuel mxw -> be P (start_bound P user) (sentinel P) -> dyn_sub (nomerge P) lab (start_bound P user) E rank N ->
  (forall b, at_bound (nomerge P) (start_bound P user) b -> soft (relabel P (lab b)) E I rank) ->
  searchD P lab srt dfuel lim fuel mxw user = Ok (s, e) ->
  (b_primal (s_b s) <> start_bound P user -> genuine P (p_init P) 0 [] (p_target P) (b_primal (s_b s)) (b_inc (s_b s))) /\
  (forall ls, In ls (b_log (s_b s)) -> exists v, genuine P (p_init P) 0 [] (p_target P) v ls /\ bt P v (start_bound P user)) /\
  be P (b_primal (s_b s)) (start_bound P user).
Proof. exact @searchD_soft. Qed.
Print Assumptions C87_confused_merges.
(** C87: two merged states of the program that the equality confuses, and a program and bound that meet the condition *)
Example C87_confused : soft (gr_prob 5 OPT (ru_ub 5 20 OPT 2147483647) ruler_eqb) (ex_inv 5 (20 + 1)) (any_inv 5 20) rrank /\
  exists a c, any_inv 5 20 a /\ any_inv 5 20 c /\ a <> c /\ ruler_eqb a c = true.
Proof.
  split; [apply ru_soft; [exact OPT_5|lia]|]. exists (mkR 1 6 3 5), (mkR 1 4 3 5). csplit; [right|right|discriminate|reflexivity]; (split; [cbn; lia|vm_compute; reflexivity]).
Qed.

(** C87: with the repaired equality, whatever the width: everything reported is a Golomb ruler with the value reported, shorter than the bound given *)
Theorem C87_repaired_incumbents : forall n L opt, 2 <= n -> opt_valid opt n -> 0 <= L + 1 < 2147483647 ->
  forall srt, (forall d l, Permutation (srt d l) l) -> forall dfuel mxw, (Z.to_nat n + 1 < dfuel)%nat -> (N.of_nat mxw < 4294967296)%N ->
  forall lim user, ru_start user <= 2147483647 -> forall fuel s e, gr_search n L opt ruler_eqb2 srt dfuel lim fuel mxw user = Ok (s, e) ->
  (b_primal (s_b s) <> ru_start user -> ruler_of n (b_inc (s_b s)) /\ rlen (b_inc (s_b s)) <= L + 1 /\ b_primal (s_b s) = rlen (b_inc (s_b s))) /\
  (forall ls, In ls (b_log (s_b s)) -> ruler_of n ls /\ rlen ls <= L + 1 /\ rlen ls < ru_start user) /\ b_primal (s_b s) <= ru_start user.
Proof.
  intros n L opt A B C srt D dfuel mxw F W lim user U fuel s e E. destruct (ru2_run n L opt A B C srt D dfuel mxw F W lim user U fuel s e E) as (X & Y & Z & _).
  exact (conj X (conj Y Z)).
Qed.
Print Assumptions C87_repaired_incumbents.
(** C87: it ends *)
Theorem C87_repaired_terminates : forall n L opt, 2 <= n -> opt_valid opt n -> 0 <= L + 1 < 2147483647 ->
  forall srt, (forall d l, Permutation (srt d l) l) -> forall dfuel mxw, (Z.to_nat n + 1 < dfuel)%nat -> (N.of_nat mxw < 4294967296)%N ->
  forall lim user, ru_start user <= 2147483647 -> forall fuel, (2 ^ Z.to_nat (L + 1 + 1) <= fuel)%nat ->
  exists s e, gr_search n L opt ruler_eqb2 srt dfuel lim fuel mxw user = Ok (s, e).
Proof. exact ru2_total. Qed.
Print Assumptions C87_repaired_terminates.
(** C87: it ends with a shortest ruler, when the queue ran empty, no node was refused as seen, and no exact node of an inexact diagram that was cut has an
    improving edge straight to the target.  Missing for the full claim: that these conditions always hold (they are needed in general, C18), and the equality of the code. *)
Theorem C87_repaired_optimal_partial : forall n L opt, 2 <= n -> opt_valid opt n -> 0 <= L + 1 < 2147483647 ->
  forall srt, (forall d l, Permutation (srt d l) l) -> forall dfuel mxw, (Z.to_nat n + 1 < dfuel)%nat -> (N.of_nat mxw < 4294967296)%N ->
  forall lim user, ru_start user <= 2147483647 -> forall fuel s, gr_search n L opt ruler_eqb2 srt dfuel lim fuel mxw user = Ok (s, Emptied) ->
  s_seen s = 0%nat -> hist_ok (gr_base n L opt ruler_eqb2) s -> forall ls, ruler_of n ls -> rlen ls <= L + 1 -> b_primal (s_b s) <= rlen ls.
Proof.
  intros n L opt A B C srt D dfuel mxw F W lim user U fuel s E. exact (proj2 (proj2 (proj2 (ru2_run n L opt A B C srt D dfuel mxw F W lim user U fuel s Emptied E))) eq_refl).
Qed.
Print Assumptions C87_repaired_optimal_partial.

(** C87: a width of at least L+1 makes the condition on refused nodes unnecessary, since a state of the program has at most L+1 labels and determines the value of its marks.
    Missing for the full claim: the condition on edges straight to the target, and the equality of the code. *)
Theorem C87_repaired_optimal_fan_partial : forall n L opt, 2 <= n -> opt_valid opt n -> 0 <= L + 1 < 2147483647 ->
  forall srt, (forall d l, Permutation (srt d l) l) -> forall dfuel mxw, (Z.to_nat n + 1 < dfuel)%nat -> (N.of_nat mxw < 4294967296)%N ->
  forall lim user, ru_start user <= 2147483647 -> forall fuel s, gr_search n L opt ruler_eqb2 srt dfuel lim fuel mxw user = Ok (s, Emptied) ->
  L + 1 <= Z.of_nat mxw -> hist_ok (gr_base n L opt ruler_eqb2) s -> forall ls, ruler_of n ls -> rlen ls <= L + 1 -> b_primal (s_b s) <= rlen ls.
Proof. exact ru2_fan. Qed.
Print Assumptions C87_repaired_optimal_fan_partial.
(** C87: a state determines the value of the marks that lead to it *)
Theorem C87_one_value : forall n L opt, one_value (gr_base n L opt ruler_eqb2).
Proof. exact gr_one_value. Qed.
Print Assumptions C87_one_value.
(** five marks, L = 10, width 11: six nodes are expanded, one diagram is cut *)
Example C87_fan_case : 2 <= 5 /\ opt_valid OPT 5 /\ 10 + 1 <= Z.of_nat 11 /\
  exists s, gr_search 5 10 OPT ruler_eqb2 (exSrt (gr_base 5 10 OPT ruler_eqb2)) 20 nolim 300 11 None = Ok (s, Emptied) /\ b_primal (s_b s) = 11 /\ b_inc (s_b s) = [1; 4; 9; 11] /\
    s_ttl s = 6%nat /\ length (s_hist s) = 1%nat /\ hist_ok (gr_base 5 10 OPT ruler_eqb2) s.
Proof.
  assert (R2 : forall a, ruler_eqb2 a a = true) by (intros a; unfold ruler_eqb2, ruler_eqb; now rewrite !Z.eqb_refl, !N.eqb_refl).
  split; [lia|]. split; [exact OPT_5|]. split; [lia|].
  destruct (so_inv (gr_base 5 10 OPT ruler_eqb2) (gr_search 5 10 OPT ruler_eqb2 (exSrt (gr_base 5 10 OPT ruler_eqb2)) 20 nolim 300 11 None)
    (mkObs 11 [1; 4; 9; 11] [[1; 4; 9; 11]] 6 0 0 0 false 1 false true None) R2) as (s & H & H1 & H2 & _ & H3 & _ & _ & _ & _ & H4 & _ & H5); [vm_compute; reflexivity|].
  exists s. split; [exact H|]. split; [exact H1|]. split; [exact H2|]. split; [exact H3|]. split; [exact H4|]. apply H5. reflexivity.
Qed.

(** C87, refuted: the program as it is need not compute lower bounds.  The relaxed diagram of a node of the search (six marks, L = 16, marks 0 and 2 placed, width 25)
    reports that there is no ruler, though one is short enough.  (A complete search that misses the optimum was not found.) *)
Theorem C87_relaxed_bound_refuted : exists n L w xs ys s d t, 2 <= n /\ opt_valid OPT n /\ 0 <= L + 1 < 2147483647 /\
  ruler_of n (xs ++ ys) /\ rlen (xs ++ ys) <= L + 1 /\ path (gr_base n L OPT ruler_eqb) ru_init xs (last xs 0) s /\
  rx_compute (gr_base n L OPT ruler_eqb) (exSrt (gr_base n L OPT ruler_eqb)) 20
    (initFrom (gr_base n L OPT ruler_eqb) (dd_empty (gr_base n L OPT ruler_eqb) true) (mkNode s [] [] xs (last xs 0) 0 0 true)) 2147483647 w = Ok d /\
  trg_node d = Ok t /\ rlen (xs ++ ys) < n_bound t /\ n_bound t = sentinel (gr_base n L OPT ruler_eqb).
Proof.
  destruct loss as (d & t & H1 & H2 & H3). exists 6, 16, 25%nat, [2], [7; 13; 16; 17], (fold_left ru_next [2] ru_init), d, t.
  split; [lia|]. split; [exact OPT_6|]. split; [lia|]. split; [exact loss_ruler|]. split; [unfold rlen; cbn; lia|]. split; [exact loss_path|].
  split; [exact H1|]. split; [exact H2|]. rewrite H3. split; [unfold rlen; cbn; lia|reflexivity].
Qed.
Print Assumptions C87_relaxed_bound_refuted.
(** C87: with the repaired equality the relaxed diagram of every node, at every width, bounds every ruler that extends its marks *)
Theorem C87_repaired_relaxed_bound : forall n L opt b w srt dfuel d d' xs v s, 2 <= n -> opt_valid opt n -> 0 <= L + 1 < 2147483647 ->
  (forall d l, Permutation (srt d l) l) -> (Z.to_nat n + 1 < dfuel)%nat ->
  path (gr_base n L opt ruler_eqb2) ru_init xs v s -> s <> ru_target n ->
  rx_compute (gr_base n L opt ruler_eqb2) srt dfuel (initFrom (gr_base n L opt ruler_eqb2) d (mkNode s [] [] xs v 0 0 true)) b w = Ok d' ->
  exists t, trg_node d' = Ok t /\ forall ys, ruler_of n (xs ++ ys) -> rlen (xs ++ ys) <= L + 1 -> rlen (xs ++ ys) < b -> n_bound t <= rlen (xs ++ ys).
Proof. exact repaired_bound. Qed.
Print Assumptions C87_repaired_relaxed_bound.
(** the node of the refutation with fewer marks: five marks, L = 10, mark 2 placed, width 3; its bound 10 is below the shortest extension 2 7 8 11 *)
Example C87_repaired_bound_case : path (gr_base 5 10 OPT ruler_eqb2) ru_init [2] 2 (n_state (gr_node [2])) /\ n_state (gr_node [2]) <> ru_target 5 /\
  (exists d t, gr_relaxed 5 10 ruler_eqb2 3 [2] = Ok d /\ trg_node d = Ok t /\ n_bound t = 10) /\ ruler_of 5 ([2] ++ [7; 8; 11]).
Proof.
  csplit.
  - exact repaired_path.
  - discriminate.
  - apply bound_inv. vm_compute. reflexivity.
  - split; [|reflexivity]. apply golombb_ok; [apply incb_ok|]; reflexivity.
Qed.

(** four marks, at most 7 long: wide enough, the code finds 2 5 6; with width 1 and the repaired equality the search expands five nodes, improves 1 3 7 to 1 4 6
    and meets the conditions *)
Example C87_nontrivial : 2 <= 4 /\ opt_valid OPT 4 /\ 0 <= 6 + 1 < 2147483647 /\ ru_start None <= 2147483647 /\
  narrow (gr_base 4 6 OPT ruler_eqb) ru_init 256 /\
  (exists s, gr_search 4 6 OPT ruler_eqb (exSrt (gr_base 4 6 OPT ruler_eqb)) 20 nolim 100 256 None = Ok (s, Emptied) /\ b_primal (s_b s) = 6 /\ b_inc (s_b s) = [2; 5; 6]) /\
  (exists s, gr_search 4 6 OPT ruler_eqb2 (exSrt (gr_base 4 6 OPT ruler_eqb2)) 20 nolim 300 1 None = Ok (s, Emptied) /\ b_primal (s_b s) = 6 /\
    b_log (s_b s) = [[1; 4; 6]; [1; 3; 7]] /\ s_ttl s = 5%nat /\ s_seen s = 0%nat /\ hist_ok (gr_base 4 6 OPT ruler_eqb2) s) /\
  (exists s, gr_search 4 6 OPT ruler_eqb (exSrt (gr_base 4 6 OPT ruler_eqb)) 20 nolim 300 1 None = Ok (s, Emptied) /\ b_primal (s_b s) = 6 /\ b_log (s_b s) = [[1; 4; 6]; [1; 3; 7]]).
Proof.
  assert (R1 : forall a, ruler_eqb a a = true) by (intros a; unfold ruler_eqb; now rewrite !Z.eqb_refl, N.eqb_refl).
  assert (R2 : forall a, ruler_eqb2 a a = true) by (intros a; unfold ruler_eqb2; rewrite R1; apply N.eqb_refl).
  csplit; [lia|exact OPT_4|lia|lia|vm_compute; discriminate|apply C87_width_that_suffices; [lia|exact OPT_4|lia|vm_compute; lia]| | |].
  - destruct (so_inv (gr_base 4 6 OPT ruler_eqb) (gr_search 4 6 OPT ruler_eqb (exSrt (gr_base 4 6 OPT ruler_eqb)) 20 nolim 100 256 None)
      (mkObs 6 [2; 5; 6] [[2; 5; 6]] 1 0 0 0 false 0 false true None) R1) as (s & H & H1 & H2 & _); [vm_compute; reflexivity|].
    exists s. split; [exact H|]. split; [exact H1|exact H2].
  - destruct (so_inv (gr_base 4 6 OPT ruler_eqb2) (gr_search 4 6 OPT ruler_eqb2 (exSrt (gr_base 4 6 OPT ruler_eqb2)) 20 nolim 300 1 None)
      (mkObs 6 [1; 4; 6] [[1; 4; 6]; [1; 3; 7]] 5 0 0 0 false 1 false true None) R2) as (s & H & H1 & _ & H2 & H3 & H4 & _ & _ & _ & _ & _ & H5); [vm_compute; reflexivity|].
    exists s. split; [exact H|]. split; [exact H1|]. split; [exact H2|]. split; [exact H3|]. split; [exact H4|]. apply H5. reflexivity.
  - destruct (so_inv (gr_base 4 6 OPT ruler_eqb) (gr_search 4 6 OPT ruler_eqb (exSrt (gr_base 4 6 OPT ruler_eqb)) 20 nolim 300 1 None)
      (mkObs 6 [1; 4; 6] [[1; 4; 6]; [1; 3; 7]] 5 0 0 0 false 1 false true None) R1) as (s & H & H1 & _ & H2 & _); [vm_compute; reflexivity|].
    exists s. split; [exact H|]. split; [exact H1|exact H2].
Qed.
