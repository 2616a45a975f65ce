(** Property C88: branch and bound on the program examples/gruler_mid.cpp, whose labels keep the first half of the marks in the first half of the ruler and read the
    primal bound of the running search.  [opt] is the table of lower bounds (only validity up to n is assumed), [srt] any order of the nodes of a layer, [user] the bound
    given to the search, if any.  The equality is that of the code, which ignores the distances. *)
From Verif Require Import Base DDModel DDSpec DDFrame DDExamples DDRelaxedEnd DDWide SearchModel SearchProofs SearchEx SearchDyn NoMerge SoftSearch OnceSearch
  TspModel RulerModel RulerSpec RulerEnd RulerTop RulerSearch MidSearch.
Local Open Scope Z_scope.

(** C88: whatever the width, everything reported is a Golomb ruler with the value reported, shorter than the bound given *)
Theorem C88_incumbents : forall n L opt, 2 <= n -> opt_valid opt n -> 0 <= L + 1 < 2147483647 ->
  forall srt, (forall d l, Permutation (srt d l) l) -> forall dfuel mxw, (Z.to_nat n + 1 < dfuel)%nat -> (N.of_nat mxw < 4294967296)%N ->
  forall lim user, ru_start user <= 2147483647 -> forall fuel s e, md_search n L opt srt dfuel lim fuel mxw user = Ok (s, e) ->
  (b_primal (s_b s) <> ru_start user -> ruler_of n (b_inc (s_b s)) /\ rlen (b_inc (s_b s)) <= L + 1 /\ b_primal (s_b s) = rlen (b_inc (s_b s))) /\
  (forall ls, In ls (b_log (s_b s)) -> ruler_of n ls /\ rlen ls <= L + 1 /\ rlen ls < ru_start user) /\ b_primal (s_b s) <= ru_start user.
Proof. exact md_run. Qed.
Print Assumptions C88_incumbents.
(** C88: when no layer exceeds the width: one node is expanded and the result is a shortest Golomb ruler among all those of length at most L+1 (not only those the
    labels allow) *)
Theorem C88_wide_finds_shortest : forall n L opt, 2 <= n -> opt_valid opt n -> 0 <= L + 1 < 2147483647 ->
  forall srt, (forall d l, Permutation (srt d l) l) -> forall dfuel mxw, (Z.to_nat n + 1 < dfuel)%nat -> (N.of_nat mxw < 4294967296)%N ->
  forall lim user, ru_start user <= 2147483647 -> forall fuel, lim 0%nat = false -> narrow (md_base n L opt) ru_init mxw -> (1 <= fuel)%nat ->
  exists s, md_search n L opt srt dfuel lim fuel mxw user = Ok (s, Emptied) /\ s_ttl s = 1%nat /\
    (forall ls, ruler_of n ls -> rlen ls <= L + 1 -> b_primal (s_b s) <= rlen ls) /\
    (b_primal (s_b s) <> ru_start user -> ruler_of n (b_inc (s_b s)) /\ rlen (b_inc (s_b s)) <= L + 1 /\ b_primal (s_b s) = rlen (b_inc (s_b s))).
Proof. exact md_wide. Qed.
Print Assumptions C88_wide_finds_shortest.
(** C88: a width for which that is so *)
Theorem C88_width_that_suffices : forall n L opt, 2 <= n -> opt_valid opt n -> 0 <= L + 1 < 2147483647 ->
  forall w, (2 ^ Z.to_nat (L + 1 + 1) <= w)%nat -> narrow (md_base n L opt) ru_init w.
Proof. exact md_narrow. Qed.
Print Assumptions C88_width_that_suffices.
(** C88: the reason, for any problem whose labels read the bound: nothing is asked of the labels at better bounds, except that they are labels of the base problem *)
Theorem C88_one_node : forall St (P : prob St) lab I rank N srt dfuel mxw, setting (nomerge P) I rank N srt dfuel mxw ->
  forall user, be P (start_bound P user) (sentinel P) -> dyn_sub (nomerge P) lab (start_bound P user) I rank N ->
  forall lim fuel, lim 0%nat = false -> narrow (nomerge P) (p_init P) mxw -> (forall V, solution P (p_init P) 0 V -> be P (initialWorst P) V) -> (1 <= fuel)%nat ->
  exists s, searchD P lab srt dfuel lim fuel mxw user = Ok (s, Emptied) /\ s_ttl s = 1%nat /\
    forall V, solution (relabel P (lab (start_bound P user))) (p_init P) 0 V -> be P (b_primal (s_b s)) V.
Proof. exact @searchD_once. Qed.
Print Assumptions C88_one_node.
(** C88, refuted: a node need not keep its improving rulers.  Six marks, L = 25: below the node with marks 0 and 12 there is a ruler of length 23, but once a ruler of length
    24 is known the node has no label left.  (The mirror image of that ruler lies below another node, so the search may still find its length.) *)
Theorem C88_node_keeps_rulers_refuted : exists n L xs ys v v' s b, 2 <= n /\ opt_valid OPT n /\ 0 <= L + 1 < 2147483647 /\
  path (md_base n L OPT) ru_init xs v s /\ path (md_base n L OPT) s ys v' (ru_target n) /\ v + v' < b /\
  (exists zs, ruler_of n zs /\ rlen zs = b /\ rlen zs <= L + 1) /\ md_lab n L OPT b s = [].
Proof.
  exists 6, 25, [12], [13; 16; 21; 23], 12, 11, (ru_next ru_init 12), 24. destruct md_lost_path as [A B].
  split; [lia|]. split; [exact OPT_6|]. split; [lia|]. split; [exact A|]. split; [exact B|]. split; [lia|]. split; [|vm_compute; reflexivity].
  exists [1; 3; 7; 15; 24]. split; [|split; [reflexivity|unfold rlen; cbn; lia]]. split; [|reflexivity]. apply golombb_ok; [apply incb_ok|]; reflexivity.
Qed.
Print Assumptions C88_node_keeps_rulers_refuted.

(** four marks, at most 7 long: wide enough, the code finds 2 5 6; with width 1 it expands four nodes and improves 1 3 7 to 1 4 6 *)
Example C88_nontrivial : 2 <= 4 /\ opt_valid OPT 4 /\ 0 <= 6 + 1 < 2147483647 /\ ru_start None <= 2147483647 /\ narrow (md_base 4 6 OPT) ru_init 256 /\
  (exists s, md_search 4 6 OPT (exSrt (md_base 4 6 OPT)) 20 nolim 100 256 None = Ok (s, Emptied) /\ b_primal (s_b s) = 6 /\ b_inc (s_b s) = [2; 5; 6] /\ s_ttl s = 1%nat) /\
  (exists s, md_search 4 6 OPT (exSrt (md_base 4 6 OPT)) 20 nolim 300 1 None = Ok (s, Emptied) /\ b_primal (s_b s) = 6 /\ b_log (s_b s) = [[1; 4; 6]; [1; 3; 7]] /\ s_ttl s = 4%nat).
Proof.
  assert (R1 : forall a, ruler_eqb a a = true) by (intros a; unfold ruler_eqb; now rewrite !Z.eqb_refl, N.eqb_refl).
  csplit; [lia|exact OPT_4|lia|lia|vm_compute; discriminate|apply C88_width_that_suffices; [lia|exact OPT_4|lia|vm_compute; lia]| |].
  - destruct (so_inv (md_base 4 6 OPT) (md_search 4 6 OPT (exSrt (md_base 4 6 OPT)) 20 nolim 100 256 None)
      (mkObs 6 [2; 5; 6] [[2; 5; 6]] 1 0 0 0 false 0 false true None) R1) as (s & H & H1 & H2 & _ & H3 & _); [vm_compute; reflexivity|].
    exists s. split; [exact H|]. split; [exact H1|]. split; [exact H2|exact H3].
  - destruct (so_inv (md_base 4 6 OPT) (md_search 4 6 OPT (exSrt (md_base 4 6 OPT)) 20 nolim 300 1 None)
      (mkObs 6 [1; 4; 6] [[1; 4; 6]; [1; 3; 7]] 4 0 0 0 false 1 false true None) R1) as (s & H & H1 & _ & H2 & H3 & _); [vm_compute; reflexivity|].
    exists s. split; [exact H|]. split; [exact H1|]. split; [exact H2|exact H3].
Qed.
