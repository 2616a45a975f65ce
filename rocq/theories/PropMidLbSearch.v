(** Property C89: branch and bound on the program examples/gruler_midlb.cpp: as C88, with the smallest unused distance in the states.  The equality is that of the code, which
    ignores the distances and the smallest unused distance. *)
From Verif Require Import Base DDModel DDSpec DDFrame DDExamples DDRelaxedEnd DDWide SearchModel SearchProofs SearchEx SearchDyn NoMerge SoftEq SoftSearch OnceSearch
  TspModel TspProofs RulerModel RulerSpec RulerProofs RulerEnd RulerLb RulerTop RulerSearch MidLbSearch.
Local Open Scope Z_scope.

(** C89: whatever the width, everything reported is a Golomb ruler with the value reported, shorter than the bound given *)
Theorem C89_incumbents : forall n L opt, 2 <= n -> opt_valid opt n -> 0 <= L + 1 < 2147483647 ->
  forall srt, (forall d l, Permutation (srt d l) l) -> forall dfuel mxw, (Z.to_nat n + 1 < dfuel)%nat -> (N.of_nat mxw < 4294967296)%N ->
  forall lim user, ru_start user <= 2147483647 -> forall fuel s e, lb_search n L opt srt dfuel lim fuel mxw user = Ok (s, e) ->
  (b_primal (s_b s) <> ru_start user -> ruler_of n (b_inc (s_b s)) /\ rlen (b_inc (s_b s)) <= L + 1 /\ b_primal (s_b s) = rlen (b_inc (s_b s))) /\
  (forall ls, In ls (b_log (s_b s)) -> ruler_of n ls /\ rlen ls <= L + 1 /\ rlen ls < ru_start user) /\ b_primal (s_b s) <= ru_start user.
Proof. exact lb_run. Qed.
Print Assumptions C89_incumbents.
(** C89: when no layer exceeds the width: one node is expanded and the result is a shortest Golomb ruler among all those of length at most L+1 *)
Theorem C89_wide_finds_shortest : forall n L opt, 2 <= n -> opt_valid opt n -> 0 <= L + 1 < 2147483647 ->
  forall srt, (forall d l, Permutation (srt d l) l) -> forall dfuel mxw, (Z.to_nat n + 1 < dfuel)%nat -> (N.of_nat mxw < 4294967296)%N ->
  forall lim user, ru_start user <= 2147483647 -> forall fuel, lim 0%nat = false -> narrow (lb_base n L opt) ml_init mxw -> (1 <= fuel)%nat ->
  exists s, lb_search n L opt srt dfuel lim fuel mxw user = Ok (s, Emptied) /\ s_ttl s = 1%nat /\
    (forall ls, ruler_of n ls -> rlen ls <= L + 1 -> b_primal (s_b s) <= rlen ls) /\
    (b_primal (s_b s) <> ru_start user -> ruler_of n (b_inc (s_b s)) /\ rlen (b_inc (s_b s)) <= L + 1 /\ b_primal (s_b s) = rlen (b_inc (s_b s))).
Proof. exact lb_wide. Qed.
Print Assumptions C89_wide_finds_shortest.
(** C89: a width for which that is so *)
Theorem C89_width_that_suffices : forall n L opt, 2 <= n -> opt_valid opt n -> 0 <= L + 1 < 2147483647 ->
  forall w, (2 ^ Z.to_nat (L + 1 + 1) <= w)%nat -> narrow (lb_base n L opt) ml_init w.
Proof. exact lb_narrow. Qed.
Print Assumptions C89_width_that_suffices.
(** C89: the equality confuses merged states only with each other *)
Theorem C89_exact_states_told_apart : forall n L opt, 2 <= n -> opt_valid opt n -> 0 <= L + 1 < 2147483647 ->
  forall b, soft (ml_prob n L opt b) (mx_inv n L (L + 1)) (any_L n L) lrank.
Proof. exact lb_soft. Qed.
Print Assumptions C89_exact_states_told_apart.

(** four marks, at most 7 long: wide enough, the code finds 2 5 6; with width 1 it improves 1 3 7 to 1 4 6; and two merged states that the equality confuses *)
Example C89_nontrivial : 2 <= 4 /\ opt_valid OPT 4 /\ 0 <= 6 + 1 < 2147483647 /\ ru_start None <= 2147483647 /\ narrow (lb_base 4 6 OPT) ml_init 256 /\
  (exists s, lb_search 4 6 OPT (exSrt (lb_base 4 6 OPT)) 20 nolim 100 256 None = Ok (s, Emptied) /\ b_primal (s_b s) = 6 /\ b_inc (s_b s) = [2; 5; 6] /\ s_ttl s = 1%nat) /\
  (exists s, lb_search 4 6 OPT (exSrt (lb_base 4 6 OPT)) 20 nolim 300 1 None = Ok (s, Emptied) /\ b_primal (s_b s) = 6 /\ b_log (s_b s) = [[1; 4; 6]; [1; 3; 7]] /\ s_ttl s = 4%nat) /\
  (exists a c, any_L 5 20 a /\ any_L 5 20 c /\ a <> c /\ rulerL_eqb a c = true).
Proof.
  assert (R1 : forall a, rulerL_eqb a a = true) by (intros a; unfold rulerL_eqb; now rewrite !Z.eqb_refl, N.eqb_refl).
  csplit; [lia|exact OPT_4|lia|lia|vm_compute; discriminate|apply C89_width_that_suffices; [lia|exact OPT_4|lia|vm_compute; lia]| | |].
  - destruct (so_inv (lb_base 4 6 OPT) (lb_search 4 6 OPT (exSrt (lb_base 4 6 OPT)) 20 nolim 100 256 None)
      (mkObs 6 [2; 5; 6] [[2; 5; 6]] 1 0 0 0 false 0 false true None) R1) as (s & H & H1 & H2 & _ & H3 & _); [vm_compute; reflexivity|].
    exists s. split; [exact H|]. split; [exact H1|]. split; [exact H2|exact H3].
  - destruct (so_inv (lb_base 4 6 OPT) (lb_search 4 6 OPT (exSrt (lb_base 4 6 OPT)) 20 nolim 300 1 None)
      (mkObs 6 [1; 4; 6] [[1; 4; 6]; [1; 3; 7]] 4 0 0 0 false 1 false true None) R1) as (s & H & H1 & _ & H2 & H3 & _); [vm_compute; reflexivity|].
    exists s. split; [exact H|]. split; [exact H1|]. split; [exact H2|exact H3].
  - assert (X : forall d, ml_live 5 (mkRL 33 d 3 5 1)).
    { intros d. unfold ml_live. cbn [l_k l_m l_e l_sm l_d]. csplit; try lia; [reflexivity|]. intros x Hx. apply in_members in Hx. vm_compute in Hx. destruct Hx as [<-|[<-|[]]]; lia. }
    exists (mkRL 33 32 3 5 1), (mkRL 33 36 3 5 1). csplit; [right|right|discriminate|reflexivity]; (split; [apply X|vm_compute; reflexivity]).
Qed.
