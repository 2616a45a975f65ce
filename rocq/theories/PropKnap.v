(** Property C46: the knapsack examples (examples/knapsack.cpp, examples/knapsack2.cpp). *)
From Verif Require Import Base DDModel DDSpec DDRestricted KnapModel KnapProofs DDExamples SearchModel SearchProofs SearchEx KnapEnd.

(** C46: the solutions of both models are exactly the selections within the capacity, valued by their profit.
    [feasible]: one label 0/1 per item, total weight at most the capacity; [value]: total profit. *)
Theorem C46_solutions_are_selections : forall weight profit capa, instance_ok weight profit capa ->
  forall P, P = knapsack weight profit capa \/ (exists frac, P = knapsack2 weight profit capa frac) ->
  forall ls v, path P (p_init P) ls v (p_target P) <-> feasible weight capa ls /\ v = value profit ls.
Proof. exact knapsack_solutions. Qed.
Print Assumptions C46_solutions_are_selections.

(** C46: the closures of knapsack.cpp are valid (layered, merge is a relaxation) *)
Theorem C46_knapsack_closures_valid : forall weight profit capa, 1 <= length weight -> (0 <= capa)%Z -> Forall (fun w => (0 <= w)%Z) weight ->
  valid_model (knapsack weight profit capa) (kn_inv weight) fst (length weight).
Proof. exact knapsack_valid. Qed.
Print Assumptions C46_knapsack_closures_valid.

(** C46: those of knapsack2.cpp (merge, greedy local bound, dominance within a layer) are valid on items sorted by profit/weight, as its main
    sorts them, if the fractional part of the local bound is computed exactly *)
Theorem C46_knapsack2_closures_valid_partial : forall weight profit capa, 1 <= length weight -> (0 <= capa)%Z ->
  Forall (fun w => (0 <= w)%Z) weight ->
  length profit = length weight -> sorted_ratio (combine weight profit) -> Forall (fun i => 0 < fst i /\ 0 <= snd i)%Z (combine weight profit) ->
  valid_model (knapsack2 weight profit capa frac_exact) (kn_inv weight) fst (length weight).
Proof. intros w p c H1 H2 H3 H4 H5 H6. now apply knapsack2_valid. Qed.
Print Assumptions C46_knapsack2_closures_valid_partial.

(** C46: an exact diagram on knapsack.cpp computes the best profit and a selection of that profit; n * (capacity + 1) + 1 rounds suffice *)
Theorem C46_exact_diagram_solves_knapsack : forall weight profit capa, instance_ok weight profit capa -> Forall (fun p => (0 <= p)%Z) profit ->
  forall fuel primal, length weight * Z.to_nat (capa + 1) + 1 <= fuel ->
  exists d n, ex_compute (knapsack weight profit capa) fuel (initDefault (knapsack weight profit capa) (dd_empty (knapsack weight profit capa) true)) primal = Ok d /\
    trg_node d = Ok n /\ feasible weight capa (n_lab n) /\ n_bound n = value profit (n_lab n) /\
    (forall ls, feasible weight capa ls -> (value profit ls <= n_bound n)%Z).
Proof. exact knapsack_exact. Qed.
Print Assumptions C46_exact_diagram_solves_knapsack.

(** C46: the value knapsack2.cpp presets as primal bound is the profit of some selection *)
Theorem C46_preset_is_attained : forall weight profit capa v, instance_ok weight profit capa -> length profit = length weight ->
  kn2_getUB weight profit capa = Ok v -> exists ls, feasible weight capa ls /\ v = value profit ls.
Proof. exact getUB_feasible. Qed.
Print Assumptions C46_preset_is_attained.

(** finding: getUB reads past the end of the item arrays exactly when all items fit together *)
Theorem C46_preset_overruns : forall weight profit capa, instance_ok weight profit capa -> length profit = length weight ->
  (kn2_getUB weight profit capa = Err UB <-> (fold_right Z.add 0 weight <= capa)%Z).
Proof. exact getUB_overrun. Qed.
Print Assumptions C46_preset_overruns.

(** finding: in double arithmetic, as the code computes it, the local bound of knapsack2.cpp is not valid: on the items (2,2) (48,48) (49,49)
    with capacity 51, listed as its main would sort them and with the bound 50 it presets, branch and bound of any width ends with 50 and no
    incumbent, although the selection of the first and third item has profit 51 *)
Theorem C46_double_local_bound_refuted : sorted_ratio (combine fpI fpI) /\ kn2_getUB fpI fpI 51 = Ok 50%Z /\
  ~ valid_local fpP (kn_inv fpI) /\ feasible fpI 51 [1; 0; 1]%Z /\ value fpI [1; 0; 1]%Z = 51%Z /\
  (forall w, exists s, search fpP (exSrt fpP) 20 nolim 100 w (Some 50%Z) = Ok (s, Emptied) /\ b_primal (s_b s) = 50%Z /\ b_inc (s_b s) = []).
Proof. exact fp_local_refuted. Qed.
Print Assumptions C46_double_local_bound_refuted.

(** finding: sDom of knapsack2.cpp does not compare depths, so it is not valid between nodes of the search queue *)
Theorem C46_cross_depth_dominance_refuted : exists weight profit capa, instance_ok weight profit capa /\
  ~ valid_qdom (knapsack2 weight profit capa frac_exact) (kn_inv weight).
Proof. exact kn2_cross_dom_refuted. Qed.
Print Assumptions C46_cross_depth_dominance_refuted.

(** an instance meeting all hypotheses: ratios 3, 7/3, 2, 1; the best selection within 9 takes the first three items *)
Definition exKW : list Z := [2; 3; 4; 5]%Z.
Definition exKP : list Z := [6; 7; 8; 5]%Z.
Example C46_nontrivial : instance_ok exKW exKP 9 /\ length exKP = length exKW /\ sorted_ratio (combine exKW exKP) /\
  Forall (fun i => 0 < fst i /\ 0 <= snd i)%Z (combine exKW exKP) /\ Forall (fun p => (0 <= p)%Z) exKP /\
  kn2_getUB exKW exKP 9 = Ok 21%Z /\ feasible exKW 9 [1; 1; 1; 0]%Z /\ value exKP [1; 1; 1; 0]%Z = 21%Z /\ ~ feasible exKW 9 [0; 1; 1; 1]%Z /\
  feasible exKW 9 [0; 0; 1; 1]%Z /\ kn2_getUB exKW exKP 14 = Err UB /\
  outcome (run (knapsack exKW exKP 9) (exSrt (knapsack exKW exKP 9)) 50 SExact 0) = Ok (21%Z, [1; 1; 1; 0]%Z, true, 16).
Proof.
  assert (S1 : forall l, Forall (fun x => x = 0 \/ x = 1)%Z l -> selection l) by (intros l H; exact H).
  split; [constructor; [cbn; lia|lia|repeat apply Forall_cons; auto; lia]|]. split; [reflexivity|].
  split; [cbn; repeat constructor; unfold ratio_ge; cbn; lia|]. split; [repeat apply Forall_cons; auto; cbn; lia|].
  split; [repeat apply Forall_cons; auto; lia|]. split; [reflexivity|].
  split; [split; [apply S1; repeat apply Forall_cons; auto|split; [reflexivity|cbn; lia]]|]. split; [reflexivity|].
  split; [intros (_ & _ & H); cbn in H; lia|]. split; [split; [apply S1; repeat apply Forall_cons; auto|split; [reflexivity|cbn; lia]]|].
  split; [reflexivity|]. vm_compute. reflexivity.
Qed.
