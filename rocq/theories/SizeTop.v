(** Concrete cases for C09 and C84. *)
From Verif Require Import Base DDModel DDSpec DDInv DDRestricted DDRestricted2 DDRelaxed2 DDExamples SearchModel SearchProofs SearchEx KnapModel KnapProofs TspModel TspSpec TspProofs TspEnd ApartProofs SizeProofs SizeSearch SizeEx.
Lemma example_merges :
  (forall weight profit capa, 1 <= length weight -> (0 <= capa)%Z -> Forall (fun w => 0 <= w)%Z weight -> exists I,
     valid_model (knapsack weight profit capa) I fst (length weight) /\ I (p_init (knapsack weight profit capa)) /\ merges_to (knapsack weight profit capa) I fst 50) /\
  (forall weight profit capa, 1 <= length weight -> (0 <= capa)%Z -> Forall (fun w => 0 <= w)%Z weight ->
     valid_model (knapsack2 weight profit capa frac_exact) (kn_inv weight) fst (length weight) -> exists I,
     valid_model (knapsack2 weight profit capa frac_exact) I fst (length weight) /\ I (p_init (knapsack2 weight profit capa frac_exact)) /\
     merges_to (knapsack2 weight profit capa frac_exact) I fst (Z.to_nat (capa / 2) + 1)) /\
  (forall nv d, 2 <= nv -> exists I, valid_model (tsp_prob nv d) I t_h (nv - 1) /\ I (p_init (tsp_prob nv d)) /\ merges_to (tsp_prob nv d) I t_h nv) /\
  (forall St (P : prob St) (I : St -> Prop) (rank : St -> nat), p_sdom P = None ->
     (forall a b, I a -> I b -> a <> p_target P -> b <> p_target P -> rank a = rank b -> p_smf P a b <> None) -> merges_to P I rank 1).
Proof.
  assert (IN : forall weight capa, 1 <= kn_I weight -> (0 <= capa)%Z -> kn_inv' weight capa (0, capa)).
  { intros weight capa H1 H2. split; [|cbn; lia]. left. cbn. lia. }
  split; [|split; [|split]].
  - intros weight profit capa H1 H2 H3. exists (kn_inv' weight capa). destruct (knapsack_few weight profit capa H1 H2 H3) as [V M]. split; [exact V|]. split; [|exact M]. now apply IN.
  - intros weight profit capa H1 H2 H3 V0. exists (kn_inv' weight capa). destruct (knapsack2_few weight profit capa H1 H2 H3 V0) as [V M]. split; [exact V|]. split; [|exact M]. now apply IN.
  - intros nv d H. exists (tsp_inv nv). split; [now apply tsp_valid|]. split; [|now apply tsp_few]. left. now apply tsp_init_live.
  - intros. now apply merges_total.
Qed.
Definition exw : list Z := [2; 4; 6]%Z.
Definition exK : prob sks := knapsack exw [6; 10; 12]%Z 11.
Definition exT : prob tsp := tsp_prob 4 tdist.
Lemma few_case : (1 <= length exw /\ Forall (fun w => 0 <= w)%Z exw) /\
  (do d <- run exK (exSrt exK) 20 (SRelaxed 1) (initialBest exK) ; Ok (map (fun k => length (layer_nodes d k)) [0; 1; 2])) = Ok [1; 2; 4] /\
  (do d <- run exT (exSrt exT) 20 (SRelaxed 1) (initialBest exT) ; Ok (map (fun k => length (layer_nodes d k)) [0; 1; 2; 3])) = Ok [1; 3; 3; 3] /\
  (do d <- run exT (exSrt exT) 20 (SRelaxed 5) (initialBest exT) ; Ok (map (fun k => length (layer_nodes d k)) [0; 1; 2; 3])) = Ok [1; 3; 5; 5].
Proof. split; [split; [cbn; lia|repeat constructor; lia]|]. split; [vm_compute; reflexivity|]. split; vm_compute; reflexivity. Qed.
Lemma partial_merge_refuted : exists d k, run exK (exSrt exK) 20 (SRelaxed 1) (initialBest exK) = Ok d /\ 1 < length (layer_nodes d k).
Proof.
  destruct few_case as (_ & E & _). apply bind_ok in E as (d & E1 & E2). exists d, 2. split; [exact E1|]. injection E2 as _ _ ->. lia.
Qed.
Lemma size_case : (valid_model exP exI fst 4 /\ (forall s, exI s -> s <> p_target exP -> length (p_labels exP s) <= 2) /\ in_range exP (p_init exP) 0) /\
  (do d <- run exP (exSrt exP) 20 (SRestricted 3) (initialBest exP) ; Ok (d_nn d, d_ne d)) = Ok (10, 12) /\
  (do d <- run exT (exSrt exT) 20 (SRelaxed 1) (initialBest exT) ; Ok (d_nn d, d_ne d)) = Ok (23, 18).
Proof.
  split; [split; [exact exP_valid|]; split; [|exact exP_range]|split; vm_compute; reflexivity].
  intros s _ _. unfold exP. cbn [p_labels knapsack2]. unfold kn2_lgf. destruct (_ <=? _)%Z; cbn; lia.
Qed.
Lemma size_search_case : fits 4 tdist /\
  (do (s, _) <- search exT (exSrt exT) 20 (fun k => 0 <? k) 100 1 None ; Ok (d_nn (s_restr s), d_nn (s_relaxed s), length (s_pool s), length (s_hist s), s_w s)) = Ok (5, 23, 3, 1, 1).
Proof. split; [|vm_compute; reflexivity]. intros a l Ha Hl L. apply tdist_fits; try lia. eapply Forall_impl; [|exact Hl]. cbn. lia. Qed.
