(** The statements of PropKnap.v. *)
From Verif Require Import Base DDModel DDSpec DDFrame DDRestricted DDExact KnapModel KnapProofs DDExamples TabModel SearchModel SearchProofs SearchEx.

(** a feasible selection: one label 0 or 1 per item, total weight within the capacity *)
Definition feasible (weight : list Z) (capa : Z) (ls : list Z) : Prop :=
  selection ls /\ length ls = length weight /\ (tot (wt weight) 0 ls <= capa)%Z.
Definition value (profit : list Z) (ls : list Z) : Z := tot (pf profit) 0 ls.
Record instance_ok (weight profit : list Z) (capa : Z) : Prop := {
  io_n : 1 <= length weight;
  io_c : (0 <= capa)%Z;
  io_w : Forall (fun w => (0 <= w)%Z) weight }.

Lemma knapsack_solutions weight profit capa : instance_ok weight profit capa ->
  forall P, P = knapsack weight profit capa \/ (exists frac, P = knapsack2 weight profit capa frac) ->
  forall ls v, path P (p_init P) ls v (p_target P) <-> feasible weight capa ls /\ v = value profit ls.
Proof.
  intros [H1 H2 H3] P HP ls v.
  assert (K : knap_like weight profit capa P).
  { destruct HP as [->|[frac ->]]; [apply knapsack_like|apply knapsack2_like]; exact H1. }
  rewrite (kn_solutions weight profit capa H1 H2 H3 P K). unfold feasible, value, kn_I. tauto.
Qed.

Section Exact.
Variables (weight profit : list Z) (capa : Z).
Hypothesis IO : instance_ok weight profit capa.
Hypothesis Hp : Forall (fun p => (0 <= p)%Z) profit.
Notation P := (knapsack weight profit capa).
Notation NI := (kn_I weight).
Let H1 : 1 <= NI := io_n _ _ _ IO.
Let K := knapsack_like weight profit capa H1.

Definition kn_states : list sks := (NI, 0%Z) :: list_prod (seq 0 NI) (map Z.of_nat (seq 0 (Z.to_nat (capa + 1)))).
Lemma kn_reach s ls v t : path P s ls v t -> kn_inv weight s -> (fst s < NI -> (snd s <= capa)%Z) -> In t kn_states.
Proof.
  intros H. induction H as [s|s l s' ls v t Ns Hl Es H IH]; intros Is Cs.
  - destruct Is as [[I1 I2]| ->]; [|left; auto]. right. destruct s as [n c]. cbn [fst snd] in *. apply in_prod; [apply in_seq; lia|].
    apply in_map_iff. exists (Z.to_nat c). split; [lia|]. apply in_seq. specialize (Cs I1). lia.
  - pose proof (kn_closed weight profit capa H1 P K) as CL. apply IH.
    + eapply (cl_step _ _ CL); eauto.
    + intros L. apply (k_labels _ _ _ _ K) in Hl. rewrite (k_stf _ _ _ _ K) in Es by tauto.
      destruct (kn_target weight profit capa P K s Is Ns) as [F1 F2]. specialize (Cs F1).
      pose proof (wt_nonneg weight H1 (io_w _ _ _ IO) (fst s)).
      destruct (S (fst s) <? NI); injection Es as <-; cbn [fst snd] in *; [|lia]. destruct Hl as [->|[-> _]]; lia.
Qed.
Lemma kn_acyclic : acyclic P (kn_inv weight) (fun s => fst s).
Proof.
  intros s l s' Is Ns Hl Es. apply (k_labels _ _ _ _ K) in Hl. rewrite (k_stf _ _ _ _ K) in Es by tauto.
  destruct (kn_target weight profit capa P K s Is Ns) as [F1 F2]. destruct (Nat.ltb_spec (S (fst s)) NI); injection Es as <-; cbn; lia.
Qed.

Lemma knapsack_exact fuel primal : length weight * Z.to_nat (capa + 1) + 1 <= fuel ->
  exists d n, ex_compute P fuel (initDefault P (dd_empty P true)) primal = Ok d /\ trg_node d = Ok n /\
    feasible weight capa (n_lab n) /\ n_bound n = value profit (n_lab n) /\ (forall ls, feasible weight capa ls -> (value profit ls <= n_bound n)%Z).
Proof.
  intros F. pose proof (kn_closed weight profit capa H1 P K) as CL.
  destruct (kn_init_inv weight profit capa H1 (io_c _ _ _ IO) P K) as [Ii Ni].
  pose proof (kn_in_range weight profit capa H1 P K (p_init P) 0 Hp ltac:(lia)) as Rg.
  pose proof (started_default P true) as ST.
  destruct (exact_terminates P (kn_inv weight) CL eq_refl (fun s => fst s) kn_acyclic (p_init P) 0 [] Ni Ii _ fuel primal kn_states ST) as [d E].
  { intros ls v s Hpth. eapply kn_reach; eauto. cbn. intros. lia. }
  { left. auto. }
  { unfold kn_states. cbn [length]. assert (LL : forall (a : list nat) (b : list Z), @length sks (list_prod a b) = length a * length b) by (intros; apply prod_length).
    rewrite LL, map_length, !seq_length. unfold kn_I. lia. }
  destruct (exact_ok P (kn_inv weight) CL eq_refl (fun s => fst s) kn_acyclic (p_init P) 0 [] Ni Ii Rg _ fuel primal d ST E) as (T & A & B & C & D & _).
  assert (SOL : forall ls v, path P (p_init P) ls v (p_target P) <-> feasible weight capa ls /\ v = value profit ls)
    by (apply knapsack_solutions; auto).
  assert (X : exists V, solution P (p_init P) 0 V).
  { exists (value profit (repeat 0%Z NI)), (value profit (repeat 0%Z NI)). split; [|lia]. exists (repeat 0%Z NI). apply SOL. split; auto.
    assert (Z0 : forall f k n, tot f n (repeat 0%Z k) = 0%Z) by (intros f; induction k; intros m; cbn; rewrite ?IHk; lia).
    split; [apply Forall_forall; intros x Hx; apply repeat_spec in Hx; auto|]. split; [apply repeat_length|rewrite Z0; apply (io_c _ _ _ IO)]. }
  exists d, (d_nd d 1). split; auto. split; [unfold trg_node; now rewrite T|].
  destruct (D X) as (ls & v & El & Ev & Pt). cbn in El. subst ls. apply SOL in Pt as [F1 F2]. rewrite Ev, F2. csplit; auto.
  intros ls Fl. assert (Q : solution P (p_init P) 0 (value profit ls)) by (exists (value profit ls); split; [exists ls; apply SOL; auto|lia]).
  apply C in Q. rewrite Ev, F2 in Q. unfold be, val in Q. cbn in Q. lia.
Qed.
End Exact.

(** the greedy value preset by knapsack2 *)
Lemma getUB_loop_ok : forall items rC val v, (0 <= rC)%Z -> getUB_loop items rC val = Ok v ->
  exists ls, selection ls /\ length ls = length items /\ (seltot fst items ls <= rC)%Z /\ v = (val + seltot snd items ls)%Z.
Proof.
  assert (Z0 : forall f items k, seltot f items (repeat 0%Z k) = 0%Z) by (intros f; induction items as [|a l IH]; intros [|k]; cbn; auto; rewrite IH; lia).
  assert (S0 : forall k, selection (repeat 0%Z k)) by (intros k; apply Forall_forall; intros x Hx; apply repeat_spec in Hx; auto).
  induction items as [|[w p] items IH]; intros rC val v HC H; cbn [getUB_loop] in H; destruct (Z.leb_spec 0 rC) as [H0|H0]; try lia; [discriminate|].
  destruct (Z.leb_spec w rC) as [H1|H1].
  - apply IH in H as (ls & A & B & C & D); [|lia]. exists (1%Z :: ls). csplit; [constructor; auto|cbn; lia|cbn [seltot fst]; lia|cbn [seltot snd]; lia].
  - injection H as <-. exists (repeat 0%Z (length ((w, p) :: items))). rewrite repeat_length, !Z0. csplit; auto; lia.
Qed.
Lemma getUB_loop_ub : forall items rC val, Forall (fun i => 0 <= fst i)%Z items -> (0 <= rC)%Z ->
  (getUB_loop items rC val = Err UB <-> (fold_right Z.add 0 (map fst items) <= rC)%Z).
Proof.
  induction items as [|[w p] items IH]; intros rC val F HC; cbn [getUB_loop]; destruct (Z.leb_spec 0 rC) as [H0|H0]; try lia.
  - cbn. intuition.
  - inversion F as [|? ? F1 F2]; subst. cbn [fst] in F1. cbn [map fold_right fst].
    assert (0 <= fold_right Z.add 0 (map fst items))%Z by (clear - F2; induction F2; cbn; lia).
    destruct (Z.leb_spec w rC) as [H1|H1]; [rewrite IH by (auto; lia); lia|]. split; [discriminate|lia].
Qed.
Lemma getUB_feasible weight profit capa v : instance_ok weight profit capa -> length profit = length weight -> kn2_getUB weight profit capa = Ok v ->
  exists ls, feasible weight capa ls /\ v = value profit ls.
Proof.
  intros [H1 H2 H3] L H. unfold kn2_getUB in H. apply getUB_loop_ok in H as (ls & A & B & C & D); auto.
  assert (LC : length (combine weight profit) = length weight) by (rewrite combine_length, L; apply Nat.min_id).
  rewrite LC in B.
  assert (TF : seltot fst (skipn 0 (combine weight profit)) ls = tot (wt weight) 0 ls).
  { apply seltot_tot; [exact H1| |lia]. intros i. destruct (Nat.lt_ge_cases i (length weight)) as [Hi|Hi]; [left|right; lia]. unfold wt.
    rewrite (nth_indep _ 0%Z (fst (0%Z, 0%Z))) by (rewrite map_length, LC; auto). rewrite map_nth, combine_nth; auto. }
  assert (TS : seltot snd (skipn 0 (combine weight profit)) ls = tot (pf profit) 0 ls).
  { apply seltot_tot; [exact H1| |lia]. intros i. destruct (Nat.lt_ge_cases i (length weight)) as [Hi|Hi]; [left|right; lia]. unfold pf.
    rewrite (nth_indep _ 0%Z (snd (0%Z, 0%Z))) by (rewrite map_length, LC; auto). rewrite map_nth, combine_nth; auto. }
  cbn [skipn] in TF, TS. exists ls. unfold feasible, value. rewrite <- TF, <- TS. csplit; auto.
Qed.
Lemma getUB_overrun weight profit capa : instance_ok weight profit capa -> length profit = length weight ->
  (kn2_getUB weight profit capa = Err UB <-> (fold_right Z.add 0 weight <= capa)%Z).
Proof.
  intros [H1 H2 H3] L. unfold kn2_getUB. rewrite getUB_loop_ub; auto.
  - assert (E : map fst (combine weight profit) = weight). { clear - L. revert profit L. induction weight as [|a l IH]; intros [|b p] L; cbn in *; try lia; auto. f_equal. apply IH. lia. }
    now rewrite E.
  - clear - H3. revert profit. induction H3 as [|a l Ha Hl IH]; intros [|b p]; cbn; constructor; auto.
Qed.

(** the floating-point local bound *)
Lemma fp_local_refuted : sorted_ratio (combine fpI fpI) /\ kn2_getUB fpI fpI 51 = Ok 50%Z /\
  ~ valid_local fpP (kn_inv fpI) /\ feasible fpI 51 [1; 0; 1]%Z /\ value fpI [1; 0; 1]%Z = 51%Z /\
  (forall w, exists s, search fpP (exSrt fpP) 20 nolim 100 w (Some 50%Z) = Ok (s, Emptied) /\ b_primal (s_b s) = 50%Z /\ b_inc (s_b s) = []).
Proof.
  split; [cbn; repeat constructor; unfold ratio_ge; cbn; lia|]. split; [reflexivity|]. split; [|split; [|split; [reflexivity|exact fp_search]]].
  - intros H. assert (C : compl fpP (p_init fpP) 51%Z) by (exists [1; 0; 1]%Z; apply walk_path; [intros; apply sks_eqb_eq|reflexivity]).
    specialize (H (kn2_local fpI fpI frac_double) (p_init fpP) true 51%Z eq_refl ltac:(left; cbn; unfold kn_I; cbn; lia) C).
    vm_compute in H. apply H. reflexivity.
  - split; [repeat apply Forall_cons; auto|split; [reflexivity|cbn; lia]].
Qed.

(** the dominance of knapsack2 compares states of different depths *)
Lemma kn2_cross_dom_refuted : exists weight profit capa, instance_ok weight profit capa /\
  ~ valid_qdom (knapsack2 weight profit capa frac_exact) (kn_inv weight).
Proof.
  exists [1; 1]%Z, [5; 5]%Z, 2%Z. split; [constructor; cbn; [lia|lia|repeat constructor; lia]|]. intros H.
  specialize (H kn2_dom (1, 2%Z) (0, 2%Z) eq_refl ltac:(left; cbn; unfold kn_I; cbn; lia) ltac:(left; cbn; unfold kn_I; cbn; lia) ltac:(discriminate) ltac:(discriminate) eq_refl).
  destruct (H 10%Z) as (v' & (ls & Pt) & B).
  - exists [1; 1]%Z. apply walk_path; [intros; apply sks_eqb_eq|reflexivity].
  - assert (N1 : 1 <= kn_I [1; 1]%Z) by (unfold kn_I; cbn; lia). assert (N2 : Forall (fun w => (0 <= w)%Z) [1; 1]%Z) by (repeat constructor; lia).
    apply (kn_paths [1; 1]%Z [5; 5]%Z 2%Z N1 N2 _ (knapsack2_like [1; 1]%Z [5; 5]%Z 2%Z N1 frac_exact) 1 1 2%Z ls v') in Pt; [|reflexivity|unfold kn_I; cbn; lia|lia].
    destruct Pt as (A1 & A2 & A3 & ->). destruct ls as [|l [|? ?]]; cbn in A2; try discriminate. inversion A1 as [|? ? [->| ->] ?]; subst; unfold be, val in B; cbn in B; lia.
Qed.
