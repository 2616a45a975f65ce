(** How the bounds of misp4_lag.cpp compare; counterexamples for its searches. *)
From Coq Require Import QArith Qround Lqa Sorting.Sorted Permutation.
From Verif Require Import Base DDModel DDSpec DDFrame DDExamples DDRelaxedEnd SearchModel SearchProofs SearchEx TspModel TspProofs MispModel MispSpec MispProofs MispInst MispFirst MispEnd ColorModel SearchLoc LagModel LagSpec LagClique LagProofs LagEnd.
Local Open Scope nat_scope.

Lemma sumq_upd (a : list Q) i x : i < length a -> (sumq (fun q => q) (upd a i x) == sumq (fun q => q) a + x - get a i)%Q.
Proof.
  revert i. induction a as [|y a IH]; intros [|i] H; cbn [length] in H; try lia; cbn [upd sumq]; unfold get; cbn [nth].
  - lra.
  - rewrite IH by lia. unfold get. lra.
Qed.
Lemma sumq_zeros n : (sumq (fun q => q) (repeat 0%Q n) == 0)%Q.
Proof. induction n; cbn; [lra|]. rewrite IHn. lra. Qed.
Definition integral (q : Q) : Prop := exists z, (q == inject_Z z)%Q.
Lemma integral_sum l : Forall integral l -> integral (sumq (fun q => q) l).
Proof.
  induction 1 as [|q l [z E] H [t IH]]; [exists 0%Z; reflexivity|]. exists (z + t)%Z. cbn. rewrite E, IH, inject_Z_plus. reflexivity.
Qed.
Lemma Forall_upd {A} (F : A -> Prop) l i x : Forall F l -> F x -> Forall F (upd l i x).
Proof. intros H Hx. revert i. induction H as [|a l Ha H IH]; intros [|i]; cbn; constructor; auto. Qed.

Section Tight.
Variables (nv : nat) (es : list (nat * nat)) (part : clqPartition) (weight : nat -> Z).
Hypothesis Hg : in_graph nv es.
Hypothesis Hp : maximalCliquePartition nv es = Ok part.
Notation step w := (fun a v => upd a (cof part v) (qmax (get a (cof part v)) (get w v))).
Lemma cof_lt v : v < nv -> cof part v < nc part.
Proof. destruct (part_ok nv es part Hg Hp) as [A B]. intros H. now apply (cof_spec nv es part weight A B). Qed.
(** the clique bound is never worse than the sum of the weights used by misp4.cpp and LBopt = 0 *)
Lemma clique_le_sum S : (forall v, v < nv -> (0 <= weight v)%Z) -> (cliqueBound nv part weight S <= total weight (blist nv S))%Z.
Proof.
  intros W. unfold cliqueBound, cliqueSum. set (w := warr nv weight).
  assert (G : forall l a, (forall v, In v l -> v < nv) -> length a = nc part -> (forall i, (0 <= get a i)%Q) ->
    (sumq (fun q => q) (fold_left (step w) l a) <= sumq (fun q => q) a + inject_Z (total weight l))%Q).
  { induction l as [|v l IH]; intros a B L NN; cbn [fold_left total]; [change (inject_Z 0) with 0%Q; lra|]. assert (Lv : v < nv) by (apply B; now left).
    assert (Lc : cof part v < length a) by (rewrite L; now apply cof_lt).
    assert (Gw : (get w v == inject_Z (weight v))%Q) by (unfold w; rewrite get_warr by auto; reflexivity).
    assert (W0 : (0 <= inject_Z (weight v))%Q) by (change 0%Q with (inject_Z 0); rewrite <- Zle_Qle; auto).
    eapply Qle_trans; [apply IH|].
    - intros u Hu. apply B. now right.
    - now rewrite upd_len.
    - intros i. rewrite get_upd by auto. destruct (i =? cof part v); auto. eapply Qle_trans; [apply NN|apply qmax_ge].
    - rewrite sumq_upd, inject_Z_plus by auto. pose proof (NN (cof part v)) as N0. unfold qmax. destruct (Qle_bool (get w v) (get a (cof part v))); lra. }
  specialize (G (blist nv S) (repeat 0%Q (nc part))). rewrite sumq_zeros, <- qsum_sumq in G.
  assert (K : (qsum (fold_left (step w) (blist nv S) (repeat 0%Q (nc part))) <= inject_Z (total weight (blist nv S)))%Q).
  { eapply Qle_trans; [apply G|lra].
    - intros v Hv. apply in_blist in Hv. lia.
    - apply repeat_length.
    - intros i. unfold get. rewrite nth_repeat. lra. }
  apply Qfloor_resp_le in K. now rewrite Qfloor_Z in K.
Qed.
Lemma cliqueSum_integral S : integral (cliqueSum nv part (warr nv weight) S).
Proof.
  unfold cliqueSum. set (w := warr nv weight).
  assert (Gw : forall v, integral (get w v)).
  { intros v. unfold w. destruct (Nat.lt_ge_cases v nv) as [L|L]; [rewrite get_warr by auto; eexists; reflexivity|]. exists 0%Z. unfold get, warr.
    rewrite app_nth2 by (rewrite map_length, seq_length; lia). rewrite map_length, seq_length. destruct (v - nv) as [|[|k]]; reflexivity. }
  assert (G : forall l a, Forall integral a -> Forall integral (fold_left (step w) l a)).
  { induction l as [|v l IH]; intros a H; cbn [fold_left]; auto. apply IH, Forall_upd; auto. unfold qmax. destruct (Qle_bool (get w v) (get a (cof part v))); auto.
    unfold get. destruct (Nat.lt_ge_cases (cof part v) (length a)) as [L|L]; [rewrite Forall_forall in H; apply H; now apply nth_In|]. rewrite nth_overflow by auto. exists 0%Z. reflexivity. }
  destruct (integral_sum (fold_left (step w) (blist nv S) (repeat 0%Q (nc part)))) as [z E].
  - apply G. apply Forall_forall. intros q Hq. apply repeat_spec in Hq. subst q. exists 0%Z. reflexivity.
  - exists z. now rewrite qsum_sumq.
Qed.
(** without multipliers the Lagrangian bound is the clique bound *)
Lemma lag_nil S : lagBound nv part weight [] S = cliqueBound nv part weight S.
Proof.
  unfold lagBound, lagValue, cliqueBound. cbn [fold_left fst snd]. destruct (cliqueSum_integral S) as [z E].
  assert (Hf : forall q, (inject_Z z <= q)%Q -> (q < inject_Z (z + 1))%Q -> Qfloor q = z).
  { intros q A B. pose proof (floor_ge z q A). pose proof (Qfloor_le q) as C. assert (D : (inject_Z (Qfloor q) < inject_Z (z + 1))%Q) by lra. rewrite <- Zlt_Qlt in D. lia. }
  rewrite inject_Z_plus in Hf. rewrite !Hf; auto; unfold eps; change (inject_Z 1) with 1%Q; lra.
Qed.
End Tight.

(** an edge to a vertex that the file does not announce: its vertex number indexes visited past the end *)
Lemma outside_edge : maximalCliquePartition 3 [(0, 1); (1, 3)] = Err UB.
Proof. vm_compute. reflexivity. Qed.

(** ** searches that miss the maximum *)
Definition l1 : list (nat * nat) := [(0, 3); (1, 2)].
Definition l2 : list (nat * nat) := [(0, 1); (0, 6); (1, 3); (2, 6)].
Definition missesM (nv : nat) (es : list (nat * nat)) (part : clqPartition) (w : nat) (got best : Z) (seen : nat) : Prop :=
  exists s m, searchM (lag_base nv es one) (lag_dd nv part one) (lag_bb nv es part one) (exSrt (lag_base nv es one)) 20 nolim (lag_start nv es part one) 100 w None = Ok (s, m, Emptied) /\
    b_primal (s_b s) = got /\ s_seen s = seen /\ exists S, indep_set nv es S /\ total one S = best.
Definition part1 := mkClq [0; 1; 1; 0]%Z [[0; 3]; [1; 2]].
Definition part2 := mkClq [0; 0; 1; 2; 3; 4; 1]%Z [[0; 1]; [2; 6]; [3]; [4]; [5]].
Lemma part1_ok : maximalCliquePartition 4 l1 = Ok part1. Proof. vm_compute. reflexivity. Qed.
Lemma part2_ok : maximalCliquePartition 7 l2 = Ok part2. Proof. vm_compute. reflexivity. Qed.
Definition drop {St M} (r : res (@sst St * M * ending)) : res (@sst St * ending) := do x <- r ; Ok (fst (fst x), snd x).
Lemma drop_inv {St M} (r : res (@sst St * M * ending)) s e : drop r = Ok (s, e) -> exists m, r = Ok (s, m, e).
Proof. destruct r as [[[s' m] e']|]; cbn; [|discriminate]. intros [= <- <-]. eauto. Qed.
Ltac missM n es part w S :=
  let o := fresh "o" in let E := fresh "E" in let s := fresh "s" in let m := fresh "m" in
  destruct (so (lag_base n es one) (drop (searchM (lag_base n es one) (lag_dd n part one) (lag_bb n es part one) (exSrt (lag_base n es one)) 20 nolim (lag_start n es part one) 100 w None))) as [o|] eqn:E;
    [|vm_compute in E; discriminate];
  destruct (so_inv (lag_base n es one) _ o (fun a => proj2 (misp4_eqb_eq a a) eq_refl) E) as (s & H & H1 & H2 & H3 & H4 & H5 & _);
  vm_compute in E; injection E as <-; cbn [o_end] in H; destruct (drop_inv _ _ _ H) as [m H0]; exists s, m; csplit; [exact H0|exact H1|exact H5|exists S; split; [apply indepb_ok; reflexivity|reflexivity]].
Lemma lag_misses : misses (misp_clique 4 l1 part1 one) l1 4 1 1 2 1 /\ misses (misp_clique 7 l2 part2 one) l2 7 3 4 5 0 /\
  missesM 4 l1 part1 1 1 2 1 /\ missesM 7 l2 part2 3 4 5 0.
Proof.
  csplit.
  - miss4 (misp_clique 4 l1 part1 one) 1 [0; 1].
  - miss4 (misp_clique 7 l2 part2 one) 3 [0; 2; 3; 4; 5].
  - missM 4 l1 part1 1 [0; 1].
  - missM 7 l2 part2 3 [0; 2; 3; 4; 5].
Qed.
(** a search of width 3 over several nodes that does find a maximum *)
Definition l3 : list (nat * nat) := [(0, 1); (0, 2); (0, 3); (0, 4); (0, 5); (0, 7); (0, 8); (1, 3); (1, 4); (1, 6); (1, 8); (2, 3); (2, 5); (2, 6); (2, 7); (2, 8); (3, 5); (3, 6);
  (4, 6); (4, 7); (4, 8); (5, 6); (5, 7); (5, 8); (6, 7); (6, 8)].
Definition part3 := mkClq [0; 1; 0; 2; 1; 0; 1; 3; 0]%Z [[0; 2; 5; 8]; [6; 1; 4]; [3]; [7]].
Lemma part3_ok : maximalCliquePartition 9 l3 = Ok part3. Proof. vm_compute. reflexivity. Qed.
Lemma l3_graph : in_graph 9 l3.
Proof. intros a b H. cbn in H. repeat (destruct H as [H|H]; [injection H as <- <-; lia|]). destruct H. Qed.
Lemma l3_run : exists s m, searchM (lag_base 9 l3 one) (lag_dd 9 part3 one) (lag_bb 9 l3 part3 one) (exSrt (lag_base 9 l3 one)) 20 nolim (lag_start 9 l3 part3 one) 100 3 None = Ok (s, m, Emptied) /\
  s_seen s = 0 /\ hist_ok (lag_base 9 l3 one) s /\ s_ttl s = 3 /\ b_primal (s_b s) = 3%Z /\ b_inc (s_b s) = [0; 0; 0; 1; 0; 0; 0; 1; 1]%Z.
Proof.
  destruct (so (lag_base 9 l3 one) (drop (searchM (lag_base 9 l3 one) (lag_dd 9 part3 one) (lag_bb 9 l3 part3 one) (exSrt (lag_base 9 l3 one)) 20 nolim (lag_start 9 l3 part3 one) 100 3 None))) as [o|] eqn:E;
    [|vm_compute in E; discriminate].
  destruct (so_inv (lag_base 9 l3 one) _ o (fun a => proj2 (misp4_eqb_eq a a) eq_refl) E) as (s & H & H1 & H2 & H3 & H4 & H5 & _ & _ & _ & _ & _ & H6).
  vm_compute in E. injection E as <-. cbn [o_end] in H. destruct (drop_inv _ _ _ H) as [m H0]. exists s, m. csplit; auto.
Qed.
