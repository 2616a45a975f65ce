(** ofs - S: statements about histories, counterexamples. *)
From Verif Require Import Base BitModel BitProofs SetModel SetSpec SetProofs GSetProofs SetEnd SubModel SubProofs.
Local Open Scope Z_scope.
Local Ltac vsplit := repeat match goal with |- _ /\ _ => split; [vm_compute; reflexivity|] end; try match goal with |- _ = _ => vm_compute; reflexivity end.

Lemma sub_built n t A ofs : nat_built n t A -> (1 <= n <= 512)%nat -> (forall v, A v -> 0 <= ofs - v < 64 * Z.of_nat n) ->
  (forall lv, A lv -> (forall v, A v -> v <= lv) -> sub_ok n ofs lv) ->
  exists r l, ns_sub ofs t = Ok r /\ ns_list r = Ok l /\ lists l (fun q => exists v, A v /\ q = ofs - v).
Proof.
  intros H Hn R C. destruct (nat_built_ok n t A H) as (L & W & M). subst n. destruct (ns_sub_ok t ofs W) as (r & E & Lr & Wr & Mr).
  - intros v Hv. apply R. now apply M.
  - intros lv Hl Mx. apply C; [now apply M|]. intros v Hv. now apply Mx, M.
  - exists r, (els 0 r). split; auto. split.
    + rewrite ns_list_ok by (auto; lia). rewrite short_els; auto. intros q Hq. apply in_els in Hq as [Hq Hm]; auto. rewrite Z.mul_0_r, Z.sub_0_r in Hm. apply mem_lt in Hm. lia.
    + split; [now apply els_sorted|]. intros q. rewrite in_els by auto. rewrite Z.mul_0_r, Z.sub_0_r, Mr, M. split.
      * intros [_ HA]. exists (ofs - q). split; auto. lia.
      * intros (v & HA & ->). replace (ofs - (ofs - v)) with v by lia. split; auto. specialize (R v HA). lia.
Qed.
Lemma sub_one_word t A ofs : nat_built 1 t A -> (forall v, A v -> 0 <= ofs - v < 64) ->
  exists r l, ns_sub ofs t = Ok r /\ ns_list r = Ok l /\ lists l (fun q => exists v, A v /\ q = ofs - v).
Proof. intros H R. apply (sub_built 1); auto; [lia|]. intros. now left. Qed.
Lemma sub_near n t A ofs lv : nat_built n t A -> (1 <= n <= 512)%nat -> A lv -> (forall v, A v -> v <= lv) -> (forall v, A v -> 0 <= ofs - v < 64 * Z.of_nat n) ->
  ofs - lv < 64 -> ~ (ofs = lv /\ lv mod 64 = 0) ->
  exists r l, ns_sub ofs t = Ok r /\ ns_list r = Ok l /\ lists l (fun q => exists v, A v /\ q = ofs - v).
Proof.
  intros H Hn Al Mx R D N. apply (sub_built n); auto. intros lv' Al' Mx'. assert (lv' = lv) as -> by (specialize (Mx lv' Al'); specialize (Mx' lv Al); lia). right. split; [|lia].
  intros [X Y]. apply N. specialize (R lv Al). rewrite Z.mod_small in Y by lia. split; auto. lia.
Qed.
Lemma sub_wrong :
  (exists t r, ns_ofList 4 [0; 64] = Ok t /\ ns_sub 194 t = Ok r /\ ns_list r = Ok [130]) /\
  (exists t, ns_ofList 2 [70] = Ok t /\ ns_sub 134 t = Err UB) /\
  (exists t, ns_ofList 4 [0; 64] = Ok t /\ ns_sub 64 t = Err UB).
Proof.
  split; [|split].
  - do 2 eexists. vsplit.
  - eexists. vsplit.
  - eexists. vsplit.
Qed.
Lemma sub_refuted : ~ (forall n t A ofs, nat_built n t A -> (1 <= n <= 512)%nat -> (forall v, A v -> 0 <= ofs - v < 64 * Z.of_nat n) ->
  exists r l, ns_sub ofs t = Ok r /\ ns_list r = Ok l /\ lists l (fun q => exists v, A v /\ q = ofs - v)).
Proof.
  intros F. destruct sub_wrong as [(t & r & E1 & E2 & E3) _]. destruct (F 4%nat t (fun q => In q [0; 64]) 194) as (r' & l & R1 & R2 & _ & R3); [now apply nb_list|lia| |].
  - intros v Hv. cbn in Hv. lia.
  - rewrite E2 in R1. injection R1 as <-. rewrite E3 in R2. injection R2 as <-. assert (X : In 194 [130]) by (apply R3; exists 0; split; [cbn; auto|lia]). cbn in X. lia.
Qed.
