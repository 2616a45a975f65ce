(** Sets of src/util.hpp: the statements about whole histories, and the counterexamples. *)
From Verif Require Import Base BitModel BitProofs SetModel SetSpec SetProofs GSetProofs.
Local Open Scope Z_scope.
Local Ltac csplit := repeat match goal with |- _ /\ _ => split end.

Lemma g_contains_built s A p : gn_built s A -> 0 <= p -> exists b, g_contains s p = Ok b /\ (b = true <-> A p).
Proof.
  intros H P. destruct (gn_built_ok s A H) as [(L & B & W & Nu) M]. unfold g_contains. rewrite w_ix_div. pose proof (div_nn p P). pose proof (mod64 p). pose proof (divmod p).
  destruct (Z.leb_spec (g_mxw s) (p / 64)) as [G|G].
  - exists false. split; auto. split; [discriminate|]. intros HA. apply (built_nonneg s A p H) in HA. lia.
  - pose proof (contains_bits (g_t s) p W ltac:(lia)) as C. unfold ns_contains in C. rewrite w_ix_div in C. rewrite C. eauto.
Qed.
Lemma g_progress s A u B : gn_built s A -> gn_built u B -> g_mxw s <= 32767 -> g_mxw u <= 32767 ->
  (forall p, 0 < g_mxw s -> 0 <= p < 1048576 -> exists s', g_insert s p = Ok s') /\ (forall p, exists s', g_remove s p = Ok s') /\ (exists s', g_complement s = Ok s') /\
  (exists s', g_union s u = Ok s') /\ (exists s', g_inter s u = Ok s') /\ (exists s', g_diff s u = Ok s') /\ (forall p, exists s', g_removeBelow s p = Ok s').
Proof.
  intros H1 H2 L1 L2. apply gn_built_ok in H1 as [G1 _]. apply gn_built_ok in H2 as [G2 _].
  assert (X : (g_lim <? g_mxw s) = false) by (unfold g_lim; lia). assert (Y : (g_lim <? g_mxw u) = false) by (unfold g_lim; lia).
  unfold g_complement, g_union, g_inter, g_diff. rewrite X, Y. cbn [orb]. csplit; eauto.
  - intros p M P. destruct (g_insert_ok s p G1 M P) as (s' & E & _). eauto.
  - intros p. now apply g_remove_ok.
  - destruct (g_mxw s <? g_mxw u); eauto.
  - intros p. now apply g_removes_ok.
Qed.
Lemma g_insert_diverges : (exists s, gn_built s (fun q => 1 <= q <= 0) /\ g_insert s 5 = Err OutOfFuel) /\
  (exists s, gn_built s (fun q => In q [1]) /\ g_insert s 4194304 = Err OutOfFuel).
Proof.
  split; eexists; split; [apply gb_interval; vm_compute; reflexivity|vm_compute; reflexivity|apply gb_list; vm_compute; reflexivity|vm_compute; reflexivity].
Qed.
Lemma g_contains_negative : exists s, gn_built s (fun q => In q [1]) /\ g_contains s (-1) = Err UB.
Proof. eexists; split; [apply gb_list; vm_compute; reflexivity|vm_compute; reflexivity]. Qed.

Lemma g_iteration s A : gn_built s A -> (forall q, A q -> q < 32768) -> (g_mxw s = 0 -> g_null s = true) -> g_mxw s <= 32767 ->
  exists l, g_list s = Ok l /\ lists l A /\ g_size s = Ok (length l) /\ exists b, g_empty s = Ok b /\ (b = true <-> forall q, ~ A q).
Proof.
  intros H S0 Z0 Lm. destruct (g_list_built s A H S0 Z0) as [E Ls]. exists (els 0 (g_t s)). assert (X : (g_lim <? g_mxw s) = false) by (unfold g_lim; lia).
  unfold g_size, g_empty. rewrite X. csplit; auto.
  - now rewrite (ns_size_els _ 0).
  - eexists. split; [reflexivity|]. rewrite w_empty_all. cbn [Nat.eqb andb]. rewrite (all0_els _ 0). split.
    + intros E0 q HA. apply Ls in HA. rewrite E0 in HA. destruct HA.
    + intros HN. destruct (els 0 (g_t s)) as [|v l] eqn:El; auto. destruct (HN v). apply Ls. now left.
Qed.
Lemma g_iteration_nonempty s A q0 : gn_built s A -> A q0 -> (forall q, A q -> q < 32768) -> exists l, g_list s = Ok l /\ lists l A.
Proof.
  intros H A0 S0. pose proof (built_nonneg s A q0 H A0). eexists. apply g_list_built; auto. intros; lia.
Qed.
Lemma g_iteration_bad : (exists s, gn_built s (fun q => 1 <= q <= 0) /\ g_size s = Ok 0%nat /\ g_list s = Err UB) /\
  (exists s, gn_built s (fun q => q = 40000 \/ In q [1]) /\ g_list s = Ok [1; -25536]).
Proof.
  split.
  - destruct (g_interval 1 0) as [s|] eqn:E; [|discriminate]. exists (g_copy s). split; [apply gb_copy, gb_interval, E|]. injection E as <-. split; vm_compute; reflexivity.
  - destruct (g_ofList [1]) as [s|] eqn:E; [|discriminate]. destruct (g_insert s 40000) as [s'|] eqn:E'.
    + exists s'. split; [eapply gb_insert; [apply gb_list, E|exact E']|]. assert (X : (do s <- g_ofList [1] ; do s <- g_insert s 40000 ; g_list s) = Ok [1; -25536]) by (vm_compute; reflexivity).
      rewrite E in X. cbn [bind] in X. rewrite E' in X. exact X.
    + exfalso. assert (X : (do s <- g_ofList [1] ; do s <- g_insert s 40000 ; g_list s) = Ok [1; -25536]) by (vm_compute; reflexivity). rewrite E in X. cbn [bind] in X. rewrite E' in X. discriminate.
Qed.

Lemma g_equality s A u B : gn_built s A -> gn_built u B -> (g_eq s u = true <-> forall q, A q <-> B q) /\ g_ne s u = negb (g_eq s u).
Proof. intros H1 H2. split; [now apply g_eq_built|]. apply w_ne_eq. Qed.
Lemma gn_built_ext_list l s (A : Z -> Prop) : g_ofList l = Ok s -> A = (fun q => In q l) -> gn_built s A.
Proof. intros H ->. now apply gb_list. Qed.
Lemma g_hash_differs : exists s u (A : Z -> Prop), gn_built s A /\ gn_built u A /\ g_eq s u = true /\ g_hash s <> g_hash u.
Proof.
  (* {1}: one word; the same set with room for two words, through NatSet<2> *)
  exists (g_ofNat [2%N]), (g_ofNat [2%N; 0%N]), (fun q => In q [1]). split; [|split; [|split]].
  - apply (gb_ofNat 1); [lia|]. apply nb_list. vm_compute. reflexivity.
  - apply (gb_ofNat 2); [lia|]. apply nb_list. vm_compute. reflexivity.
  - vm_compute. reflexivity.
  - vm_compute. discriminate.
Qed.
Lemma w_eq_same a : forall b, length a = length b -> w_eq a b = true -> a = b.
Proof. intros b L H. apply nth_ext with (d := 0%N) (d' := 0%N); auto. intros i _. now apply w_eq_nth. Qed.
Lemma g_hash_same s A u B : gn_built s A -> gn_built u B -> g_mxw s = g_mxw u -> g_eq s u = true -> g_hash s = g_hash u.
Proof.
  intros H1 H2 E Q. apply gn_built_ok in H1 as [(L1 & _) _]. apply gn_built_ok in H2 as [(L2 & _) _]. unfold g_hash. rewrite (w_eq_same (g_t s) (g_t u)); auto. lia.
Qed.

Lemma g_removeBelow_built s A p : gn_built s A -> exists s', g_removeBelow s p = Ok s' /\ gn_built s' (fun q => p <= q /\ A q).
Proof.
  intros H. destruct (gn_built_ok s A H) as [G _]. destruct (g_removes_ok (Z.to_nat p) s 0 G) as (s' & E). exists s'. split; auto. eapply gb_removeBelow; eauto.
Qed.
Lemma g_removeAbove_built s A p : gn_built s A -> 0 <= p -> (forall q, A q -> q <= g_nbp s) -> (p < g_nbp s -> p + 1 < 64 * g_mxw s) ->
  exists s', g_removeAbove s p = Ok s' /\ gn_built s' (fun q => q <= p /\ A q).
Proof.
  intros H P Q C. destruct (gn_built_ok s A H) as [G _]. destruct (g_removeAbove_ok s p G P C) as (s' & E). exists s'. split; auto. eapply gb_removeAbove; eauto.
Qed.
(** largestPossible() while only inserting *)
Lemma g_inserts_nbp l : forall s s', gok s -> g_inserts s l = Ok s' -> (forall q, In q l -> q < 65536) ->
  g_nbp s <= g_nbp s' /\ (forall q, In q l -> q <= g_nbp s') /\ (g_nbp s < 64 * g_mxw s -> g_nbp s' < 64 * g_mxw s').
Proof.
  induction l as [|p l IH]; intros s s' G H B; cbn [g_inserts] in H.
  - injection H as <-. csplit; auto; [lia|easy].
  - apply bind_ok in H as (s1 & I & H). pose proof I as I0. apply g_insert_inv in I as (G1 & P & L1 & M1); auto.
    assert (N1 : g_nbp s1 = Z.max (g_nbp s) p).
    { unfold g_insert in I0. destruct (p <? 0); [discriminate|]. apply bind_ok in I0 as ([[m t] nul] & _ & I0). apply bind_ok in I0 as (t' & _ & I0). injection I0 as <-. cbn.
      unfold ushort. rewrite Z.mod_small; auto. specialize (B p (or_introl eq_refl)). lia. }
    assert (C1 : p < 64 * g_mxw s1).
    { pose proof (M1 p) as M. rewrite Z.eqb_refl in M. cbn in M. unfold mem in M. apply andb_prop in M as [_ M]. destruct G1 as (Lg & _). pose proof (div_nn p P). pose proof (mod64 p). pose proof (divmod p).
      destruct (Nat.lt_ge_cases (Z.to_nat (p / 64)) (length (g_t s1))); [lia|]. rewrite nth_overflow in M by auto. rewrite N.bits_0 in M. discriminate. }
    apply IH in H as (A1 & A2 & A3); auto; [|intros; apply B; now right]. csplit.
    + lia.
    + intros q [->|Hq]; [lia|auto].
    + intros. apply A3. lia.
Qed.
Lemma g_removeAbove_list l s p : g_ofList l = Ok s -> (forall q, In q l -> q < 65536) -> (length l < 64)%nat -> 0 <= p < 65535 ->
  exists s', g_removeAbove s p = Ok s' /\ gn_built s' (fun q => q <= p /\ In q l).
Proof.
  intros E B Ln P. pose proof E as E0. unfold g_ofList in E0. cbv zeta in E0. rewrite shr6, Z.div_small in E0 by lia. cbn [g_double Z.leb Z.compare bind] in E0.
  apply g_inserts_nbp in E0 as (_ & A2 & A3); auto; [|apply (gok_zero 1); lia]. change (ushort (Z.shiftl 0 6)) with 0 in A3. cbn [g_nbp g_mxw] in A3. specialize (A3 ltac:(lia)).
  apply g_removeAbove_built with (A := fun q => In q l); auto; try lia. now apply gb_list.
Qed.
Lemma g_removeAbove_bad : (exists s u v w, g_ofList [1] = Ok s /\ g_ofList [50] = Ok u /\ g_or s u = Ok v /\ g_removeAbove v 10 = Ok w /\ g_contains w 50 = Ok true) /\
  (exists s, g_interval 0 63 = Ok s /\ g_removeAbove s 63 = Err UB) /\ g_removeAbove (g_new 64) 63 = Err UB.
Proof.
  split; [do 4 eexists; split; [vm_compute; reflexivity|]; split; [vm_compute; reflexivity|]; split; [vm_compute; reflexivity|]; split; vm_compute; reflexivity|].
  split; [eexists; split; vm_compute; reflexivity|vm_compute; reflexivity].
Qed.

(** ** NatSet *)
Lemma ns_contains_built n t A p : nat_built n t A -> 0 <= p < 64 * Z.of_nat n -> exists b, ns_contains t p = Ok b /\ (b = true <-> A p).
Proof. intros H P. destruct (nat_built_ok n t A H) as (L & W & M). exists (mem t p). split; [apply contains_bits; auto; lia|apply M]. Qed.
Lemma ns_insert_built n t A p : nat_built n t A -> 0 <= p < 64 * Z.of_nat n -> exists t', ns_insert t p = Ok t'.
Proof. intros H P. destruct (nat_built_ok n t A H) as (L & W & M). apply or_ok; auto. lia. Qed.
Lemma ns_lists n t A : nat_built n t A -> lists (els 0 t) A /\ forall q, A q -> 0 <= q < 64 * Z.of_nat n.
Proof.
  intros H. destruct (nat_built_ok n t A H) as (L & W & M).
  assert (R : forall q, A q -> 0 <= q < 64 * Z.of_nat n).
  { intros q HA. apply M in HA. unfold mem in HA. apply andb_prop in HA as [HA T]. split; [lia|]. pose proof (div_nn q ltac:(lia)). pose proof (mod64 q). pose proof (divmod q).
    destruct (Nat.lt_ge_cases (Z.to_nat (q / 64)) (length t)); [lia|]. rewrite nth_overflow in T by auto. rewrite N.bits_0 in T. discriminate. }
  split; auto. split; [now apply els_sorted|]. intros q. rewrite in_els by auto. rewrite Z.mul_0_r, Z.sub_0_r, M. split; [tauto|]. intros HA. split; auto. now apply R.
Qed.
Lemma ns_empty_els n t A : nat_built n t A -> (ns_empty t = true <-> forall q, ~ A q).
Proof.
  intros H. destruct (ns_lists n t A H) as [Ls _]. unfold ns_empty. rewrite empty_fold. cbn [andb]. rewrite (all0_els _ 0). split.
  - intros E0 q HA. apply Ls in HA. rewrite E0 in HA. destruct HA.
  - intros HN. destruct (els 0 t) as [|v l] eqn:El; auto. destruct (HN v). apply Ls. now left.
Qed.
Lemma ns_iteration n t A : nat_built n t A -> (1 <= n <= 512)%nat ->
  exists l, ns_list t = Ok l /\ lists l A /\ ns_size t = length l /\ (ns_empty t = true <-> forall q, ~ A q).
Proof.
  intros H Hn. destruct (nat_built_ok n t A H) as (L & W & M). destruct (ns_lists n t A H) as [Ls R]. exists (els 0 t). csplit.
  - rewrite ns_list_ok by (auto; lia). rewrite short_els; auto. intros q Hq. apply Ls, R in Hq. lia.
  - apply Ls.
  - apply ns_size_els.
  - now apply (ns_empty_els n t A).
Qed.
Lemma ns_largest_built n t A : nat_built n t A -> (ns_empty t = true -> ns_largest t = -1) /\ (ns_empty t = false -> A (ns_largest t)) /\ forall q, A q -> q <= ns_largest t.
Proof.
  intros H. destruct (nat_built_ok n t A H) as (L & W & M). assert (Wr : wok (rev t)) by (apply Forall_rev; exact W). pose proof (largest_ok (rev t) Wr) as [L1 L2].
  unfold ns_largest. rewrite rev_length, rev_involutive in *. unfold ns_empty. rewrite empty_fold. cbn [andb]. csplit.
  - intros E. apply (all0_els t 0) in E. rewrite L1, E. reflexivity.
  - intros E. apply M. apply L2. intros X. apply (all0_els t 0) in X. congruence.
  - intros q HA. apply M in HA. apply L2; auto. intros X. pose proof (proj2 (in_els t W 0 q)) as I. rewrite X in I. apply I. rewrite Z.mul_0_r, Z.sub_0_r. split; auto. unfold mem in HA. lia.
Qed.
Lemma ns_equality n t A u B : nat_built n t A -> nat_built n u B -> (ns_eq t u = true <-> forall q, A q <-> B q) /\ (ns_eq t u = true -> ns_hash t = ns_hash u).
Proof.
  intros H1 H2. destruct (nat_built_ok n t A H1) as (L1 & W1 & M1). destruct (nat_built_ok n u B H2) as (L2 & W2 & M2).
  assert (E : ns_eq t u = true <-> t = u) by (unfold ns_eq; rewrite Nat.eqb_eq; apply eqcount_eq; congruence). split.
  - rewrite E. split.
    + intros -> q. now rewrite <- M1, <- M2.
    + intros H. apply mem_ext; auto; [congruence|]. intros q. apply Bool.eq_iff_eq_true. now rewrite M1, M2.
  - intros X. apply E in X. now subst.
Qed.
Lemma ns_interval_bad : exists n lb ub, 0 <= lb <= ub /\ ub < 64 * Z.of_nat n /\ ns_interval n lb ub = Err UB.
Proof. exists 1%nat, 0, 63. csplit; try lia. vm_compute. reflexivity. Qed.

(** ** Range *)
Lemma map_seq_sorted (R : Z -> Z -> Prop) f n : forall k, (forall i j, (i < j)%nat -> R (f i) (f j)) -> StronglySorted R (map f (seq k n)).
Proof. induction n as [|n IH]; intros k H; cbn; constructor; auto. apply Forall_forall. intros x Hx. apply in_map_iff in Hx as (j & <- & Hj). apply in_seq in Hj. apply H. lia. Qed.
Lemma range_iteration r : exists l, r_list (Z.to_nat (r_size r)) r = Ok l /\ Z.of_nat (length l) = r_size r /\ (forall q, In q l <-> in_range_of r q) /\
  (r_from r <= r_to r -> StronglySorted Z.lt l) /\ (r_to r <= r_from r -> StronglySorted Z.gt l).
Proof.
  exists (range_seq r). split; [now apply r_list_ok|]. split; [|split; [intros q; apply in_range_seq|]].
  - unfold range_seq, r_size. destruct (Z.leb_spec (r_from r) (r_to r)); rewrite map_length, seq_length; lia.
  - unfold range_seq. destruct (Z.leb_spec (r_from r) (r_to r)) as [L|L]; split; intros X; try lia.
    + apply map_seq_sorted. intros. lia.
    + replace (Z.to_nat (r_to r - r_from r)) with 0%nat by lia. constructor.
    + apply map_seq_sorted. intros. lia.
Qed.
Lemma range_close f t q : in_range_of (r_close f t) q <-> f <= q <= t \/ t <= q <= f.
Proof. unfold in_range_of, r_close, r_inc. cbn. destruct (Z.ltb_spec t f); lia. Qed.
Lemma range_inc f t q : (in_range_of (r_openInc f t) q <-> f <= q < t) /\ (in_range_of (r_closeInc f t) q <-> f <= q <= t).
Proof.
  unfold in_range_of, r_openInc, r_closeInc, r_inc. split.
  - destruct (Z.leb_spec f t); cbn; lia.
  - destruct (Z.ltb_spec f (t + 1)); cbn; [destruct (Z.ltb_spec t f)|]; lia.
Qed.
Lemma rev_map_seq (f : nat -> Z) n : rev (map f (seq 0 n)) = map (fun k => f (n - 1 - k)%nat) (seq 0 n).
Proof.
  induction n as [|n IH]; [reflexivity|]. rewrite seq_S at 1. rewrite map_app, rev_app_distr. cbn [map rev app]. rewrite IH. cbn [seq map]. f_equal; [f_equal; lia|].
  rewrite <- seq_shift, map_map. apply map_ext_in. intros k Hk. apply in_seq in Hk. f_equal. lia.
Qed.
Lemma range_flip r : r_from r <= r_to r -> exists l, r_list (Z.to_nat (r_size r)) r = Ok l /\ r_list (Z.to_nat (r_size (r_flip r))) (r_flip r) = Ok (rev l).
Proof.
  intros H. exists (range_seq r). split; [now apply r_list_ok|]. rewrite r_list_ok by auto. f_equal. unfold range_seq, r_flip. cbn [r_from r_to]. destruct (Z.leb_spec (r_from r) (r_to r)); [|lia].
  rewrite rev_map_seq. destruct (Z.leb_spec (r_to r - 1) (r_from r - 1)) as [L|L].
  - replace (Z.to_nat (r_to r - r_from r)) with 0%nat by lia. replace (Z.to_nat (r_from r - 1 - (r_to r - 1))) with 0%nat by lia. reflexivity.
  - replace (Z.to_nat (r_to r - 1 - (r_from r - 1))) with (Z.to_nat (r_to r - r_from r)) by lia. apply map_ext_in. intros k Hk. apply in_seq in Hk. lia.
Qed.
Lemma range_flip_bad : exists r l l', r_list (Z.to_nat (r_size r)) r = Ok l /\ r_list (Z.to_nat (r_size (r_flip r))) (r_flip r) = Ok l' /\ l' <> rev l.
Proof. exists (mkRange 5 2), [5; 4; 3], [1; 2; 3]. csplit; [vm_compute; reflexivity..|discriminate]. Qed.
Lemma range_contains_bad : (exists r p, r_contains r p = true /\ ~ in_range_of r p) /\ (exists r p, r_contains r p = false /\ in_range_of r p).
Proof. split; [exists (mkRange 2 5), 5|exists (mkRange 5 2), 4]; (split; [reflexivity|]); unfold in_range_of; cbn; lia. Qed.
Lemma range_contains_ok r p : r_from r <= r_to r -> p <> r_to r -> (r_contains r p = true <-> in_range_of r p).
Proof. intros H N. unfold r_contains, in_range_of. lia. Qed.
Lemma g_range_built r : (forall q, in_range_of r q -> 0 <= q < 65536) -> r_largest r <> 0 -> r_from r <= 65536 -> r_to r <= 65536 ->
  exists s, g_range r = Ok s /\ gn_built s (in_range_of r).
Proof.
  intros H N F T. assert (X : exists s, g_range r = Ok s); [|destruct X as (s & E); exists s; split; auto; now apply gb_range].
  unfold g_range. cbv zeta. destruct (Z.eqb_spec (r_size r) 0) as [Z0|Z0]; eauto. rewrite shr6, land63. set (m := ushort _).
  assert (Lg : 0 < r_largest r <= 65536).
  { unfold r_largest, r_size in *. unfold in_range_of in H. destruct (Z.leb_spec (r_from r) (r_to r)) as [L|L]; [specialize (H (r_from r)); lia|specialize (H (r_from r)); lia]. }
  assert (Hm : 0 < m < 65536).
  { unfold m, ushort. pose proof (mod64 (r_largest r)). pose proof (divmod (r_largest r)). rewrite Z.mod_small; destruct (Z.eqb_spec (r_largest r mod 64) 0); lia. }
  destruct (Z.eqb_spec m 0); [lia|]. rewrite r_list_ok by auto. cbn [bind]. apply g_inserts_ok; [apply gok_zero; auto|cbn; lia|].
  apply Forall_forall. intros q Hq. apply in_range_seq, H in Hq. lia.
Qed.
Lemma g_range_bad : exists r, (forall q, in_range_of r q <-> q = 0) /\ g_range r = Err UB.
Proof. exists (mkRange 0 (-1)). split; [intros q; unfold in_range_of; cbn; lia|vm_compute; reflexivity]. Qed.

(** ** helpers *)
Lemma size_pos s A : gn_built s A -> g_mxw s <= 32767 -> g_size s = Ok (length (els 0 (g_t s))).
Proof. intros H L. unfold g_size. assert (X : (g_lim <? g_mxw s) = false) by (unfold g_lim; lia). now rewrite X, (ns_size_els _ 0). Qed.
Lemma els_words s : gok s -> els 0 (g_t s) <> [] -> g_mxw s <> 0.
Proof. intros (L & _) NE E. apply NE. destruct (g_t s); [reflexivity|cbn in L; lia]. Qed.
Lemma g_min_built s A : gn_built s A -> (forall q, A q -> q < 32768) -> g_mxw s <= 32767 ->
  exists m, g_min s = Ok m /\ ((A m /\ forall q, A q -> m <= q) \/ (m = INT_MAX /\ forall q, ~ A q)).
Proof.
  intros H S0 Lm. unfold g_min. rewrite (size_pos s A H Lm). cbn [bind]. pose proof (els_lists s A H) as [So In0]. destruct (gn_built_ok s A H) as [G _].
  destruct (els 0 (g_t s)) as [|v l] eqn:El.
  - exists INT_MAX. split; [reflexivity|]. right. split; auto. intros q HA. now apply In0 in HA.
  - pose proof (els_words s G ltac:(rewrite El; discriminate)) as NZ. destruct (g_begin_ok s G) as (it & E & R); [intros; lia|]. rewrite E. cbn [length Nat.ltb Nat.leb bind].
    rewrite El in R. destruct G as (L & B & W & Nu). destruct (at_rest_step (g_t s) it v l W ltac:(lia) R) as (_ & _ & Gt & _). rewrite Gt.
    assert (Av : A v) by (apply In0; now left). exists v. split; [|left; split; auto].
    + rewrite to_short_id; auto. pose proof (built_nonneg s A v H Av). specialize (S0 v Av). lia.
    + intros q HA. apply In0 in HA as [->|HA]; [lia|]. inversion So as [|? ? _ F]; subst. rewrite Forall_forall in F. specialize (F q HA). lia.
Qed.
Lemma g_max_built s A : gn_built s A -> (forall q, A q -> q < 32768) -> g_mxw s <= 32767 ->
  exists m, g_max s = Ok m /\ ((A m /\ forall q, A q -> q <= m) \/ (m = INT_MIN /\ forall q, ~ A q)).
Proof.
  intros H S0 Lm. unfold g_max. rewrite (size_pos s A H Lm). cbn [bind]. pose proof (els_lists s A H) as [So In0].
  destruct (els 0 (g_t s)) as [|v l] eqn:El.
  - exists INT_MIN. split; [reflexivity|]. right. split; auto. intros q HA. now apply In0 in HA.
  - destruct (g_rbegin_ok s A H ltac:(rewrite El; discriminate)) as (it & m & E & Gt & Am & Mx). rewrite E. cbn [length Nat.ltb Nat.leb bind]. rewrite Gt. exists m. split; [|left; auto].
    rewrite to_short_id; auto. pose proof (built_nonneg s A m H Am). specialize (S0 m Am). lia.
Qed.
Lemma g_filter_built s A p : gn_built s A -> (forall q, A q -> q < 32768) -> (g_mxw s = 0 -> g_null s = true) ->
  exists s', g_filter s p = Ok s' /\ exists B, gn_built s' B /\ forall q, B q <-> A q /\ p q = true.
Proof.
  intros H S0 Z0. unfold g_filter. destruct (g_list_built s A H S0 Z0) as [-> Ls]. cbn [bind]. set (l := filter p _).
  assert (Il : forall q, In q l <-> A q /\ p q = true) by (intros q; unfold l; rewrite filter_In; now rewrite (proj2 Ls q)).
  destruct (g_new_gok 64 ltac:(lia)) as [G _]. destruct (g_inserts_ok l (g_new 64) G) as (s' & E).
  - reflexivity.
  - apply Forall_forall. intros q Hq. apply Il in Hq as [HA _]. pose proof (built_nonneg s A q H HA). specialize (S0 q HA). lia.
  - exists s'. split; auto. exists (fun q => In q l). split; auto. now apply gb_setFrom.
Qed.
Lemma fold_sum (t : Z -> Z) l : forall a, fold_left (fun a v => a + t v) l a = a + fold_right (fun q a => t q + a) 0 l.
Proof. induction l as [|v l IH]; intros a; cbn; [lia|]. rewrite IH. lia. Qed.
Lemma g_sum_built s A t : gn_built s A -> (forall q, A q -> q < 32768) -> (g_mxw s = 0 -> g_null s = true) ->
  exists l, lists l A /\ g_sum s t = Ok (fold_right (fun q a => t q + a) 0 l).
Proof. intros H S0 Z0. destruct (g_list_built s A H S0 Z0) as [E Ls]. exists (els 0 (g_t s)). split; auto. unfold g_sum. rewrite E. cbn [bind]. now rewrite fold_sum. Qed.
Lemma fold_min (f : Z -> bool) (t : Z -> Z) l : forall a, let m := fold_left (fun a v => if f v then let tv := t v in if a <? tv then a else tv else a) l a in
  m <= a /\ (forall q, In q l -> f q = true -> m <= t q) /\ (m = a \/ exists q, In q l /\ f q = true /\ m = t q).
Proof.
  induction l as [|v l IH]; intros a; cbn; [csplit; auto; [lia|easy]|]. specialize (IH (if f v then if a <? t v then a else t v else a)) as (I1 & I2 & I3). cbn in I1, I2, I3.
  set (m := fold_left _ l _) in *. destruct (f v) eqn:F.
  - destruct (Z.ltb_spec a (t v)); csplit; try lia.
    + intros q [->|Hq] Fq; [lia|auto].
    + destruct I3 as [->|(q & A & B & C)]; auto. right. exists q. auto.
    + intros q [->|Hq] Fq; [lia|auto].
    + destruct I3 as [->|(q & A & B & C)]; right; [exists v|exists q]; auto.
  - csplit; auto.
    + intros q [->|Hq] Fq; [congruence|auto].
    + destruct I3 as [->|(q & A & B & C)]; auto. right. exists q. auto.
Qed.
Lemma fold_max (f : Z -> bool) (t : Z -> Z) l : forall a, let m := fold_left (fun a v => if f v then let tv := t v in if tv <? a then a else tv else a) l a in
  a <= m /\ (forall q, In q l -> f q = true -> t q <= m) /\ (m = a \/ exists q, In q l /\ f q = true /\ m = t q).
Proof.
  induction l as [|v l IH]; intros a; cbn; [csplit; auto; [lia|easy]|]. specialize (IH (if f v then if t v <? a then a else t v else a)) as (I1 & I2 & I3). cbn in I1, I2, I3.
  set (m := fold_left _ l _) in *. destruct (f v) eqn:F.
  - destruct (Z.ltb_spec (t v) a); csplit; try lia.
    + intros q [->|Hq] Fq; [lia|auto].
    + destruct I3 as [->|(q & A & B & C)]; auto. right. exists q. auto.
    + intros q [->|Hq] Fq; [lia|auto].
    + destruct I3 as [->|(q & A & B & C)]; right; [exists v|exists q]; auto.
  - csplit; auto.
    + intros q [->|Hq] Fq; [congruence|auto].
    + destruct I3 as [->|(q & A & B & C)]; auto. right. exists q. auto.
Qed.
Lemma g_minBy_built s A f t : gn_built s A -> (forall q, A q -> q < 32768) -> (g_mxw s = 0 -> g_null s = true) ->
  exists m, g_minBy s f t = Ok m /\ m <= INT_MAX /\ (forall q, A q -> f q = true -> m <= t q) /\ (m = INT_MAX \/ exists q, A q /\ f q = true /\ m = t q).
Proof.
  intros H S0 Z0. destruct (g_list_built s A H S0 Z0) as [E Ls]. unfold g_minBy. rewrite E. cbn [bind]. eexists. split; [reflexivity|].
  destruct (fold_min f t (els 0 (g_t s)) INT_MAX) as (I1 & I2 & I3). cbn zeta in *. split; auto. split.
  - intros q HA. apply I2. now apply Ls.
  - destruct I3 as [I3|(q & A1 & B1 & C1)]; [left; exact I3|right; exists q]. csplit; auto. now apply Ls.
Qed.
Lemma g_maxBy_built s A f t : gn_built s A -> (forall q, A q -> q < 32768) -> (g_mxw s = 0 -> g_null s = true) ->
  exists m, g_maxBy s f t = Ok m /\ INT_MIN <= m /\ (forall q, A q -> f q = true -> t q <= m) /\ (m = INT_MIN \/ exists q, A q /\ f q = true /\ m = t q).
Proof.
  intros H S0 Z0. destruct (g_list_built s A H S0 Z0) as [E Ls]. unfold g_maxBy. rewrite E. cbn [bind]. eexists. split; [reflexivity|].
  destruct (fold_max f t (els 0 (g_t s)) INT_MIN) as (I1 & I2 & I3). cbn zeta in *. split; auto. split.
  - intros q HA. apply I2. now apply Ls.
  - destruct I3 as [I3|(q & A1 & B1 & C1)]; [left; exact I3|right; exists q]. csplit; auto. now apply Ls.
Qed.
