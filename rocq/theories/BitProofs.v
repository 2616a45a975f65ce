(** Facts about 64-bit words. *)
From Coq Require Import Sorted Nnat.
From Verif Require Import Base BitModel.
Local Open Scope N_scope.

(** the set bits in increasing order *)
Fixpoint pbits (p : positive) : list N :=
  match p with xH => [0] | xO q => map N.succ (pbits q) | xI q => 0 :: map N.succ (pbits q) end.
Definition wbits (w : N) : list N := match w with N0 => [] | Npos p => pbits p end.

Lemma in_pbits p : forall i, In i (pbits p) <-> N.testbit (Npos p) i = true.
Proof.
  induction p as [p IH|p IH|]; intros i; cbn [pbits].
  - destruct i as [|i] using N.peano_ind; [cbn; intuition|]. change (Npos p~1) with (2 * Npos p + 1). rewrite N.testbit_odd_succ by lia. rewrite <- IH.
    cbn [In]. rewrite in_map_iff. split.
    + intros [H|(x & E & H)]; [lia|]. apply N.succ_inj in E. now subst.
    + intros H. right. eauto.
  - destruct i as [|i] using N.peano_ind.
    + cbn. split; [|discriminate]. intros H. apply in_map_iff in H as (x & E & _). lia.
    + change (Npos p~0) with (2 * Npos p). rewrite N.testbit_even_succ by lia. rewrite <- IH, in_map_iff. split.
      * intros (x & E & H). apply N.succ_inj in E. now subst.
      * eauto.
  - destruct i as [|i] using N.peano_ind; [cbn; intuition|]. cbn [In]. change 1 with (2 * 0 + 1). rewrite N.testbit_odd_succ by lia. rewrite N.bits_0. split; [intros [H|[]]; lia|discriminate].
Qed.
Lemma in_wbits w i : In i (wbits w) <-> N.testbit w i = true.
Proof. destruct w; cbn [wbits]; [rewrite N.bits_0; cbn; intuition discriminate|apply in_pbits]. Qed.
Lemma map_succ_sorted l : StronglySorted N.lt l -> StronglySorted N.lt (map N.succ l).
Proof.
  induction 1 as [|a l S0 IH F]; cbn; constructor; auto. rewrite Forall_forall in *. intros x Hx. apply in_map_iff in Hx as (y & <- & Hy). specialize (F y Hy). lia.
Qed.
Lemma pbits_sorted p : StronglySorted N.lt (pbits p).
Proof.
  induction p as [p IH|p IH|]; cbn [pbits].
  - constructor; [now apply map_succ_sorted|]. apply Forall_forall. intros x Hx. apply in_map_iff in Hx as (y & <- & _). lia.
  - now apply map_succ_sorted.
  - repeat constructor.
Qed.
Lemma wbits_sorted w : StronglySorted N.lt (wbits w).
Proof. destruct w; [constructor|apply pbits_sorted]. Qed.
Lemma wpop_length w : wpop w = length (wbits w).
Proof. destruct w as [|p]; cbn; auto. induction p; cbn; rewrite ?map_length; auto. Qed.
Lemma bits_above a n i : a < 2 ^ n -> n <= i -> N.testbit a i = false.
Proof.
  intros H L. destruct (N.eq_dec a 0) as [->|NE]; [apply N.bits_0|]. apply N.bits_above_log2. apply N.lt_le_trans with n; auto. apply N.log2_lt_pow2; lia.
Qed.
Lemma bits_lt a n : (forall i, n <= i -> N.testbit a i = false) -> a < 2 ^ n.
Proof.
  intros H. destruct (N.eq_dec a 0) as [->|NE]; [apply N.neq_0_lt_0; apply N.pow_nonzero; lia|]. apply N.log2_lt_pow2; [lia|].
  destruct (N.lt_ge_cases (N.log2 a) n) as [L|L]; auto. apply H in L. rewrite N.bit_log2 in L by auto. discriminate.
Qed.
Lemma W64_pow : W64 = 2 ^ 64. Proof. reflexivity. Qed.
Lemma wbits_lt w i : w < W64 -> In i (wbits w) -> i < 64.
Proof.
  intros H Hi. apply in_wbits in Hi. destruct (N.lt_ge_cases i 64); auto. rewrite (bits_above w 64) in Hi; auto; discriminate.
Qed.

(** clearing the lowest bit: _cw ^= _cw & -_cw *)
Lemma land_compl p n : Npos p < 2 ^ n -> N.land (Npos p) (2 ^ n - 1 - Npos p) = 0.
Proof.
  intros H. rewrite <- N.sub_add_distr, N.add_comm, N.sub_add_distr. replace (2 ^ n - Npos p - 1) with (N.ones n - Npos p) by (rewrite N.ones_equiv; lia).
  rewrite <- N.lnot_sub_low; [|destruct (N.lt_ge_cases (N.log2 (Npos p)) n) as [L|L]; auto; apply N.log2_lt_pow2 in H; lia].
  apply N.bits_inj. intros i. rewrite N.land_spec, N.bits_0. destruct (N.lt_ge_cases i n) as [L|L].
  - rewrite N.lnot_spec_low by auto. apply andb_negb_r.
  - rewrite (bits_above (Npos p) n) by auto. reflexivity.
Qed.
Lemma land_double a b : N.land (2 * a) (2 * b) = 2 * N.land a b.
Proof. rewrite <- !N.double_spec. destruct a, b; cbn; auto. Qed.
Lemma land_odd a b : N.land (2 * a + 1) (2 * b + 1) = 2 * N.land a b + 1.
Proof. destruct a as [|p], b as [|q]; cbn; auto; try (destruct (Pos.land p q); reflexivity). Qed.
Lemma lxor_double a b : N.lxor (2 * a) (2 * b) = 2 * N.lxor a b.
Proof. destruct a as [|p], b as [|q]; cbn; auto; try (destruct (Pos.lxor p q); reflexivity). Qed.
Fixpoint plow (p : positive) : N := match p with xH => 0 | xO q => 2 * plow q | xI q => 2 * Npos q end.
Lemma clear_low p : forall n, Npos p < 2 ^ n -> N.lxor (Npos p) (N.land (Npos p) (2 ^ n - Npos p)) = plow p.
Proof.
  induction p as [p IH|p IH|]; intros n H; cbn [plow].
  - destruct n as [|n] using N.peano_ind; [cbn in H; lia|]. rewrite N.pow_succ_r' in *.
    replace (2 * 2 ^ n - Npos p~1) with (2 * (2 ^ n - 1 - Npos p) + 1) by lia. change (Npos p~1) with (2 * Npos p + 1). rewrite land_odd, land_compl by lia.
    cbn. reflexivity.
  - destruct n as [|n] using N.peano_ind; [cbn in H; lia|]. rewrite N.pow_succ_r' in *. replace (2 * 2 ^ n - Npos p~0) with (2 * (2 ^ n - Npos p)) by lia.
    change (Npos p~0) with (2 * Npos p). rewrite land_double, lxor_double, IH by lia. reflexivity.
  - destruct n as [|n] using N.peano_ind; [cbn in H; lia|]. rewrite N.pow_succ_r' in *. assert (0 < 2 ^ n) by (apply N.neq_0_lt_0; apply N.pow_nonzero; lia).
    replace (2 * 2 ^ n - 1) with (2 * (2 ^ n - 1) + 1) by lia. change 1 with (2 * 0 + 1) at 1 2. rewrite land_odd. reflexivity.
Qed.
Lemma plow_bits p : pbits p = pctz p :: wbits (plow p).
Proof.
  induction p as [p IH|p IH|]; cbn [pbits pctz plow]; auto. rewrite IH. cbn [map]. f_equal. destruct (plow p); reflexivity.
Qed.
Lemma next_bits w : w < W64 -> w <> 0 -> exists i, wctz w = Some i /\ i < 64 /\ wbits w = i :: wbits (N.lxor w (N.land w (wneg w))) /\ N.lxor w (N.land w (wneg w)) < W64.
Proof.
  intros H NZ. destruct w as [|p]; [lia|]. exists (pctz p). split; [reflexivity|].
  assert (E : N.lxor (Npos p) (N.land (Npos p) (wneg (Npos p))) = plow p).
  { unfold wneg, trunc64. rewrite N.mod_small by lia. apply (clear_low p 64). exact H. }
  rewrite E. split; [apply (wbits_lt (Npos p)); auto; cbn; rewrite plow_bits; left; auto|]. split; [apply plow_bits|].
  rewrite <- E, W64_pow. apply bits_lt. intros i Hi. rewrite N.lxor_spec, N.land_spec, (bits_above (Npos p) 64) by auto. reflexivity.
Qed.

(** word operations bit by bit *)
Lemma wnot_spec w i : w < W64 -> N.testbit (wnot w) i = (i <? 64) && negb (N.testbit w i).
Proof.
  intros H. unfold wnot. rewrite N.lxor_spec. change (W64 - 1) with (N.ones 64). destruct (N.ltb_spec i 64) as [L|L].
  - rewrite N.ones_spec_low by lia. cbn. apply xorb_true_r.
  - rewrite N.ones_spec_high by lia. rewrite (bits_above w 64) by auto. reflexivity.
Qed.
Lemma wbit_spec b i : N.testbit (wbit b) i = (i =? b).
Proof.
  unfold wbit. rewrite N.shiftl_1_l, N.pow2_bits_eqb. apply N.eqb_sym.
Qed.
Lemma trunc64_spec x i : N.testbit (trunc64 x) i = (i <? 64) && N.testbit x i.
Proof.
  unfold trunc64. rewrite W64_pow. destruct (N.ltb_spec i 64) as [L|L]; [now rewrite N.mod_pow2_bits_low|now rewrite N.mod_pow2_bits_high].
Qed.
Lemma lt_W64 x : (forall i, 64 <= i -> N.testbit x i = false) -> x < W64.
Proof. rewrite W64_pow. apply bits_lt. Qed.
Lemma W64_bits x i : x < W64 -> 64 <= i -> N.testbit x i = false.
Proof. rewrite W64_pow. apply bits_above. Qed.
Lemma wmsb_spec w : w <> 0 -> exists i, wmsb w = Some i /\ N.testbit w i = true /\ forall j, i < j -> N.testbit w j = false.
Proof.
  intros H. destruct w as [|p]; [lia|]. exists (N.log2 (Npos p)). split; auto. split; [now apply N.bit_log2|]. intros j. apply N.bits_above_log2.
Qed.

(** ** bit reversal *)
Lemma revStage_spec k m v i : N.testbit (revStage k m v) i =
  (N.testbit v (i + k) && N.testbit m i) || ((i <? 64) && (k <=? i) && N.testbit v (i - k) && N.testbit m (i - k)).
Proof.
  unfold revStage. rewrite N.lor_spec, N.land_spec, N.shiftr_spec by lia. f_equal. rewrite trunc64_spec. destruct (N.leb_spec k i) as [L|L].
  - rewrite N.shiftl_spec_high by lia. rewrite N.land_spec. now rewrite andb_true_r, andb_assoc.
  - rewrite N.shiftl_spec_low by lia. now rewrite !andb_false_r.
Qed.
Lemma revStage_src k m v i j : v < W64 -> i < 64 ->
  (if N.testbit m i then negb ((k <=? i) && N.testbit m (i - k)) && (j =? i + k) else (k <=? i) && N.testbit m (i - k) && (j =? i - k)) = true ->
  N.testbit (revStage k m v) i = N.testbit v j.
Proof.
  intros H L E. rewrite revStage_spec. destruct (N.ltb_spec i 64); [|lia]. cbn [andb]. destruct (N.testbit m i); [|].
  - apply andb_prop in E as [E1 E2]. apply N.eqb_eq in E2. subst j. destruct (k <=? i); cbn in *; [|now rewrite andb_true_r, orb_false_r].
    apply negb_true_iff in E1. rewrite E1. now rewrite andb_true_r, andb_false_r, orb_false_r.
  - apply andb_prop in E as [E1 E2]. apply andb_prop in E1 as [E1 E3]. apply N.eqb_eq in E2. subst j. rewrite E1, E3. now rewrite andb_false_r, andb_true_r.
Qed.
Lemma revStage_lt k m v : m < W64 -> revStage k m v < W64.
Proof.
  intros H. apply lt_W64. intros i Hi. rewrite revStage_spec. rewrite (W64_bits m i) by auto. destruct (N.ltb_spec i 64); [lia|]. cbn. now rewrite andb_false_r.
Qed.
(** stage k exchanges bit i with bit i xor k *)
Definition stage_ok (k m : N) : bool :=
  forallb (fun n => let i := N.of_nat n in let j := N.lxor i k in
    if N.testbit m i then negb ((k <=? i) && N.testbit m (i - k)) && (j =? i + k) else (k <=? i) && N.testbit m (i - k) && (j =? i - k)) (seq 0 64).
Lemma stage_xor k m v i : stage_ok k m = true -> v < W64 -> i < 64 -> N.testbit (revStage k m v) i = N.testbit v (N.lxor i k).
Proof.
  intros H V L. apply revStage_src; auto. unfold stage_ok in H. rewrite forallb_forall in H. specialize (H (N.to_nat i)). rewrite N2Nat.id in H.
  apply H. apply in_seq. lia.
Qed.
Lemma lxor_lt i k : i < 64 -> k < 64 -> N.lxor i k < 64.
Proof.
  intros H1 H2. change 64 with (2 ^ 6) in *. apply bits_lt. intros j Hj. rewrite N.lxor_spec. rewrite (bits_above i 6), (bits_above k 6) by auto. reflexivity.
Qed.
Lemma rev_index i : i < 64 -> N.lxor (N.lxor (N.lxor (N.lxor (N.lxor (N.lxor i 32) 16) 8) 4) 2) 1 = 63 - i.
Proof.
  intros H. assert (E : forallb (fun n => let i := N.of_nat n in N.lxor (N.lxor (N.lxor (N.lxor (N.lxor (N.lxor i 32) 16) 8) 4) 2) 1 =? 63 - i) (seq 0 64) = true) by (vm_compute; reflexivity).
  rewrite forallb_forall in E. specialize (E (N.to_nat i)). rewrite N2Nat.id in E. apply N.eqb_eq, E. apply in_seq. lia.
Qed.
Lemma revBitsOfLong_lt v : revBitsOfLong v < W64.
Proof.
  unfold revBitsOfLong. apply lt_W64. intros i Hi. rewrite N.lor_spec, N.shiftr_spec, trunc64_spec by lia. destruct (N.ltb_spec i 64); [lia|]. cbn [andb].
  rewrite orb_false_r. apply W64_bits; [|lia]. apply revStage_lt. reflexivity.
Qed.
Lemma revBitsOfLong_spec v i : v < W64 -> i < 64 -> N.testbit (revBitsOfLong v) i = N.testbit v (63 - i).
Proof.
  intros V L. unfold revBitsOfLong.
  set (v1 := revStage 1 _ v). set (v2 := revStage 2 _ v1). set (v3 := revStage 4 _ v2). set (v4 := revStage 8 _ v3). set (v5 := revStage 16 _ v4).
  assert (L1 : v1 < W64) by (now apply revStage_lt). assert (L2 : v2 < W64) by (now apply revStage_lt). assert (L3 : v3 < W64) by (now apply revStage_lt).
  assert (L4 : v4 < W64) by (now apply revStage_lt). assert (L5 : v5 < W64) by (now apply revStage_lt).
  assert (E6 : N.testbit (N.lor (N.shiftr v5 32) (trunc64 (N.shiftl v5 32))) i = N.testbit v5 (N.lxor i 32)).
  { rewrite N.lor_spec, N.shiftr_spec, trunc64_spec by lia. destruct (N.ltb_spec i 64); [|lia]. cbn [andb].
    assert (X : N.lxor i 32 = if i <? 32 then i + 32 else i - 32).
    { assert (E : forallb (fun n => let i := N.of_nat n in N.lxor i 32 =? if i <? 32 then i + 32 else i - 32) (seq 0 64) = true) by (vm_compute; reflexivity).
      rewrite forallb_forall in E. specialize (E (N.to_nat i)). rewrite N2Nat.id in E. apply N.eqb_eq, E. apply in_seq. lia. }
    rewrite X. destruct (N.ltb_spec i 32).
    - rewrite N.shiftl_spec_low by lia. apply orb_false_r.
    - rewrite N.shiftl_spec_high by lia. rewrite (W64_bits v5 (i + 32)) by (auto; lia). reflexivity. }
  rewrite E6. assert (A := fun i H => lxor_lt i 32 H eq_refl). assert (A1 := fun i H => lxor_lt i 16 H eq_refl). assert (A2 := fun i H => lxor_lt i 8 H eq_refl).
  assert (A3 := fun i H => lxor_lt i 4 H eq_refl). assert (A4 := fun i H => lxor_lt i 2 H eq_refl).
  unfold v5. rewrite stage_xor; [|vm_compute; reflexivity|auto|auto 12]. unfold v4. rewrite stage_xor; [|vm_compute; reflexivity|auto|auto 12].
  unfold v3. rewrite stage_xor; [|vm_compute; reflexivity|auto|auto 12]. unfold v2. rewrite stage_xor; [|vm_compute; reflexivity|auto|auto 12].
  unfold v1. rewrite stage_xor; [|vm_compute; reflexivity|auto|auto 12]. now rewrite rev_index.
Qed.
Lemma revBitsOfByte_spec b i : b < 256 -> i < 8 -> revBitsOfByte b < 256 /\ N.testbit (revBitsOfByte b) i = N.testbit b (7 - i).
Proof.
  intros H L.
  assert (E : forallb (fun n => let b := N.of_nat n in (revBitsOfByte b <? 256) && forallb (fun k => let i := N.of_nat k in Bool.eqb (N.testbit (revBitsOfByte b) i) (N.testbit b (7 - i))) (seq 0 8)) (seq 0 256) = true) by (vm_compute; reflexivity).
  rewrite forallb_forall in E. specialize (E (N.to_nat b)). rewrite N2Nat.id in E. assert (X : In (N.to_nat b) (seq 0 256)) by (apply in_seq; lia).
  apply E, andb_prop in X as [X1 X2]. split; [now apply N.ltb_lt|]. rewrite forallb_forall in X2. specialize (X2 (N.to_nat i)). rewrite N2Nat.id in X2.
  apply Bool.eqb_prop, X2. apply in_seq. lia.
Qed.
Lemma ofBytes_spec l : Forall (fun b => b < 256) l -> forall k r, r < 8 -> N.testbit (ofBytes l) (8 * N.of_nat k + r) = N.testbit (nth k l 0) r.
Proof.
  induction 1 as [|b l Hb F IH]; intros k r Hr; cbn [ofBytes fold_right].
  - destruct k; now rewrite !N.bits_0.
  - fold (ofBytes l). destruct k as [|k]; cbn [nth].
    + replace (8 * N.of_nat 0 + r) with r by lia. rewrite <- (N.mod_pow2_bits_low _ 8) by auto. change (2 ^ 8) with 256. rewrite N.mul_comm, N.mod_add by lia.
      change 256 with (2 ^ 8). now rewrite N.mod_pow2_bits_low.
    + replace (8 * N.of_nat (S k) + r) with ((8 * N.of_nat k + r) + 8) by lia. rewrite <- N.div_pow2_bits. change (2 ^ 8) with 256.
      rewrite N.mul_comm, N.div_add by lia. rewrite N.div_small by auto. apply IH. auto.
Qed.
Lemma byteOf_spec w i r : r < 8 -> N.testbit (byteOf w i) r = N.testbit w (8 * N.of_nat i + r).
Proof. intros H. unfold byteOf. change 256 with (2 ^ 8). rewrite N.mod_pow2_bits_low, N.shiftr_spec by lia. f_equal. lia. Qed.
Lemma byteOf_lt w i : byteOf w i < 256.
Proof. apply N.mod_lt. lia. Qed.
Lemma revBitsOfWord_spec junk w i : i < 64 ->
  N.testbit (revBitsOfWord junk w) i = if i <? 56 then N.testbit w (63 - i) else N.testbit junk i.
Proof.
  intros H. unfold revBitsOfWord.
  assert (F : Forall (fun b => b < 256) (map (fun i => revBitsOfByte (byteOf w (7 - i))) (seq 0 7) ++ [byteOf junk 7])).
  { apply Forall_app. split; [|repeat constructor; apply byteOf_lt]. apply Forall_forall. intros x Hx. apply in_map_iff in Hx as (y & <- & _).
    apply (revBitsOfByte_spec _ 0); [apply byteOf_lt|lia]. }
  pose proof (N.div_mod i 8 ltac:(lia)) as E. pose proof (N.mod_lt i 8 ltac:(lia)) as L. set (k := N.to_nat (i / 8)). assert (Ek : i / 8 = N.of_nat k) by (unfold k; now rewrite N2Nat.id).
  rewrite Ek in E. rewrite E at 1. rewrite ofBytes_spec by auto. set (r := i mod 8) in *. destruct (N.ltb_spec i 56) as [A|A].
  - rewrite app_nth1 by (rewrite map_length, seq_length; lia). erewrite nth_indep by (rewrite map_length, seq_length; lia).
    rewrite (map_nth (fun i => revBitsOfByte (byteOf w (7 - i)))) with (d := O). rewrite seq_nth by lia. cbn [Nat.add].
    rewrite (proj2 (revBitsOfByte_spec _ r (byteOf_lt _ _) L)). rewrite byteOf_spec by lia. f_equal. lia.
  - rewrite app_nth2 by (rewrite map_length, seq_length; lia). rewrite map_length, seq_length. replace (k - 7)%nat with 0%nat by lia. cbn [nth].
    rewrite byteOf_spec by lia. f_equal. lia.
Qed.
