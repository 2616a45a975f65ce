(** GNSet of src/util.hpp: every history of operations denotes the expected set; iteration, comparison, helpers. *)
From Verif Require Import Base BitModel BitProofs SetModel SetSpec SetProofs.
Local Open Scope Z_scope.
Local Ltac csplit := repeat match goal with |- _ /\ _ => split end.

#[local] Arguments wnot : simpl never.
#[local] Arguments wbit : simpl never.
#[local] Arguments w_mask : simpl never.
Definition gok (s : gset) : Prop := g_mxw s = Z.of_nat (length (g_t s)) /\ g_mxw s < 65536 /\ wok (g_t s) /\ (g_null s = true -> g_mxw s = 0).

(** ** Range *)
Lemma walk_up n : forall fuel i, (n <= fuel)%nat -> r_walk fuel 1 i (i + Z.of_nat n) = Ok (map (fun k => i + Z.of_nat k) (seq 0 n)).
Proof.
  induction n as [|n IH]; intros fuel i F.
  - destruct fuel; cbn [r_walk]; rewrite Z.add_0_r, Z.eqb_refl; reflexivity.
  - destruct fuel as [|fuel]; [lia|]. cbn [r_walk]. destruct (Z.eqb_spec i (i + Z.of_nat (S n))); [lia|]. replace (i + Z.of_nat (S n)) with (i + 1 + Z.of_nat n) by lia.
    rewrite IH by lia. cbn [bind seq map]. rewrite Z.add_0_r, <- seq_shift, map_map. do 2 f_equal. apply map_ext. intros. lia.
Qed.
Lemma walk_down n : forall fuel i, (n <= fuel)%nat -> r_walk fuel (-1) i (i - Z.of_nat n) = Ok (map (fun k => i - Z.of_nat k) (seq 0 n)).
Proof.
  induction n as [|n IH]; intros fuel i F.
  - destruct fuel; cbn [r_walk]; rewrite Z.sub_0_r, Z.eqb_refl; reflexivity.
  - destruct fuel as [|fuel]; [lia|]. cbn [r_walk]. destruct (Z.eqb_spec i (i - Z.of_nat (S n))); [lia|]. replace (i - Z.of_nat (S n)) with (i + -1 - Z.of_nat n) by lia.
    rewrite IH by lia. cbn [bind seq map]. rewrite Z.sub_0_r, <- seq_shift, map_map. do 2 f_equal. apply map_ext. intros. lia.
Qed.
Definition range_seq (r : range) : list Z :=
  if r_from r <=? r_to r then map (fun k => r_from r + Z.of_nat k) (seq 0 (Z.to_nat (r_to r - r_from r)))
  else map (fun k => r_from r - Z.of_nat k) (seq 0 (Z.to_nat (r_from r - r_to r))).
Lemma r_list_ok r fuel : (Z.to_nat (r_size r) <= fuel)%nat -> r_list fuel r = Ok (range_seq r).
Proof.
  intros F. unfold r_list, range_seq, r_size in *. destruct (Z.leb_spec (r_from r) (r_to r)) as [L|L]; cbn [negb r_inc].
  - rewrite <- walk_up with (fuel := fuel) by auto. f_equal. lia.
  - rewrite <- walk_down with (fuel := fuel) by auto. f_equal. lia.
Qed.
Lemma in_range_seq r q : In q (range_seq r) <-> in_range_of r q.
Proof.
  unfold range_seq, in_range_of. destruct (Z.leb_spec (r_from r) (r_to r)) as [L|L]; rewrite in_map_iff; split.
  - intros (k & <- & H). apply in_seq in H. lia.
  - intros H. exists (Z.to_nat (q - r_from r)). split; [lia|]. apply in_seq. lia.
  - intros (k & <- & H). apply in_seq in H. lia.
  - intros H. exists (Z.to_nat (r_from r - q)). split; [lia|]. apply in_seq. lia.
Qed.

(** ** insert *)
Lemma double_inv fuel : forall i m m', 0 <= m < 65536 -> g_double fuel i m = Ok m' -> i < m' /\ 0 <= m' < 65536.
Proof.
  induction fuel as [|f IH]; intros i m m' Hm H; cbn [g_double] in H; destruct (Z.leb_spec m i) as [L|L].
  - discriminate.
  - injection H as <-. lia.
  - apply IH in H; auto. unfold ushort. apply Z.mod_pos_bound. lia.
  - injection H as <-. lia.
Qed.
Lemma double_ok fuel : forall i m, 0 < m -> m < 65536 -> 0 <= i < 16384 -> i < m * 2 ^ Z.of_nat fuel -> exists m', g_double fuel i m = Ok m'.
Proof.
  induction fuel as [|f IH]; intros i m Hm0 Hm Hi F; cbn [g_double]; destruct (Z.leb_spec m i) as [L|L]; eauto; [cbn in F; lia|].
  unfold ushort. rewrite Z.mod_small by lia. apply IH; try lia. rewrite Nat2Z.inj_succ, Z.pow_succ_r in F by lia. lia.
Qed.
Lemma nth_app_zero t n i : nth i (t ++ w_zero n) 0%N = nth i t 0%N.
Proof.
  destruct (Nat.lt_ge_cases i (length t)) as [L|L]; [now apply app_nth1|]. rewrite app_nth2, nth_zero by auto. now rewrite nth_overflow.
Qed.
Lemma mem_app_zero t n q : mem (t ++ w_zero n) q = mem t q.
Proof. unfold mem. now rewrite nth_app_zero. Qed.
Lemma g_insert_inv s p s' : gok s -> g_insert s p = Ok s' -> gok s' /\ 0 <= p /\ g_mxw s <= g_mxw s' /\ forall q, mem (g_t s') q = (q =? p) || mem (g_t s) q.
Proof.
  intros (L & B & W & Nu) H. unfold g_insert in H. destruct (Z.ltb_spec p 0) as [P|P]; [discriminate|]. rewrite shr6 in H. apply bind_ok in H as ([[m t] nul] & X & H).
  assert (T : wok t /\ m = Z.of_nat (length t) /\ g_mxw s <= m < 65536 /\ (nul = true -> m = 0) /\ forall q, mem t q = mem (g_t s) q).
  { destruct (Z.leb_spec (g_mxw s) (p / 64)) as [G|G].
    - apply bind_ok in X as (m' & D & X). apply double_inv in D; [|lia]. destruct (Z.ltb_spec m' (g_mxw s)); [discriminate|]. injection X as <- <- <-. csplit; try lia; try easy.
      + apply Forall_app. split; auto. apply zero_wok.
      + rewrite app_length. unfold w_zero. rewrite repeat_length. lia.
      + intros q. apply mem_app_zero.
    - injection X as <- <- <-. csplit; auto; lia. }
  destruct T as (T1 & T2 & T3 & T4 & T5). apply bind_ok in H as (t' & O & H). apply or_inv in O as (O1 & O2 & O3 & O4); auto. injection H as <-. cbn. csplit; auto; try lia.
  - unfold gok. cbn. csplit; auto; lia.
  - intros q. now rewrite O4, T5.
Qed.
Lemma g_inserts_inv l : forall s s', gok s -> g_inserts s l = Ok s' -> gok s' /\ g_mxw s <= g_mxw s' /\ forall q, mem (g_t s') q = true <-> In q l \/ mem (g_t s) q = true.
Proof.
  induction l as [|p l IH]; intros s s' G H; cbn [g_inserts] in H.
  - injection H as <-. csplit; auto; [lia|]. cbn. tauto.
  - apply bind_ok in H as (s1 & I & H). apply g_insert_inv in I as (G1 & P & L1 & M1); auto. apply IH in H as (G2 & L2 & M2); auto. csplit; auto; [lia|].
    intros q. rewrite M2, M1, orb_true_iff, Z.eqb_eq. cbn. intuition.
Qed.
Lemma g_insert_ok s p : gok s -> 0 < g_mxw s -> 0 <= p < 1048576 -> exists s', g_insert s p = Ok s' /\ 0 < g_mxw s'.
Proof.
  intros (L & B & W & Nu) M P. unfold g_insert. destruct (Z.ltb_spec p 0); [lia|]. rewrite shr6.
  assert (Hi : 0 <= p / 64 < 16384) by (split; [apply Z.div_pos; lia|apply Z.div_lt_upper_bound; lia]).
  pose proof (mod64 p). pose proof (divmod p). destruct (Z.leb_spec (g_mxw s) (p / 64)) as [G|G].
  - destruct (double_ok 17 (p / 64) (g_mxw s)) as (m & D); auto; [change (2 ^ Z.of_nat 17) with 131072; lia|]. rewrite D. cbn [bind]. apply double_inv in D; [|lia].
    destruct (Z.ltb_spec m (g_mxw s)); [lia|]. cbn [bind]. destruct (or_ok (g_t s ++ w_zero (Z.to_nat (m - g_mxw s))) p) as (t' & O).
    + apply Forall_app. split; auto. apply zero_wok.
    + rewrite app_length. unfold w_zero. rewrite repeat_length. lia.
    + rewrite O. cbn [bind]. eexists. split; [reflexivity|]. cbn. lia.
  - cbn [bind]. destruct (or_ok (g_t s) p) as (t' & O); auto; [lia|]. rewrite O. cbn [bind]. eexists. split; [reflexivity|]. cbn. lia.
Qed.
Lemma g_inserts_ok l : forall s, gok s -> 0 < g_mxw s -> Forall (fun p => 0 <= p < 1048576) l -> exists s', g_inserts s l = Ok s'.
Proof.
  induction l as [|p l IH]; intros s G M F; cbn [g_inserts]; eauto. inversion F; subst. destruct (g_insert_ok s p G M) as (s1 & I & M1); auto. rewrite I. cbn [bind].
  apply IH; auto. now apply g_insert_inv in I.
Qed.

(** ** the word-wise operations *)
Lemma union_nth : forall a b i, nth i (w_union a b) 0%N = N.lor (nth i a 0%N) (nth i b 0%N).
Proof. induction a as [|x a IH]; intros [|y b] [|i]; cbn; auto; now rewrite ?N.lor_0_r. Qed.
Lemma nth_map0 (t : list N) : forall i, nth i (map (fun _ : N => 0%N) t) 0%N = 0%N.
Proof. induction t as [|y t IH]; intros [|i]; cbn; auto. Qed.
Lemma inter_nth : forall a b i, nth i (w_inter a b) 0%N = N.land (nth i a 0%N) (nth i b 0%N).
Proof. induction a as [|x a IH]; intros [|y b] [|i]; cbn; auto; rewrite ?N.land_0_r, ?nth_map0; auto. Qed.
Lemma diff_nth : forall a b i, wok a -> nth i (w_diff a b) 0%N = N.land (nth i a 0%N) (wnot (nth i b 0%N)).
Proof.
  assert (L0 : forall x, (x < W64)%N -> N.land x (wnot 0) = x).
  { intros x Hx. apply N.bits_inj. intros i. rewrite N.land_spec, wnot_spec by reflexivity. rewrite N.bits_0. destruct (N.ltb_spec i 64); [now rewrite andb_true_r|]. now rewrite W64_bits. }
  induction a as [|x a IH]; intros [|y b] [|i] W; cbn [w_diff nth]; auto; inversion W; subst; auto; try (now rewrite L0 by auto using nth_wok). Qed.
Lemma union_len : forall a b, length (w_union a b) = Nat.max (length a) (length b).
Proof. induction a as [|x a IH]; intros [|y b]; cbn; auto. Qed.
Lemma inter_len : forall a b, length (w_inter a b) = length a.
Proof. induction a as [|x a IH]; intros [|y b]; cbn; auto. now rewrite map_length. Qed.
Lemma diff_len : forall a b, length (w_diff a b) = length a.
Proof. induction a as [|x a IH]; intros [|y b]; cbn; auto. Qed.
Lemma wok_nth t : (forall i, (i < length t)%nat -> (nth i t 0 < W64)%N) -> wok t.
Proof. intros H. apply Forall_forall. intros x Hx. apply In_nth with (d := 0%N) in Hx as (i & L & <-). auto. Qed.
Lemma union_wok a b : wok a -> wok b -> wok (w_union a b).
Proof. intros A B. apply wok_nth. intros i _. rewrite union_nth. apply lor_lt; now apply nth_wok. Qed.
Lemma inter_wok a b : wok a -> wok (w_inter a b).
Proof. intros A. apply wok_nth. intros i _. rewrite inter_nth. apply land_lt; now apply nth_wok. Qed.
Lemma diff_wok a b : wok a -> wok (w_diff a b).
Proof. intros A. apply wok_nth. intros i _. rewrite diff_nth by auto. apply land_lt; now apply nth_wok. Qed.
Lemma mem_union a b q : mem (w_union a b) q = mem a q || mem b q.
Proof. unfold mem. rewrite union_nth, N.lor_spec. now destruct (0 <=? q). Qed.
Lemma mem_inter a b q : mem (w_inter a b) q = mem a q && mem b q.
Proof. unfold mem. rewrite inter_nth, N.land_spec. now destruct (0 <=? q). Qed.
Lemma mem_diff a b q : wok a -> wok b -> mem (w_diff a b) q = mem a q && negb (mem b q).
Proof.
  intros A B. unfold mem. rewrite diff_nth, N.land_spec, wnot_spec by auto using nth_wok. pose proof (mod64 q). destruct (0 <=? q); auto. cbn [andb].
  destruct (N.ltb_spec (Z.to_N (q mod 64)) 64); [reflexivity|lia].
Qed.

Lemma g_remove_inv s p s' : gok s -> g_remove s p = Ok s' -> gok s' /\ forall q, mem (g_t s') q = negb (q =? p) && mem (g_t s) q.
Proof.
  intros G H. pose proof G as (L & B & W & Nu). unfold g_remove in H. rewrite w_ix_div in H. destruct ((0 <=? p / 64) && (p / 64 <? g_mxw s)) eqn:E.
  - apply bind_ok in H as (w & X & H). apply get_inv in X as [Li ->]. apply bind_ok in H as (t & Y & H). apply set_inv in Y as [_ ->]. injection H as <-. split.
    + unfold gok. cbn. rewrite upd_length. csplit; auto. apply upd_wok; auto. apply land_lt. now apply nth_wok.
    + intros q. cbn [g_t]. rewrite mem_upd by auto. unfold mem. destruct (Z.eqb_spec (q / 64) (p / 64)) as [Q|Q].
      * assert (Hm : (w_mask p < W64)%N) by (apply lt_W64; intros i Hi; rewrite mask_spec; pose proof (mod64 p); apply N.eqb_neq; lia).
        rewrite N.land_spec, wnot_spec, mask_spec, bit_ix_eq by auto. rewrite Q. pose proof (mod64 q). destruct (N.ltb_spec (Z.to_N (q mod 64)) 64); [|lia]. cbn [andb].
        destruct (0 <=? q); cbn; [apply andb_comm|now rewrite andb_false_r].
      * destruct (Z.eqb_spec q p) as [->|]; [congruence|]. reflexivity.
  - injection H as <-. split; auto. intros q. destruct (Z.eqb_spec q p) as [->|]; auto. cbn. destruct (mem (g_t s) p) eqn:M; auto. exfalso. unfold mem in M.
    apply andb_prop in M as [M1 M2]. pose proof (div_nn p ltac:(lia)). rewrite nth_overflow in M2 by lia. rewrite N.bits_0 in M2. discriminate.
Qed.
Lemma g_remove_ok s p : gok s -> exists s', g_remove s p = Ok s'.
Proof.
  intros (L & B & W & Nu). unfold g_remove. rewrite w_ix_div. destruct ((0 <=? p / 64) && (p / 64 <? g_mxw s)) eqn:E; eauto.
  rewrite get_ok by lia. cbn [bind]. rewrite set_ok by lia. cbn [bind]. eauto.
Qed.
Lemma g_removes_inv n : forall s i s', gok s -> g_removes s n i = Ok s' -> gok s' /\ forall q, mem (g_t s') q = negb ((i <=? q) && (q <? i + Z.of_nat n)) && mem (g_t s) q.
Proof.
  induction n as [|n IH]; intros s i s' G H; cbn [g_removes] in H.
  - injection H as <-. split; auto. intros q. replace ((i <=? q) && (q <? i + Z.of_nat 0)) with false by lia. reflexivity.
  - apply bind_ok in H as (s1 & R & H). apply g_remove_inv in R as [G1 M1]; auto. apply IH in H as [G2 M2]; auto. split; auto. intros q. rewrite M2, M1, andb_assoc. f_equal. lia.
Qed.
Lemma g_removes_ok n : forall s i, gok s -> exists s', g_removes s n i = Ok s'.
Proof.
  induction n as [|n IH]; intros s i G; cbn [g_removes]; eauto. destruct (g_remove_ok s i G) as (s1 & R). rewrite R. cbn [bind]. apply IH. now apply g_remove_inv in R.
Qed.
Lemma lowmask_spec p i : N.testbit (wbit (Z.to_N (Z.land p 63)) - 1) i = (i <? Z.to_N (p mod 64))%N.
Proof.
  rewrite land63. set (b := Z.to_N (p mod 64)). assert (E : (wbit b - 1 = N.ones b)%N) by (unfold wbit, N.ones; rewrite N.shiftl_1_l; lia).
  rewrite E. destruct (N.ltb_spec i b); [now apply N.ones_spec_low|now apply N.ones_spec_high].
Qed.
Lemma split_nth (t : list N) k i : nth i (firstn k t ++ map (fun _ => 0%N) (skipn k t)) 0%N = if (i <? k)%nat then nth i t 0%N else 0%N.
Proof.
  revert k i. induction t as [|x t IH]; intros [|k] [|i]; cbn [firstn skipn map app nth]; auto.
  - destruct ((S i <? S k)%nat); reflexivity.
  - clear. cbn. revert i. induction t as [|y t IH]; intros [|i]; cbn; auto.
  - rewrite IH. reflexivity.
Qed.
Lemma g_removeAbove_inv s p s' : gok s -> 0 <= p -> (forall q, mem (g_t s) q = true -> q <= g_nbp s) -> g_removeAbove s p = Ok s' ->
  gok s' /\ forall q, mem (g_t s') q = (q <=? p) && mem (g_t s) q.
Proof.
  intros G P Q H. pose proof G as (L & B & W & Nu). unfold g_removeAbove in H. cbv zeta in H. rewrite shr6 in H. destruct (Z.ltb_spec (g_nbp s) (p + 1)) as [C|C].
  - injection H as <-. split; auto. intros q. destruct (mem (g_t s) q) eqn:M; [|now rewrite andb_false_r]. specialize (Q q M). destruct (Z.leb_spec q p); auto; lia.
  - apply bind_ok in H as (x & X & H). apply get_inv in X as [Li ->]. apply bind_ok in H as (t & Y & H). apply set_inv in Y as [_ ->].
    apply (f_equal (fun r => match r with Ok a => a | _ => s end)) in H. cbv beta iota in H. subst s'.
    set (k := Z.to_nat ((p + 1) / 64)) in *. set (x := N.land _ _) in *.
    assert (Nt : forall i, nth i (firstn (S k) (w_upd (g_t s) k x) ++ map (fun _ => 0%N) (skipn (S k) (w_upd (g_t s) k x))) 0%N =
       if (i <? k)%nat then nth i (g_t s) 0%N else if (i =? k)%nat then x else 0%N).
    { intros i. rewrite split_nth, upd_nth by lia. destruct (Nat.ltb_spec i (S k)), (Nat.ltb_spec i k), (Nat.eqb_spec i k); auto; lia. }
    assert (Hx : (x < W64)%N) by (apply land_lt; now apply nth_wok).
    split.
    + unfold gok. cbn [g_t g_mxw g_null]. csplit; auto.
      * rewrite app_length, map_length, firstn_length, skipn_length, upd_length. lia.
      * apply wok_nth. intros i _. rewrite Nt. destruct (i <? k)%nat; [now apply nth_wok|]. destruct (i =? k)%nat; auto. reflexivity.
    + intros q. cbn [g_t]. unfold mem. rewrite Nt. destruct (Z.leb_spec 0 q) as [Hq|Hq]; [|now rewrite andb_false_r]. cbn [andb].
      pose proof (div_nn q Hq). pose proof (div_nn (p + 1) ltac:(lia)). pose proof (mod64 q). pose proof (divmod q). pose proof (mod64 (p + 1)). pose proof (divmod (p + 1)).
      destruct (Nat.ltb_spec (Z.to_nat (q / 64)) k) as [U|U]; [|destruct (Nat.eqb_spec (Z.to_nat (q / 64)) k) as [V|V]].
      * destruct (Z.leb_spec q p); auto. lia.
      * unfold x. rewrite N.land_spec, lowmask_spec, V. fold k. rewrite andb_comm. f_equal. destruct (N.ltb_spec (Z.to_N (q mod 64)) (Z.to_N ((p + 1) mod 64))), (Z.leb_spec q p); auto; lia.
      * rewrite N.bits_0. destruct (Z.leb_spec q p); auto. lia.
Qed.
Lemma g_removeAbove_ok s p : gok s -> 0 <= p -> (p < g_nbp s -> p + 1 < 64 * g_mxw s) -> exists s', g_removeAbove s p = Ok s'.
Proof.
  intros (L & B & W & Nu) P H. unfold g_removeAbove. cbv zeta. rewrite shr6. destruct (Z.ltb_spec (g_nbp s) (p + 1)) as [C|C]; eauto.
  assert (0 <= (p + 1) / 64 < Z.of_nat (length (g_t s))) by (split; [apply Z.div_pos; lia|apply Z.div_lt_upper_bound; lia]).
  rewrite get_ok by auto. cbn [bind]. rewrite set_ok by auto. cbn [bind]. eauto.
Qed.

Lemma mem_nil q : mem [] q = false.
Proof. unfold mem. destruct (Z.to_nat (q / 64)); cbn [nth]; now rewrite N.bits_0, andb_false_r. Qed.
Lemma g_new_gok nb : 0 <= nb < 65536 -> gok (g_new nb) /\ forall q, mem (g_t (g_new nb)) q = false.
Proof.
  intros H. unfold g_new. rewrite shr6, land63. pose proof (mod64 nb). pose proof (divmod nb). pose proof (div_nn nb ltac:(lia)).
  destruct (Z.eqb_spec (nb / 64 + (if nb mod 64 =? 0 then 0 else 1)) 0) as [E|E]; (split; [unfold gok; cbn; csplit|]); auto; try lia; try easy.
  - constructor.
  - intros q. apply mem_nil.
  - unfold w_zero. rewrite repeat_length. destruct (nb mod 64 =? 0); lia.
  - destruct (Z.eqb_spec (nb mod 64) 0); lia.
  - apply zero_wok.
  - intros q. apply mem_zero.
Qed.
Lemma ushort_lt x : 0 <= ushort x < 65536. Proof. apply Z.mod_pos_bound. lia. Qed.
Lemma gok_zero m nbp : 0 < m < 65536 -> gok (mkG false m nbp (w_zero (Z.to_nat m))).
Proof. intros H. unfold gok. cbn. csplit; try easy; [unfold w_zero; rewrite repeat_length; lia|apply zero_wok]. Qed.

Theorem gn_built_ok s A : gn_built s A -> gok s /\ forall q, mem (g_t s) q = true <-> A q.
Proof.
  assert (Empty : forall nul nbp, gok (mkG nul 0 nbp [])) by (intros; unfold gok; cbn; split; [|split; [|split]]; [reflexivity|lia|constructor|reflexivity]).
  induction 1 as [nb H|lb ub s H|r s H|l s H|l s H|n t A Hn H|s A H [G M]|d B s A Hd [Gd Md] H [G M]|s A s' H [G M] E|s A p s' H [G M] E|s A p s' H [G M] E
    |s A s' H [G M] E|s A u B s' H1 [G1 M1] H2 [G2 M2] E|s A u B s' H1 [G1 M1] H2 [G2 M2] E|s A u B s' H1 [G1 M1] H2 [G2 M2] E|s A p s' H [G M] E|s A p s' H [G M] Q P E].
  - destruct (g_new_gok nb H) as [G M]. split; auto. intros q. rewrite M. easy.
  - unfold g_interval in H. destruct (Z.ltb_spec ub lb) as [L|L].
    + injection H as <-. split; auto. cbn. intros q. rewrite mem_nil. split; [discriminate|lia].
    + cbv zeta in H. destruct (Z.ltb_spec (ub + 1) 0); [discriminate|]. set (m := ushort _) in *. pose proof (ushort_lt (Z.shiftr (ub + 1) 6 + (if Z.land (ub + 1) 63 =? 0 then 0 else 1))) as Hm.
      fold m in Hm. destruct (Z.eqb_spec m 0); [discriminate|]. apply bind_ok in H as (t & F & H). injection H as <-. apply fill_inv in F as (_ & Ln & W & M); [|apply zero_wok]. split.
      * unfold gok. cbn. split; [|split; [lia|split; [auto|easy]]]. rewrite Ln. unfold w_zero. rewrite repeat_length. lia.
      * intros q. cbn. rewrite M, mem_zero, orb_false_r. lia.
  - unfold g_range in H. cbv zeta in H. destruct (Z.eqb_spec (r_size r) 0) as [Z0|Z0].
    + injection H as <-. split; auto. cbn. intros q. rewrite mem_nil. unfold r_size in Z0. unfold in_range_of. split; [discriminate|]. destruct (Z.leb_spec (r_from r) (r_to r)); lia.
    + set (m := ushort _) in H. assert (Hm : 0 <= m < 65536) by apply ushort_lt. destruct (Z.eqb_spec m 0); [discriminate|]. rewrite r_list_ok in H by auto. cbn [bind] in H.
      apply g_inserts_inv in H as (G & _ & M); [|apply gok_zero; lia]. split; auto. intros q. rewrite M. cbn. rewrite mem_zero, in_range_seq. intuition discriminate.
  - unfold g_ofList in H. cbv zeta in H. apply bind_ok in H as (m & D & H). apply double_inv in D; [|lia]. rewrite shr6 in D. pose proof (div_nn (Z.of_nat (length l)) ltac:(lia)).
    apply g_inserts_inv in H as (G & _ & M); [|apply gok_zero; lia]. split; auto. intros q. rewrite M. cbn. rewrite mem_zero. intuition discriminate.
  - unfold g_setFrom in H. destruct (g_new_gok 64 ltac:(lia)) as [G0 M0]. apply g_inserts_inv in H as (G & _ & M); auto. split; auto. intros q. rewrite M, M0. intuition discriminate.
  - destruct (nat_built_ok n t A H) as (L & W & M). split; auto. unfold gok. cbn. csplit; auto; try easy. lia.
  - destruct G as (L & B & W & Nu). split; auto. unfold gok. cbn. csplit; auto. easy.
  - destruct G as (L & B0 & W & Nu), Gd as (Ld & Bd & Wd & Nud). split; auto. unfold gok. cbn. csplit; auto. destruct (Z.eqb_spec (g_mxw s) (g_mxw d)); [|easy]. intros X. rewrite e. auto.
  - unfold g_clear in E. destruct (g_lim <? g_mxw s); [discriminate|]. injection E as <-. destruct G as (L & B0 & W & Nu). split.
    + unfold gok. cbn. rewrite map_length. csplit; auto. apply map0_wok.
    + intros q. cbn. rewrite mem_map0 by auto. easy.
  - apply g_insert_inv in E as (G1 & _ & _ & M1); auto. split; auto. intros q. rewrite M1, orb_true_iff, Z.eqb_eq, M. tauto.
  - apply g_remove_inv in E as (G1 & M1); auto. split; auto. intros q. rewrite M1, andb_true_iff, negb_true_iff, Z.eqb_neq, M. tauto.
  - unfold g_complement in E. destruct (g_lim <? g_mxw s); [discriminate|]. injection E as <-. destruct G as (L & B0 & W & Nu). split.
    + unfold gok. cbn. rewrite map_length. csplit; auto. now apply map_wnot_wok.
    + intros q. cbn. rewrite mem_compl by auto. rewrite <- L, <- M. destruct (mem (g_t s) q); cbn; lia.
  - unfold g_union in E. destruct (_ || _); [discriminate|]. destruct G1 as (L1 & B1 & W1 & N1), G2 as (L2 & B2 & W2 & N2).
    assert (X : gok s' /\ g_t s' = w_union (g_t s) (g_t u)).
    { destruct (Z.ltb_spec (g_mxw s) (g_mxw u)); injection E as <-; cbn; (split; [|reflexivity]); unfold gok; cbn; rewrite union_len; csplit; auto using union_wok; try lia; easy. }
    destruct X as [X ->]. split; auto. intros q. rewrite mem_union, orb_true_iff, M1, M2. tauto.
  - unfold g_inter in E. destruct (_ || _); [discriminate|]. injection E as <-. destruct G1 as (L1 & B1 & W1 & N1). split.
    + unfold gok. cbn. rewrite inter_len. csplit; auto using inter_wok.
    + intros q. cbn. rewrite mem_inter, andb_true_iff, M1, M2. tauto.
  - unfold g_diff in E. destruct (_ || _); [discriminate|]. injection E as <-. destruct G1 as (L1 & B1 & W1 & N1), G2 as (L2 & B2 & W2 & N2). split.
    + unfold gok. cbn. rewrite diff_len. csplit; auto using diff_wok.
    + intros q. cbn. rewrite mem_diff, andb_true_iff, negb_true_iff, <- not_true_iff_false, M1, M2 by auto. tauto.
  - apply g_removes_inv in E as (G1 & M1); auto. split; auto. intros q. rewrite M1, andb_true_iff, M. pose proof (M q) as Mq. unfold mem in Mq.
    rewrite <- Mq, andb_true_iff. split; [intros (X & Y & Z0)|intros (X & Y & Z0)]; csplit; auto; lia.
  - apply g_removeAbove_inv in E as (G1 & M1); auto; [|intros q Hq; now apply Q, M]. split; auto. intros q. rewrite M1, andb_true_iff, M, Z.leb_le. tauto.
Qed.

Lemma built_nonneg s A q : gn_built s A -> A q -> 0 <= q < 64 * g_mxw s.
Proof.
  intros H HA. destruct (gn_built_ok s A H) as [(L & B & W & Nu) M]. apply M in HA. unfold mem in HA. apply andb_prop in HA as [HA T]. split; [lia|].
  pose proof (div_nn q ltac:(lia)). pose proof (mod64 q). pose proof (divmod q). destruct (Nat.lt_ge_cases (Z.to_nat (q / 64)) (length (g_t s))); [lia|].
  rewrite nth_overflow in T by auto. rewrite N.bits_0 in T. discriminate.
Qed.

(** ** iteration *)
Lemma g_begin_ok s : gok s -> (g_mxw s = 0 -> g_null s = true) -> exists it, g_begin s = Ok it /\ at_rest (g_t s) it (els 0 (g_t s)).
Proof.
  intros (L & B & W & Nu) Z0. unfold g_begin. destruct (Z.ltb_spec 0 (g_mxw s)) as [P|P].
  - rewrite get_ok by lia. cbn [bind]. destruct (g_null s); [specialize (Nu eq_refl); lia|]. rewrite L.
    destruct (adv_ok (g_t s) W ltac:(lia) (S (length (g_t s))) (S (length (g_t s))) 0 (nth (Z.to_nat 0) (g_t s) 0%N)) as (it & E & R); try lia; [now apply nth_wok|].
    exists it. split; auto. assert (X : els 0 (g_t s) = rest (g_t s) 0 (nth (Z.to_nat 0) (g_t s) 0%N)) by (unfold rest; rewrite <- (els_skip (g_t s) 0) by lia; reflexivity). now rewrite X.
  - assert (g_mxw s = 0) as M0 by lia. rewrite (Z0 M0). assert (g_t s = []) as T0 by (apply length_zero_iff_nil; lia). rewrite T0. eexists. split; [reflexivity|].
    unfold at_rest, rest. cbn. split; [reflexivity|]. split; [reflexivity|]. split; [lia|]. right. auto.
Qed.
Lemma g_list_ok s : gok s -> (g_mxw s = 0 -> g_null s = true) -> g_list s = Ok (map to_short (els 0 (g_t s))).
Proof.
  intros G Z0. unfold g_list. destruct (g_begin_ok s G Z0) as (it & E & R). rewrite E. cbn [bind]. destruct G as (L & B & W & Nu). rewrite L. apply it_list_ok; auto; [lia|].
  pose proof (els_len (g_t s) W 0). lia.
Qed.
Lemma els_lists s A : gn_built s A -> lists (els 0 (g_t s)) A.
Proof.
  intros H. destruct (gn_built_ok s A H) as [(L & B & W & Nu) M]. split; [now apply els_sorted|]. intros q. rewrite in_els by auto. rewrite Z.mul_0_r, Z.sub_0_r, M. split; [tauto|].
  intros HA. split; auto. now apply (built_nonneg s A q H).
Qed.
Lemma short_els t : (forall q, In q (els 0 t) -> 0 <= q < 32768) -> map to_short (els 0 t) = els 0 t.
Proof. intros H. rewrite <- (map_id (els 0 t)) at 2. apply map_ext_in. intros q Hq. apply to_short_id. specialize (H q Hq). lia. Qed.
Lemma g_list_built s A : gn_built s A -> (forall q, A q -> q < 32768) -> (g_mxw s = 0 -> g_null s = true) -> g_list s = Ok (els 0 (g_t s)) /\ lists (els 0 (g_t s)) A.
Proof.
  intros H S0 Z0. pose proof (els_lists s A H) as Ls. split; auto. rewrite g_list_ok; auto; [|now apply (gn_built_ok s A)]. rewrite short_els; auto.
  intros q Hq. apply Ls in Hq. split; [now apply (built_nonneg s A q H)|auto].
Qed.
Lemma w_empty_all t : forall n, w_empty t n = (n =? 0)%nat && forallb (fun w => (w =? 0)%N) t.
Proof.
  induction t as [|w t IH]; intros n; cbn; [now rewrite andb_true_r|]. destruct (Nat.eqb_spec n 0) as [->|]; auto. rewrite IH. cbn. destruct (w =? 0)%N; auto.
Qed.

(** ** comparison *)
Lemma all0_nth t : forallb (fun w => (w =? 0)%N) t = true <-> forall i, nth i t 0%N = 0%N.
Proof.
  induction t as [|w t IH]; cbn; [split; auto; intros _ [|i]; auto|]. rewrite andb_true_iff, N.eqb_eq, IH. split.
  - intros [-> H] [|i]; auto.
  - intros H. split; [apply (H 0%nat)|intros i; apply (H (S i))].
Qed.
Lemma w_eq_nth : forall a b, w_eq a b = true <-> forall i, nth i a 0%N = nth i b 0%N.
Proof.
  induction a as [|x a IH]; intros [|y b].
  - cbn. split; auto.
  - cbn [w_eq]. rewrite all0_nth. split; intros H i; specialize (H i); destruct i; cbn in *; auto.
  - cbn [w_eq]. rewrite all0_nth. split; intros H i; specialize (H i); destruct i; cbn in *; auto.
  - cbn. rewrite andb_true_iff, N.eqb_eq, IH. split; [intros [-> H] [|i]; auto|]. intros H. split; [apply (H 0%nat)|intros i; apply (H (S i))].
Qed.
Lemma mem_nth_eq a b : wok a -> wok b -> ((forall i, nth i a 0%N = nth i b 0%N) <-> forall q, mem a q = mem b q).
Proof.
  intros A B. split.
  - intros H q. unfold mem. now rewrite H.
  - intros H i. apply N.bits_inj. intros k. destruct (N.lt_ge_cases k 64) as [L|L].
    + specialize (H (64 * Z.of_nat i + Z.of_N k)). unfold mem in H. destruct (Z.leb_spec 0 (64 * Z.of_nat i + Z.of_N k)); [|lia].
      replace (64 * Z.of_nat i + Z.of_N k) with (Z.of_N k + Z.of_nat i * 64) in H by lia. rewrite Z.div_add, Z.mod_add, Z.div_small, Z.mod_small in H by lia.
      rewrite Z.add_0_l, Nat2Z.id, N2Z.id in H. exact H.
    + rewrite !W64_bits; auto using nth_wok.
Qed.
Lemma g_eq_built s A u B : gn_built s A -> gn_built u B -> (g_eq s u = true <-> forall q, A q <-> B q).
Proof.
  intros H1 H2. destruct (gn_built_ok s A H1) as [(_ & _ & W1 & _) M1]. destruct (gn_built_ok u B H2) as [(_ & _ & W2 & _) M2]. unfold g_eq. rewrite w_eq_nth, mem_nth_eq by auto. split.
  - intros H q. now rewrite <- M1, <- M2, H.
  - intros H q. apply Bool.eq_iff_eq_true. now rewrite M1, M2.
Qed.
Lemma fold_ne t : forall d, fold_left (fun d w => d || negb (w =? 0)%N) t d = d || negb (forallb (fun w => (w =? 0)%N) t).
Proof. induction t as [|w t IH]; intros d; cbn; [now rewrite orb_false_r|]. rewrite IH, negb_andb. now rewrite orb_assoc. Qed.
Lemma w_ne_eq : forall a b, w_ne a b = negb (w_eq a b).
Proof.
  induction a as [|x a IH]; intros [|y b].
  - reflexivity.
  - cbn [w_ne w_eq]. now rewrite fold_ne.
  - cbn [w_ne w_eq]. now rewrite fold_ne.
  - cbn [w_ne w_eq]. rewrite IH. now destruct (x =? y)%N.
Qed.

(** ** rbegin *)
Lemma at_rest_step t it v l : wok t -> Z.of_nat (length t) < 65536 -> at_rest t it (v :: l) ->
  fst it < Z.of_nat (length t) /\ v / 64 = fst it /\ it_get it = Ok (to_short v) /\ exists it', it_next t (Z.of_nat (length t)) it = Ok it' /\ at_rest t it' l.
Proof.
  intros W Hn (E & Hc & Hk & St). destruct it as [k cw]. cbn [fst snd] in *. destruct St as [[L NZ]|[-> ->]].
  - destruct (next_bits cw Hc NZ) as (i & Ci & Li & B & Lc). unfold it_get. cbn [fst snd]. rewrite Ci. unfold rest in E. rewrite B in E. cbn [map app] in E.
    assert (Ev : v = 64 * k + Z.of_N i) by congruence. injection E as _ El. split; auto. split; [|split].
    + rewrite Ev, Z.mul_comm, Z.add_comm, Z.div_add, Z.div_small by lia. lia.
    + rewrite shl6, Ev, (Z.mul_comm 64 k). reflexivity.
    + unfold it_next. destruct (adv_ok t W Hn (S (length t)) (S (length t)) k (N.lxor cw (N.land cw (wneg cw)))) as (it & A & R); try lia; auto.
      exists it. split; auto. rewrite El. exact R.
  - unfold rest in E. cbn in E. rewrite skipn_all2 in E by lia. discriminate.
Qed.
Lemma lastin_ok t l : wok t -> Z.of_nat (length t) < 65536 -> forall fuel lw c found v, at_rest t c (v :: l) -> (forall x, In x (v :: l) -> x / 64 = lw) -> (length l < fuel)%nat ->
  exists it, g_lastin fuel t (Z.of_nat (length t)) lw c found = Ok it /\ it_get it = Ok (to_short (last (v :: l) 0)).
Proof.
  intros W Hn. induction l as [|v' l IH]; intros fuel lw c found v R H F; (destruct fuel as [|fuel]; [cbn in F; lia|]); cbn [g_lastin];
    destruct (at_rest_step t c _ _ W Hn R) as (K & D & Gt & it' & Nx & R'); rewrite <- D, (H v (or_introl eq_refl)), Z.eqb_refl, Nx; cbn [bind].
  - destruct R' as (E' & _ & _ & St). destruct St as [[L NZ]|[L _]].
    + exfalso. destruct (next_bits (snd it')) as (i & _ & _ & B & _); auto; [|unfold rest in E'; rewrite B in E'; discriminate].
      pose proof (at_rest_step t c _ _ W Hn R) as (_ & _ & _ & it2 & N2 & (_ & X & _)). rewrite Nx in N2. now injection N2 as <-.
    + pose proof (H v (or_introl eq_refl)). destruct fuel; cbn [g_lastin]; (destruct (Z.eqb_spec (fst it') lw); [lia|]); exists c; auto.
  - apply (IH fuel lw it' c v') in R' as (it & E & Q); [|intros x Hx; apply H; right; exact Hx|cbn in F; lia]. exists it. split; auto.
Qed.
Lemma lastw_ok t : wok t -> forall fuel lw, 0 <= lw < Z.of_nat (length t) -> (Z.to_nat lw <= fuel)%nat -> (forall i, (Z.to_nat lw < i)%nat -> nth i t 0%N = 0%N) -> els 0 t <> [] ->
  exists k, g_lastw fuel t lw = Ok k /\ 0 <= k <= lw /\ nth (Z.to_nat k) t 0%N <> 0%N /\ forall i, (Z.to_nat k < i)%nat -> nth i t 0%N = 0%N.
Proof.
  intros W. induction fuel as [|f IH]; intros lw L F Hi NE; cbn [g_lastw]; rewrite get_ok by auto; cbn [bind];
    (destruct (N.eqb_spec (nth (Z.to_nat lw) t 0%N) 0) as [E|E]; [|exists lw; csplit; auto; lia]).
  - exfalso. apply NE, all0_els, all0_nth. intros i. destruct (Nat.eq_dec i (Z.to_nat lw)) as [->|]; auto. apply Hi. lia.
  - destruct (Z.eq_dec lw 0) as [->|NZ]; [exfalso; apply NE, all0_els, all0_nth; intros i; destruct (Nat.eq_dec i (Z.to_nat 0)) as [->|]; auto; apply Hi; lia|].
    destruct (IH (lw - 1)) as (k & A & B & C & D); auto; try lia.
    + intros i X. destruct (Nat.eq_dec i (Z.to_nat lw)) as [->|]; auto. apply Hi. lia.
    + exists k. csplit; auto; lia.
Qed.
Lemma nth_skipn (t : list N) : forall k i, nth i (skipn k t) 0%N = nth (k + i) t 0%N.
Proof. induction t as [|x t IH]; intros [|k] i; cbn; auto; destruct i; auto. Qed.
Lemma els_zero t k : (forall i, nth i t 0%N = 0%N) -> els k t = [].
Proof. intros H. apply all0_els, all0_nth, H. Qed.
Lemma sorted_last_max l q : StronglySorted Z.lt l -> In q l -> q <= last l 0.
Proof.
  induction 1 as [|a l S0 IH F]; intros Hq; [destruct Hq|]. destruct l as [|b l]; [destruct Hq as [->|[]]; cbn; lia|]. change (last (a :: b :: l) 0) with (last (b :: l) 0).
  destruct Hq as [->|Hq]; [|auto]. rewrite Forall_forall in F. assert (In (last (b :: l) 0) (b :: l)) as I by (clear; revert b; induction l as [|c l IHl]; intros b; [now left|right; apply IHl]).
  specialize (F _ I). lia.
Qed.
Lemma last_in (l : list Z) : l <> [] -> In (last l 0) l.
Proof. induction l as [|a [|b l] IH]; intros H; [easy|now left|]. right. apply IH. discriminate. Qed.
Lemma g_rbegin_ok s A : gn_built s A -> els 0 (g_t s) <> [] -> exists it m, g_rbegin s = Ok it /\ it_get it = Ok (to_short m) /\ A m /\ forall q, A q -> q <= m.
Proof.
  intros H NE. destruct (gn_built_ok s A H) as [(L & B & W & Nu) M]. set (t := g_t s) in *. unfold g_rbegin. fold t. rewrite L.
  assert (NZ : (0 < length t)%nat) by (destruct t; [easy|cbn; lia]).
  destruct (lastw_ok t W (length t) (Z.of_nat (length t) - 1)) as (k & E1 & K & Nk & Ab); auto; try lia; [intros i Hi; apply nth_overflow; lia|]. rewrite E1. cbn [bind].
  rewrite get_ok by lia. cbn [bind]. set (w := nth (Z.to_nat k) t 0%N) in *. assert (Hw : (w < W64)%N) by now apply nth_wok.
  assert (E2 : it_adv (S (length t)) t (Z.of_nat (length t)) k w = Ok (k, w)) by (cbn [it_adv]; destruct (N.eqb_spec w 0); [easy|reflexivity]). rewrite E2. cbn [bind fst].
  assert (R0 : els (k + 1) (skipn (Z.to_nat (k + 1)) t) = []) by (apply els_zero; intros i; rewrite nth_skipn; apply Ab; lia).
  destruct (next_bits w Hw Nk) as (b & _ & Lb & Bw & _). set (l := map (fun b => 64 * k + Z.of_N b) (wbits w)).
  assert (AR : at_rest t (k, w) l) by (unfold at_rest, rest; cbn [fst snd]; rewrite R0, app_nil_r; csplit; auto; lia).
  assert (Il : forall x, In x l <-> mem t x = true /\ x / 64 = k).
  { intros x. unfold l. rewrite in_map_iff. split.
    - intros (j & <- & Hj). pose proof (wbits_lt w j Hw Hj). apply in_wbits in Hj. assert (D : (64 * k + Z.of_N j) / 64 = k) by (rewrite Z.mul_comm, Z.add_comm, Z.div_add, Z.div_small by lia; lia).
      split; auto. unfold mem. rewrite D. fold w. replace ((64 * k + Z.of_N j) mod 64) with (Z.of_N j) by (rewrite Z.mul_comm, Z.add_comm, Z.mod_add, Z.mod_small by lia; lia).
      rewrite N2Z.id, Hj. lia.
    - intros [Hm D]. unfold mem in Hm. rewrite D in Hm. fold w in Hm. apply andb_prop in Hm as [_ Hm]. exists (Z.to_N (x mod 64)). pose proof (mod64 x). pose proof (divmod x). split; [lia|]. now apply in_wbits. }
  assert (NEl : l <> []) by (unfold l; rewrite Bw; discriminate).
  destruct l as [|v l'] eqn:El; [easy|]. destruct (lastin_ok t l' W ltac:(lia) 65 k (k, w) (k, w) v AR) as (it & E3 & G3).
  { intros x Hx. now apply Il. }
  { assert (length (v :: l') <= 64)%nat; [|cbn in *; lia]. rewrite <- El. unfold l. rewrite map_length. now apply wbits_len. }
  exists it, (last (v :: l') 0). csplit; auto.
  - apply M. apply (Il (last (v :: l') 0)). now apply last_in.
  - intros q Hq. apply M in Hq. pose proof (last_in (v :: l') NEl) as Li. pose proof (proj1 (Il _) Li) as [Lm Ld]. set (m := last (v :: l') 0) in *.
    pose proof (mod64 q). pose proof (divmod q). pose proof (mod64 m). pose proof (divmod m). destruct (Z.lt_trichotomy (q / 64) k) as [C|[C|C]]; [lia| |].
    + assert (In q (v :: l')) by now apply Il. apply sorted_last_max; auto. rewrite <- El. unfold l. clear - w. pose proof (wbits_sorted w) as S0.
      induction S0 as [|a r S1 IHS F1]; cbn; constructor; auto. rewrite Forall_forall in *. intros x Hx. apply in_map_iff in Hx as (y & <- & Hy). specialize (F1 y Hy). lia.
    + exfalso. unfold mem in Hq. apply andb_prop in Hq as [Hq1 Hq2]. rewrite Ab in Hq2 by lia. rewrite N.bits_0 in Hq2. discriminate.
Qed.
