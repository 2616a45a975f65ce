(** The sets of src/util.hpp: words, iterators, operations. *)
From Coq Require Import Nnat.
From Verif Require Import Base BitModel BitProofs SetModel SetSpec.
Local Open Scope Z_scope.
Local Ltac csplit := repeat match goal with |- _ /\ _ => split end.

Definition mem (t : list N) (p : Z) : bool := (0 <=? p) && N.testbit (nth (Z.to_nat (p / 64)) t 0%N) (Z.to_N (p mod 64)).
Definition wok (t : list N) : Prop := Forall (fun w => (w < W64)%N) t.

Lemma w_ix_div p : w_ix p = p / 64.
Proof. unfold w_ix. now rewrite Z.shiftr_div_pow2 by lia. Qed.
Lemma land63 p : Z.land p 63 = p mod 64.
Proof. change 63 with (Z.ones 6). now rewrite Z.land_ones by lia. Qed.
Lemma shr6 p : Z.shiftr p 6 = p / 64.
Proof. now rewrite Z.shiftr_div_pow2 by lia. Qed.
Lemma shl6 p : Z.shiftl p 6 = p * 64.
Proof. now rewrite Z.shiftl_mul_pow2 by lia. Qed.
Lemma mask_spec p i : N.testbit (w_mask p) i = (i =? Z.to_N (p mod 64))%N.
Proof. unfold w_mask. now rewrite wbit_spec, land63. Qed.
Lemma mod64 p : 0 <= p mod 64 < 64. Proof. apply Z.mod_pos_bound. lia. Qed.
Lemma divmod p : p = 64 * (p / 64) + p mod 64. Proof. apply Z.div_mod. lia. Qed.
Lemma div_nn p : 0 <= p -> 0 <= p / 64. Proof. intros. apply Z.div_pos; lia. Qed.
Lemma nth_wok t i : wok t -> (nth i t 0 < W64)%N.
Proof. intros H. destruct (Nat.lt_ge_cases i (length t)) as [L|L]; [|rewrite nth_overflow by auto; reflexivity]. unfold wok in H. rewrite Forall_forall in H. apply H. now apply nth_In. Qed.

Lemma get_ok t i : 0 <= i < Z.of_nat (length t) -> w_get t i = Ok (nth (Z.to_nat i) t 0%N).
Proof.
  intros H. unfold w_get. destruct (Z.ltb_spec i 0); [lia|]. destruct (nth_error t (Z.to_nat i)) eqn:E.
  - now rewrite (nth_error_nth _ _ 0%N E).
  - apply nth_error_None in E. lia.
Qed.
Lemma get_inv t i w : w_get t i = Ok w -> 0 <= i < Z.of_nat (length t) /\ w = nth (Z.to_nat i) t 0%N.
Proof.
  unfold w_get. destruct (Z.ltb_spec i 0); [discriminate|]. destruct (nth_error t (Z.to_nat i)) eqn:E; [|discriminate]. intros [= ->].
  rewrite (nth_error_nth _ _ 0%N E). split; auto. assert (Z.to_nat i < length t)%nat by (apply nth_error_Some; congruence). lia.
Qed.
Lemma upd_length t : forall i w, length (w_upd t i w) = length t.
Proof. induction t as [|a t IH]; intros [|i] w; cbn; auto. Qed.
Lemma upd_nth t : forall i w j, (i < length t)%nat -> nth j (w_upd t i w) 0%N = if (j =? i)%nat then w else nth j t 0%N.
Proof.
  induction t as [|a t IH]; intros [|i] w [|j] H; cbn in *; auto; try lia. apply IH. lia.
Qed.
Lemma upd_wok t : forall i w, wok t -> (w < W64)%N -> wok (w_upd t i w).
Proof. unfold wok. induction t as [|a t IH]; intros [|i] w H L; cbn; auto; inversion H; subst; constructor; auto. Qed.
Lemma set_inv t i w t' : w_set t i w = Ok t' -> 0 <= i < Z.of_nat (length t) /\ t' = w_upd t (Z.to_nat i) w.
Proof. unfold w_set. destruct (Z.ltb_spec i 0), (Z.leb_spec (Z.of_nat (length t)) i); cbn; try discriminate. intros [= <-]. split; auto; lia. Qed.
Lemma set_ok t i w : 0 <= i < Z.of_nat (length t) -> w_set t i w = Ok (w_upd t (Z.to_nat i) w).
Proof. intros H. unfold w_set. destruct (Z.ltb_spec i 0), (Z.leb_spec (Z.of_nat (length t)) i); cbn; auto; lia. Qed.
Lemma mem_upd t i w q : 0 <= i < Z.of_nat (length t) ->
  mem (w_upd t (Z.to_nat i) w) q = (0 <=? q) && N.testbit (if q / 64 =? i then w else nth (Z.to_nat (q / 64)) t 0%N) (Z.to_N (q mod 64)).
Proof.
  intros H. unfold mem. destruct (Z.leb_spec 0 q) as [L|L]; auto. cbn. rewrite upd_nth by lia. pose proof (div_nn q L).
  destruct (Nat.eqb_spec (Z.to_nat (q / 64)) (Z.to_nat i)), (Z.eqb_spec (q / 64) i); auto; lia.
Qed.
Lemma bit_ix_eq p q : p / 64 = q / 64 -> (Z.to_N (q mod 64) =? Z.to_N (p mod 64))%N = (q =? p).
Proof.
  intros H. pose proof (mod64 p). pose proof (mod64 q). pose proof (divmod p). pose proof (divmod q).
  destruct (Z.eqb_spec q p) as [->|NE]; [apply N.eqb_refl|]. apply N.eqb_neq. lia.
Qed.

Lemma or_inv t p t' : wok t -> w_or t p = Ok t' -> 0 <= p < 64 * Z.of_nat (length t) /\ length t' = length t /\ wok t' /\ forall q, mem t' q = (q =? p) || mem t q.
Proof.
  intros W H. unfold w_or in H. apply bind_ok in H as (w & G & H). rewrite w_ix_div in *. apply get_inv in G as [L ->]. apply set_inv in H as [_ ->].
  pose proof (mod64 p) as M. pose proof (divmod p) as D. csplit; try lia.
  - apply upd_length.
  - apply upd_wok; auto. apply lt_W64. intros i Hi. rewrite N.lor_spec, mask_spec, (W64_bits (nth _ _ _)) by (auto using nth_wok). cbn. apply N.eqb_neq. lia.
  - intros q. rewrite mem_upd by auto. unfold mem. destruct (Z.eqb_spec (q / 64) (p / 64)) as [E|E].
    + rewrite N.lor_spec, mask_spec, bit_ix_eq by auto. rewrite E. destruct (Z.leb_spec 0 q) as [Hq|Hq]; cbn; [apply orb_comm|]. symmetry. rewrite orb_false_r. apply Z.eqb_neq. lia.
    + destruct (Z.eqb_spec q p) as [->|]; [congruence|]. reflexivity.
Qed.
Lemma or_ok t p : wok t -> 0 <= p < 64 * Z.of_nat (length t) -> exists t', w_or t p = Ok t'.
Proof.
  intros W H. unfold w_or. rewrite w_ix_div. assert (0 <= p / 64 < Z.of_nat (length t)) by (split; [apply Z.div_pos; lia|apply Z.div_lt_upper_bound; lia]).
  rewrite get_ok by auto. cbn [bind]. rewrite set_ok by auto. eauto.
Qed.
Lemma zero_wok n : wok (w_zero n).
Proof. apply Forall_forall. intros x Hx. apply repeat_spec in Hx. subst. reflexivity. Qed.
Lemma nth_zero n i : nth i (w_zero n) 0%N = 0%N.
Proof. unfold w_zero. destruct (Nat.lt_ge_cases i n); [apply nth_repeat|apply nth_overflow; now rewrite repeat_length]. Qed.
Lemma mem_zero n q : mem (w_zero n) q = false.
Proof. unfold mem. now rewrite nth_zero, N.bits_0, andb_false_r. Qed.
Lemma mem_map0 {A} (f : A -> N) (t : list A) q : (forall a, f a = 0%N) -> mem (map f t) q = false.
Proof.
  intros H. unfold mem. destruct (Nat.lt_ge_cases (Z.to_nat (q / 64)) (length t)) as [L|L].
  - destruct t as [|a t]; [cbn in L; lia|]. rewrite (nth_indep _ 0%N (f a)) by (now rewrite map_length). rewrite map_nth, H, N.bits_0. apply andb_false_r.
  - rewrite nth_overflow by (now rewrite map_length). now rewrite N.bits_0, andb_false_r.
Qed.
Lemma fill_inv n : forall t i t', wok t -> w_fill t n i = Ok t' ->
  (n <> 0%nat -> 0 <= i /\ i + Z.of_nat n <= 64 * Z.of_nat (length t)) /\ length t' = length t /\ wok t' /\ forall q, mem t' q = ((i <=? q) && (q <? i + Z.of_nat n)) || mem t q.
Proof.
  induction n as [|n IH]; intros t i t' W H; cbn [w_fill] in H.
  - injection H as <-. csplit; auto; try easy. intros q. destruct (Z.leb_spec i q), (Z.ltb_spec q (i + Z.of_nat 0)); cbn; auto; lia.
  - apply bind_ok in H as (t1 & O & H). apply or_inv in O as (A & B & C & D); auto. apply IH in H as (A' & B' & C' & D'); auto. rewrite B in *. csplit; auto; try lia.
    intros q. rewrite D', D. destruct (Z.eqb_spec q i), (Z.leb_spec i q), (Z.leb_spec (i + 1) q), (Z.ltb_spec q (i + 1 + Z.of_nat n)), (Z.ltb_spec q (i + Z.of_nat (S n))); cbn; auto; lia.
Qed.

(** ** enumeration *)
Fixpoint els (k : Z) (t : list N) : list Z :=
  match t with [] => [] | w :: r => map (fun b => 64 * k + Z.of_N b) (wbits w) ++ els (k + 1) r end.
Lemma in_els t : wok t -> forall k q, In q (els k t) <-> 64 * k <= q /\ mem t (q - 64 * k) = true.
Proof.
  induction 1 as [|w t Hw F IH]; intros k q; cbn [els].
  - cbn [In]. split; [easy|]. intros [_ H]. unfold mem in H. destruct (Z.to_nat _) in H; cbn [nth] in H; rewrite N.bits_0, andb_false_r in H; discriminate.
  - rewrite in_app_iff, IH, in_map_iff. split.
    + intros [(b & <- & Hb)|[L M]].
      * pose proof (wbits_lt w b Hw Hb). apply in_wbits in Hb. split; [lia|]. unfold mem. replace (64 * k + Z.of_N b - 64 * k) with (Z.of_N b) by lia.
        rewrite Z.div_small, Z.mod_small by lia. cbn [Z.to_nat nth]. rewrite N2Z.id, Hb. destruct (Z.leb_spec 0 (Z.of_N b)); auto; lia.
      * split; [lia|]. unfold mem in *. apply andb_prop in M as [M1 M2]. destruct (Z.leb_spec 0 (q - 64 * k)); [|lia]. cbn [andb].
        replace (q - 64 * k) with (q - 64 * (k + 1) + 1 * 64) by lia. rewrite Z.div_add, Z.mod_add by lia. assert (0 <= (q - 64 * (k + 1)) / 64) by (apply Z.div_pos; lia).
        rewrite Z2Nat.inj_add by lia. rewrite Nat.add_1_r. exact M2.
    + intros [L M]. unfold mem in M. apply andb_prop in M as [M1 M2]. destruct (Z_lt_ge_dec (q - 64 * k) 64) as [S0|S0].
      * left. rewrite Z.div_small, Z.mod_small in M2 by lia. cbn [Z.to_nat nth] in M2. exists (Z.to_N (q - 64 * k)). rewrite in_wbits. split; auto. lia.
      * right. split; [lia|]. unfold mem. destruct (Z.leb_spec 0 (q - 64 * (k + 1))); [|lia]. cbn [andb].
        replace (q - 64 * k) with (q - 64 * (k + 1) + 1 * 64) in M2 by lia. rewrite Z.div_add, Z.mod_add in M2 by lia. assert (0 <= (q - 64 * (k + 1)) / 64) by (apply Z.div_pos; lia).
        rewrite Z2Nat.inj_add in M2 by lia. rewrite Nat.add_1_r in M2. exact M2.
Qed.
Lemma app_sorted (l1 l2 : list Z) : StronglySorted Z.lt l1 -> StronglySorted Z.lt l2 -> (forall a b, In a l1 -> In b l2 -> a < b) -> StronglySorted Z.lt (l1 ++ l2).
Proof.
  induction 1 as [|a l S0 IH F]; intros S2 H; cbn; auto. constructor; [apply IH; auto; intros; apply H; cbn; auto|]. apply Forall_app. split; auto.
  apply Forall_forall. intros b Hb. apply H; cbn; auto.
Qed.
Lemma els_sorted t : wok t -> forall k, StronglySorted Z.lt (els k t).
Proof.
  induction 1 as [|w t Hw F IH]; intros k; cbn [els]; [constructor|]. apply app_sorted; auto.
  - pose proof (wbits_sorted w) as S0. induction S0 as [|a l S1 IHS F1]; cbn; constructor; auto. rewrite Forall_forall in *. intros x Hx. apply in_map_iff in Hx as (y & <- & Hy). specialize (F1 y Hy). lia.
  - intros a b Ha Hb. apply in_map_iff in Ha as (x & <- & Hx). apply (wbits_lt w x Hw) in Hx. apply in_els in Hb as [Hb _]; auto. lia.
Qed.
Lemma size_els t : forall k a, fold_left (fun a w => (a + wpop w)%nat) t a = (a + length (els k t))%nat.
Proof. induction t as [|w t IH]; intros k a; cbn; [lia|]. rewrite (IH (k + 1)), app_length, map_length, wpop_length. lia. Qed.
Lemma ns_size_els t k : ns_size t = length (els k t).
Proof. unfold ns_size. rewrite (size_els t k). reflexivity. Qed.
Lemma wbits_len w : (w < W64)%N -> (length (wbits w) <= 64)%nat.
Proof.
  intros H. rewrite <- (seq_length 64 0), <- (map_length N.of_nat). apply NoDup_incl_length.
  - pose proof (wbits_sorted w) as S0. induction S0 as [|a l S1 IH F]; constructor; auto. rewrite Forall_forall in F. intros X. specialize (F a X). lia.
  - intros i Hi. apply (wbits_lt w i H) in Hi. apply in_map_iff. exists (N.to_nat i). rewrite N2Nat.id. split; auto. apply in_seq. lia.
Qed.
Lemma els_len t : wok t -> forall k, (length (els k t) <= 64 * length t)%nat.
Proof.
  induction 1 as [|w t Hw F IH]; intros k; cbn [els length]; [lia|]. rewrite app_length, map_length. pose proof (wbits_len w Hw). specialize (IH (k + 1)). lia.
Qed.

(** ** iterators *)
Section Iter.
Variable t : list N.
Hypothesis W : wok t.
Notation n := (Z.of_nat (length t)).
Hypothesis Hn : n < 65536.
(** what remains to be visited *)
Definition rest (k : Z) (cw : N) : list Z := map (fun b => 64 * k + Z.of_N b) (wbits cw) ++ els (k + 1) (skipn (Z.to_nat (k + 1)) t).
Definition at_rest (it : Z * N) (l : list Z) : Prop :=
  l = rest (fst it) (snd it) /\ (snd it < W64)%N /\ 0 <= fst it /\ ((fst it < n /\ snd it <> 0%N) \/ (fst it = n /\ snd it = 0%N)).
Lemma els_skip k : 0 <= k < n -> els k (skipn (Z.to_nat k) t) = map (fun b => 64 * k + Z.of_N b) (wbits (nth (Z.to_nat k) t 0%N)) ++ els (k + 1) (skipn (Z.to_nat (k + 1)) t).
Proof.
  intros H. assert (E : skipn (Z.to_nat k) t = nth (Z.to_nat k) t 0%N :: skipn (Z.to_nat (k + 1)) t).
  { rewrite Z2Nat.inj_add by lia. rewrite Nat.add_1_r. assert (L : (Z.to_nat k < length t)%nat) by lia. clear - L. revert L. generalize (Z.to_nat k) as j. revert t.
    induction t as [|a l IH]; intros [|j] L; cbn in *; try lia; auto. apply IH. lia. }
  rewrite E. reflexivity.
Qed.
Lemma adv_ok : forall m fuel k cw, 0 <= k < n -> n - k <= Z.of_nat m -> (m <= S fuel)%nat -> (cw < W64)%N ->
  exists it, it_adv fuel t n k cw = Ok it /\ at_rest it (rest k cw).
Proof.
  induction m as [|m IH]; intros fuel k cw Hk Hm Hf Hc; [lia|].
  assert (G : forall f, it_adv f t n k cw = if (cw =? 0)%N then let cwi := (k + 1) mod 65536 in if cwi <? n then
      match f with O => Err OutOfFuel | S f => do w <- w_get t cwi ; it_adv f t n cwi w end else Ok (cwi, cw) else Ok (k, cw)) by (intros [|f]; reflexivity).
  rewrite G. clear G. destruct (N.eqb_spec cw 0) as [->|NZ].
  - cbv zeta. rewrite Z.mod_small by lia. destruct (Z.ltb_spec (k + 1) n) as [L|L].
    + destruct fuel as [|fuel]; [lia|]. rewrite get_ok by lia. cbn [bind]. destruct (IH fuel (k + 1) (nth (Z.to_nat (k + 1)) t 0%N)) as (it & E & R); try lia; [now apply nth_wok|].
      exists it. split; auto. unfold rest at 1. cbn [wbits map app]. rewrite els_skip by lia. exact R.
    + eexists. split; [reflexivity|]. unfold at_rest, rest. cbn [fst snd wbits map app]. csplit; auto; try lia. rewrite !skipn_all2 by lia. reflexivity.
  - eexists. split; [reflexivity|]. unfold at_rest. cbn [fst snd]. csplit; auto; try lia.
Qed.
Lemma it_list_ok l : forall fuel it, at_rest it l -> (length l <= fuel)%nat -> it_list fuel t n it = Ok (map to_short l).
Proof.
  induction l as [|v l IH]; intros fuel [k cw] (E & Hc & Hk & St) F; cbn [fst snd] in *.
  - destruct St as [[L NZ]|[-> ->]].
    + exfalso. destruct (next_bits cw Hc NZ) as (i & _ & _ & B & _). unfold rest in E. rewrite B in E. discriminate.
    + destruct fuel; cbn [it_list fst snd]; rewrite Z.eqb_refl; reflexivity.
  - destruct St as [[L NZ]|[-> ->]].
    + destruct fuel as [|fuel]; [cbn in F; lia|]. cbn [it_list fst snd]. destruct (Z.eqb_spec k n); [lia|]. cbn [andb].
      destruct (next_bits cw Hc NZ) as (i & Ci & Li & B & Lc). unfold it_get. cbn [fst snd]. rewrite Ci. cbn [bind].
      unfold rest in E. rewrite B in E. cbn [map app] in E. injection E as Ev El.
      set (cw' := N.lxor cw (N.land cw (wneg cw))) in *. unfold it_next. fold cw'.
      destruct (adv_ok (S (length t)) (S (length t)) k cw') as (it & A & R); try lia; auto. rewrite A. cbn [bind].
      rewrite (IH fuel it); [|unfold rest in R; rewrite El; exact R|cbn in F; lia]. cbn [bind map]. rewrite shl6. change (v = 64 * k + Z.of_N i) in Ev. rewrite Ev, (Z.mul_comm 64 k). reflexivity.
    + unfold rest in E. cbn in E. rewrite skipn_all2 in E by lia. discriminate.
Qed.
End Iter.
Arguments rest : clear implicits.

(** wrap-around of short: values below 32768 are unchanged *)
Lemma to_short_id v : -32768 <= v < 32768 -> to_short v = v.
Proof. intros H. unfold to_short. rewrite Z.mod_small; lia. Qed.

Definition sort_ok (t : list N) (A : Z -> Prop) := forall q, mem t q = true <-> A q.

(** ** NatSet *)
Lemma ns_begin_ok t : wok t -> (1 <= length t)%nat -> Z.of_nat (length t) < 65536 -> exists it, ns_begin t = Ok it /\ at_rest t it (els 0 t).
Proof.
  intros W N0 H. unfold ns_begin. rewrite get_ok by lia. cbn [bind]. destruct (adv_ok t W H (S (length t)) (S (length t)) 0 (nth (Z.to_nat 0) t 0%N)) as (it & E & R); try lia; [now apply nth_wok|].
  rewrite E. cbn [bind]. destruct it as [cwi cw]. eexists. split; [reflexivity|]. assert (X : els 0 t = rest t 0 (nth (Z.to_nat 0) t 0%N)).
  { unfold rest. rewrite <- (els_skip t 0) by lia. reflexivity. }
  rewrite X. destruct R as (R1 & R2 & R3 & R4). unfold at_rest. cbn [fst snd] in *. destruct (Z.ltb_spec cwi (Z.of_nat (length t))) as [L|L]; csplit; auto.
  - destruct R4 as [[? ?]|[? ->]]; [lia|auto].
  - reflexivity.
  - right. split; auto. lia.
Qed.
Lemma ns_list_ok t : wok t -> (1 <= length t)%nat -> Z.of_nat (length t) < 65536 -> ns_list t = Ok (map to_short (els 0 t)).
Proof.
  intros W N0 H. unfold ns_list. destruct (ns_begin_ok t W N0 H) as (it & E & R). rewrite E. cbn [bind]. apply it_list_ok; auto. pose proof (els_len t W 0). lia.
Qed.
Lemma zip_nth f : f 0%N 0%N = 0%N -> forall a b i, length a = length b -> nth i (w_zip f a b) 0%N = f (nth i a 0%N) (nth i b 0%N).
Proof. intros F. induction a as [|x a IH]; intros [|y b] [|i] L; cbn in *; auto; lia. Qed.
Lemma zip_length f : forall a b, length a = length b -> length (w_zip f a b) = length a.
Proof. induction a as [|x a IH]; intros [|y b] L; cbn in *; auto; lia. Qed.
Lemma zip_wok f : (forall x y, (x < W64)%N -> (y < W64)%N -> (f x y < W64)%N) -> forall a b, wok a -> wok b -> wok (w_zip f a b).
Proof. intros F. unfold wok. induction a as [|x a IH]; intros [|y b] A B; cbn; auto. inversion A; inversion B; subst. constructor; auto. Qed.
Lemma lor_lt x y : (x < W64)%N -> (y < W64)%N -> (N.lor x y < W64)%N.
Proof. intros A B. apply lt_W64. intros i Hi. rewrite N.lor_spec, !W64_bits; auto. Qed.
Lemma land_lt x y : (x < W64)%N -> (N.land x y < W64)%N.
Proof. intros A. apply lt_W64. intros i Hi. rewrite N.land_spec, W64_bits; auto. Qed.
Lemma wnot_lt x : (x < W64)%N -> (wnot x < W64)%N.
Proof. intros A. apply lt_W64. intros i Hi. rewrite wnot_spec by auto. destruct (N.ltb_spec i 64); auto; lia. Qed.
Lemma mem_compl t q : wok t -> mem (map wnot t) q = (0 <=? q) && (q <? 64 * Z.of_nat (length t)) && negb (mem t q).
Proof.
  intros W. unfold mem. destruct (Z.leb_spec 0 q) as [L|L]; auto. cbn [andb]. pose proof (div_nn q L). pose proof (mod64 q). pose proof (divmod q).
  destruct (Nat.lt_ge_cases (Z.to_nat (q / 64)) (length t)) as [B|B].
  - rewrite (nth_indep _ 0%N (wnot 0)) by (now rewrite map_length). rewrite map_nth. rewrite wnot_spec by (now apply nth_wok).
    destruct (N.ltb_spec (Z.to_N (q mod 64)) 64); [|lia]. destruct (Z.ltb_spec q (64 * Z.of_nat (length t))); [reflexivity|lia].
  - rewrite (nth_overflow (map _ _)) by (now rewrite map_length). rewrite N.bits_0. destruct (Z.ltb_spec q (64 * Z.of_nat (length t))); [lia|reflexivity].
Qed.
Lemma map_wnot_wok t : wok t -> wok (map wnot t).
Proof. induction 1; cbn; constructor; auto. now apply wnot_lt. Qed.
Lemma map0_wok t : wok (map (fun _ : N => 0%N) t).
Proof. induction t; cbn; constructor; auto. reflexivity. Qed.

Lemma nat_built_ok n t A : nat_built n t A -> length t = n /\ wok t /\ forall q, mem t q = true <-> A q.
Proof.
  induction 1 as [|lb ub t H|l t H|t A p t' H IH E|t A H IH|t A H IH|t A u B H1 IH1 H2 IH2|t A u B H1 IH1 H2 IH2].
  - csplit; [apply repeat_length|apply zero_wok|]. intros q. unfold ns_new. rewrite mem_zero. easy.
  - unfold ns_interval in H. destruct (Z.ltb_spec ub lb) as [L|L].
    + injection H as <-. csplit; [apply repeat_length|apply zero_wok|]. intros q. rewrite mem_zero. split; [discriminate|lia].
    + cbv zeta in H. destruct (_ && _) eqn:E; [|discriminate]. apply fill_inv in H as (_ & Ln & W & M); [|apply zero_wok]. csplit; auto; [rewrite Ln; apply repeat_length|].
      intros q. rewrite M, mem_zero, orb_false_r. lia.
  - unfold ns_ofList in H.
    assert (G : forall l t0 A0, wok t0 -> length t0 = n -> (forall q, mem t0 q = true <-> A0 q) -> ns_inserts t0 l = Ok t ->
       length t = n /\ wok t /\ forall q, mem t q = true <-> In q l \/ A0 q).
    { clear. induction l as [|p l IH]; intros t0 A0 W L M H; cbn [ns_inserts] in H.
      - injection H as <-. csplit; auto. intros q. rewrite M. cbn. tauto.
      - apply bind_ok in H as (t1 & O & H). apply or_inv in O as (_ & B & C & D); auto. apply (IH t1 (fun q => q = p \/ A0 q)) in H as (X & Y & Z0); auto; try congruence.
        + csplit; auto. intros q. rewrite Z0. cbn. intuition.
        + intros q. rewrite D, orb_true_iff, Z.eqb_eq, M. tauto. }
    apply (G l _ (fun _ => False)) in H as (X & Y & Z0); [|apply zero_wok|apply repeat_length|intros q; rewrite mem_zero; easy]. csplit; auto. intros q. rewrite Z0. tauto.
  - destruct IH as (L & W & M). apply or_inv in E as (_ & B & C & D); auto. csplit; auto; [congruence|]. intros q. rewrite D, orb_true_iff, Z.eqb_eq, M. tauto.
  - destruct IH as (L & W & M). csplit; [unfold ns_clear; now rewrite map_length|apply map0_wok|]. intros q. unfold ns_clear. rewrite mem_map0 by auto. easy.
  - destruct IH as (L & W & M). csplit; [unfold ns_complement; now rewrite map_length|now apply map_wnot_wok|]. intros q. unfold ns_complement. rewrite mem_compl, L by auto.
    rewrite <- M. destruct (mem t q); cbn; lia.
  - destruct IH1 as (L1 & W1 & M1), IH2 as (L2 & W2 & M2). csplit; [unfold ns_union; rewrite zip_length; congruence|apply zip_wok; auto using lor_lt|].
    intros q. rewrite <- M1, <- M2. unfold mem, ns_union. rewrite zip_nth by (auto; congruence). rewrite N.lor_spec. destruct (0 <=? q); cbn; [apply orb_true_iff|intuition discriminate].
  - destruct IH1 as (L1 & W1 & M1), IH2 as (L2 & W2 & M2). csplit; [unfold ns_inter; rewrite zip_length; congruence|apply zip_wok; auto using land_lt|].
    intros q. rewrite <- M1, <- M2. unfold mem, ns_inter. rewrite zip_nth by (auto; congruence). rewrite N.land_spec. destruct (0 <=? q); cbn; [apply andb_true_iff|intuition discriminate].
Qed.

Lemma contains_bits t p : wok t -> 0 <= p < 64 * Z.of_nat (length t) -> ns_contains t p = Ok (mem t p).
Proof.
  intros W H. unfold ns_contains. rewrite w_ix_div, get_ok by (split; [apply Z.div_pos; lia|apply Z.div_lt_upper_bound; lia]). cbn [bind]. f_equal. unfold mem.
  destruct (Z.leb_spec 0 p); [|lia]. cbn [andb]. set (w := nth _ _ _). set (b := Z.to_N (p mod 64)).
  assert (E : forall i, N.testbit (N.land w (w_mask p)) i = N.testbit w b && (i =? b)%N).
  { intros i. rewrite N.land_spec, mask_spec. fold b. destruct (N.eqb_spec i b) as [->|]; [reflexivity|now rewrite !andb_false_r]. }
  destruct (N.testbit w b) eqn:T.
  - destruct (N.eqb_spec (N.land w (w_mask p)) 0) as [X|X]; auto. specialize (E b). rewrite X, N.bits_0, N.eqb_refl in E. discriminate.
  - replace (N.land w (w_mask p)) with 0%N; auto. symmetry. apply N.bits_inj. intros i. rewrite E, N.bits_0. reflexivity.
Qed.
Lemma mem_ext t u : wok t -> wok u -> length t = length u -> (forall q, mem t q = mem u q) -> t = u.
Proof.
  intros W U L H. apply nth_ext with (d := 0%N) (d' := 0%N); auto. intros k Hk. apply N.bits_inj. intros b. destruct (N.lt_ge_cases b 64) as [B|B].
  - specialize (H (64 * Z.of_nat k + Z.of_N b)). unfold mem in H. destruct (Z.leb_spec 0 (64 * Z.of_nat k + Z.of_N b)); [|lia].
    replace (64 * Z.of_nat k + Z.of_N b) with (Z.of_N b + Z.of_nat k * 64) in H by lia. rewrite Z.div_add, Z.mod_add, Z.div_small, Z.mod_small in H by lia.
    rewrite Z.add_0_l, Nat2Z.id, N2Z.id in H. exact H.
  - rewrite !W64_bits; auto using nth_wok.
Qed.
Lemma eqcount_eq a : forall b, length a = length b -> (ns_eqcount a b <= length a)%nat /\ (ns_eqcount a b = length a <-> a = b).
Proof.
  induction a as [|x a IH]; intros [|y b] L; cbn in *; try lia; [intuition|]. destruct (IH b) as [A B]; [lia|]. destruct (N.eqb_spec x y) as [->|NE]; (split; [lia|]).
  - split; [intros E; f_equal; apply B; lia|intros [= ->]; cbn; f_equal; now apply B].
  - split; [lia|intros [= -> _]; congruence].
Qed.
Lemma empty_fold t : forall b, fold_left (fun az w => az && (w =? 0)%N) t b = b && forallb (fun w => (w =? 0)%N) t.
Proof. induction t as [|w t IH]; intros b; cbn; [now rewrite andb_true_r|]. now rewrite IH, andb_assoc. Qed.
Lemma all0_els t k : forallb (fun w => (w =? 0)%N) t = true <-> els k t = [].
Proof.
  revert k. induction t as [|w t IH]; intros k; cbn; [tauto|]. rewrite andb_true_iff, (IH (k + 1)). destruct (N.eqb_spec w 0) as [->|NZ]; [cbn; tauto|].
  split; [easy|]. intros E. apply app_eq_nil in E as [E _]. apply map_eq_nil in E. exfalso. destruct w as [|p]; [easy|]. cbn in E. rewrite plow_bits in E. discriminate.
Qed.
Lemma largest_ok rt : wok rt -> ns_largest_from rt (Z.of_nat (length rt) - 1) =
  match els 0 (rev rt) with [] => -1 | _ => ns_largest_from rt (Z.of_nat (length rt) - 1) end /\
  (els 0 (rev rt) <> [] -> mem (rev rt) (ns_largest_from rt (Z.of_nat (length rt) - 1)) = true /\ forall q, mem (rev rt) q = true -> q <= ns_largest_from rt (Z.of_nat (length rt) - 1)).
Proof.
  induction rt as [|w r IH]; intros W; [cbn; easy|]. inversion W as [|? ? Hw Wr]; subst. specialize (IH Wr). cbn [length ns_largest_from rev].
  replace (Z.of_nat (S (length r)) - 1) with (Z.of_nat (length r)) by lia.
  assert (EA : forall t k x, els k (t ++ [x]) = els k t ++ map (fun b => 64 * (k + Z.of_nat (length t)) + Z.of_N b) (wbits x)).
  { clear. induction t as [|a t IH]; intros k x; cbn [els app length].
    - rewrite app_nil_r. cbn [Z.of_nat]. now rewrite Z.add_0_r.
    - rewrite IH, <- app_assoc. do 2 f_equal. apply map_ext. intros b. lia. }
  assert (MA : forall q, mem (rev r ++ [w]) q = mem (rev r) q || ((Z.of_nat (length r) =? q / 64) && (0 <=? q) && N.testbit w (Z.to_N (q mod 64)))).
  { intros q. unfold mem. destruct (Z.leb_spec 0 q) as [L|L]; [|now rewrite andb_false_r]. cbn [andb]. pose proof (div_nn q L). rewrite andb_true_r.
    destruct (Nat.lt_ge_cases (Z.to_nat (q / 64)) (length r)) as [B|B].
    - rewrite app_nth1 by (now rewrite rev_length). destruct (Z.eqb_spec (Z.of_nat (length r)) (q / 64)); [lia|]. now rewrite orb_false_r.
    - rewrite app_nth2 by (now rewrite rev_length). rewrite (nth_overflow (rev r)) by (now rewrite rev_length). rewrite N.bits_0, rev_length. cbn [orb].
      destruct (Z.eqb_spec (Z.of_nat (length r)) (q / 64)) as [E|E].
      + replace (Z.to_nat (q / 64) - length r)%nat with 0%nat by lia. reflexivity.
      + destruct (Z.to_nat (q / 64) - length r)%nat as [|[|k]] eqn:K; [lia| |]; cbn [nth]; apply N.bits_0. }
  destruct (N.eq_dec w 0) as [->|NZ].
  - cbn [wmsb]. rewrite EA. cbn [wbits map]. rewrite app_nil_r. destruct IH as [I1 I2]. split; [exact I1|]. intros NE. destruct (I2 NE) as [J1 J2]. split.
    + rewrite MA, J1. reflexivity.
    + intros q Hq. rewrite MA, N.bits_0, !andb_false_r, orb_false_r in Hq. auto.
  - destruct (wmsb_spec w NZ) as (i & -> & Ti & Ai). assert (Li : (i < 64)%N) by (destruct (N.lt_ge_cases i 64) as [|G]; auto; rewrite (W64_bits w i Hw G) in Ti; discriminate).
    assert (Dv : (Z.of_nat (length r) * 64 + Z.of_N i) / 64 = Z.of_nat (length r)) by (rewrite Z.add_comm, Z.div_add, Z.div_small by lia; lia).
    assert (Md : (Z.of_nat (length r) * 64 + Z.of_N i) mod 64 = Z.of_N i) by (rewrite Z.add_comm, Z.mod_add, Z.mod_small by lia; lia).
    split.
    + rewrite EA. destruct (els 0 (rev r) ++ _) eqn:X; auto. apply app_eq_nil in X as [_ X]. apply map_eq_nil in X. destruct w as [|p]; [easy|]. cbn in X. rewrite plow_bits in X. discriminate.
    + intros _. split.
      * rewrite MA, Dv, Md, N2Z.id, Ti, Z.eqb_refl. destruct (Z.leb_spec 0 (Z.of_nat (length r) * 64 + Z.of_N i)); [|lia]. apply orb_true_r.
      * intros q Hq. rewrite MA in Hq. apply orb_prop in Hq as [Hq|Hq].
        -- unfold mem in Hq. apply andb_prop in Hq as [L0 Hq]. pose proof (div_nn q ltac:(lia)). pose proof (mod64 q). pose proof (divmod q).
           destruct (Nat.lt_ge_cases (Z.to_nat (q / 64)) (length r)) as [B|B]; [lia|]. rewrite nth_overflow in Hq by (now rewrite rev_length). rewrite N.bits_0 in Hq. discriminate.
        -- apply andb_prop in Hq as [Hq Tq]. apply andb_prop in Hq as [Hq L0]. pose proof (mod64 q). pose proof (divmod q).
           destruct (N.lt_ge_cases i (Z.to_N (q mod 64))) as [G|G]; [rewrite (Ai _ G) in Tq; discriminate|]. lia.
Qed.
