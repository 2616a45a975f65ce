(** ofs - S for NatSet (src/util.hpp:160-260). *)
From Verif Require Import Base BitModel BitProofs SetModel SetSpec SetProofs GSetProofs SubModel.
Local Open Scope Z_scope.
Local Ltac csplit := repeat match goal with |- _ /\ _ => split end.
#[local] Arguments wnot : simpl never.
#[local] Arguments trunc64 : simpl never.

Lemma w_for_inv {A} (P : Z -> A -> Prop) (body : Z -> A -> res A) n : forall i a, P i a ->
  (forall j a, i <= j < i + Z.of_nat n -> P j a -> exists a', body j a = Ok a' /\ P (j + 1) a') -> exists a', w_for n i body a = Ok a' /\ P (i + Z.of_nat n) a'.
Proof.
  induction n as [|n IH]; intros i a Pa H; cbn [w_for].
  - exists a. split; auto. now rewrite Z.add_0_r.
  - destruct (H i a) as (a1 & E & P1); [lia|auto|]. rewrite E. cbn [bind]. destruct (IH (i + 1) a1 P1) as (a2 & E2 & P2).
    + intros j b Hj. apply H. lia.
    + exists a2. split; auto. replace (i + Z.of_nat (S n)) with (i + 1 + Z.of_nat n) by lia. exact P2.
Qed.

Definition word (t : list N) (k : Z) : N := if k <? 0 then 0%N else nth (Z.to_nat k) t 0%N.
Definition bitv (w : N) (k : Z) : bool := (0 <=? k) && (k <? 64) && N.testbit w (Z.to_N k).
Lemma word_lt t k : wok t -> (word t k < W64)%N.
Proof. intros W. unfold word. destruct (k <? 0); [reflexivity|now apply nth_wok]. Qed.
Lemma word_over t k : Z.of_nat (length t) <= k -> word t k = 0%N.
Proof. intros H. unfold word. destruct (k <? 0); auto. apply nth_overflow. lia. Qed.
Lemma mem_word t q : mem t q = bitv (word t (q / 64)) (q mod 64).
Proof.
  unfold mem, word, bitv. pose proof (mod64 q). pose proof (divmod q). destruct (Z.leb_spec 0 (q mod 64)); [|lia]. destruct (Z.ltb_spec (q mod 64) 64); [|lia]. cbn [andb].
  destruct (Z.leb_spec 0 q), (Z.ltb_spec (q / 64) 0); try lia; auto; now rewrite ?N.bits_0.
Qed.
Lemma word_get t k : 0 <= k < Z.of_nat (length t) -> w_get t k = Ok (word t k).
Proof. intros H. rewrite get_ok by auto. unfold word. destruct (Z.ltb_spec k 0); auto; lia. Qed.
Lemma word_upd t i w k : 0 <= i < Z.of_nat (length t) -> word (w_upd t (Z.to_nat i) w) k = if k =? i then w else word t k.
Proof.
  intros H. unfold word. destruct (Z.ltb_spec k 0), (Z.eqb_spec k i); try lia; auto; rewrite upd_nth by lia.
  - subst. now rewrite Nat.eqb_refl.
  - destruct (Nat.eqb_spec (Z.to_nat k) (Z.to_nat i)); auto; lia.
Qed.
Lemma word_zero n k : word (w_zero n) k = 0%N.
Proof. unfold word. destruct (k <? 0); auto. apply nth_zero. Qed.
Lemma zero_len n : length (w_zero n) = n. Proof. apply repeat_length. Qed.

(** a position q of the words, split into word and bit *)
Lemma split_pos k b : 0 <= b < 64 -> (64 * k + b) / 64 = k /\ (64 * k + b) mod 64 = b.
Proof. intros H. rewrite Z.mul_comm, Z.add_comm, Z.div_add, Z.mod_add, Z.div_small, Z.mod_small by lia. lia. Qed.
Lemma mem_pos t k b : 0 <= b < 64 -> mem t (64 * k + b) = bitv (word t k) b.
Proof. intros H. rewrite mem_word. destruct (split_pos k b H) as [-> ->]. reflexivity. Qed.
Lemma by_pos (P : Z -> Prop) : (forall k b, 0 <= b < 64 -> P (64 * k + b)) -> forall q, P q.
Proof. intros H q. rewrite (divmod q). apply H, mod64. Qed.

(** ** shifts *)
Lemma shl_ok x k : 0 <= k < 64 -> exists y, w_shl x k = Ok y /\ (y < W64)%N /\ forall b, bitv y b = (k <=? b) && bitv x (b - k) && (b <? 64).
Proof.
  intros H. unfold w_shl. destruct ((0 <=? k) && (k <? 64)) eqn:E; [|lia]. eexists. split; [reflexivity|]. split.
  - apply lt_W64. intros i Hi. rewrite trunc64_spec. destruct (N.ltb_spec i 64); auto; lia.
  - intros b. unfold bitv. rewrite trunc64_spec. destruct (Z.leb_spec 0 b), (Z.ltb_spec b 64), (Z.leb_spec k b); cbn [andb]; try lia; auto; rewrite ?andb_false_r; auto.
    + destruct (N.ltb_spec (Z.to_N b) 64); [|lia]. destruct (Z.leb_spec 0 (b - k)); [|lia]. destruct (Z.ltb_spec (b - k) 64); [|lia]. cbn [andb]. rewrite andb_true_r.
      rewrite N.shiftl_spec_high' by lia. f_equal. lia.
    + rewrite N.shiftl_spec_low by lia. apply andb_false_r.
Qed.
Lemma shr_ok x k : (x < W64)%N -> 0 <= k < 64 -> exists y, w_shr x k = Ok y /\ (y < W64)%N /\ forall b, bitv y b = (0 <=? b) && bitv x (b + k).
Proof.
  intros Hx H. unfold w_shr. destruct ((0 <=? k) && (k <? 64)) eqn:E; [|lia]. eexists. split; [reflexivity|]. split.
  - apply lt_W64. intros i Hi. rewrite N.shiftr_spec' . apply W64_bits; auto. lia.
  - intros b. unfold bitv. rewrite N.shiftr_spec'. destruct (Z.leb_spec 0 b); auto. cbn [andb]. destruct (Z.leb_spec 0 (b + k)); [|lia]. cbn [andb].
    replace (Z.to_N b + Z.to_N k)%N with (Z.to_N (b + k)) by lia. destruct (Z.ltb_spec b 64), (Z.ltb_spec (b + k) 64); cbn [andb]; auto; try lia. apply W64_bits; auto. lia.
Qed.
Lemma low_ok k : 0 <= k < 64 -> exists m, w_low k = Ok m /\ (m < W64)%N /\ forall b, bitv m b = (0 <=? b) && (b <? k).
Proof.
  intros H. unfold w_low, w_shl. destruct ((0 <=? k) && (k <? 64)) eqn:E; [|lia]. cbn [bind]. eexists. split; [reflexivity|].
  assert (X : trunc64 (N.shiftl 1 (Z.to_N k)) = (2 ^ Z.to_N k)%N).
  { rewrite N.shiftl_1_l. apply N.bits_inj. intros i. rewrite trunc64_spec. destruct (N.ltb_spec i 64) as [L|L]; [reflexivity|]. cbn. symmetry. apply N.pow2_bits_false. lia. }
  rewrite X. assert (Y : (2 ^ Z.to_N k - 1)%N = N.ones (Z.to_N k)) by (unfold N.ones; rewrite N.shiftl_1_l; lia). rewrite Y. split.
  - apply lt_W64. intros i Hi. apply N.ones_spec_high. lia.
  - intros b. unfold bitv. destruct (Z.leb_spec 0 b); auto. cbn [andb]. destruct (Z.ltb_spec b k) as [L|L].
    + rewrite N.ones_spec_low by lia. lia.
    + rewrite N.ones_spec_high by lia. apply andb_false_r.
Qed.
Lemma bitv_lor x y b : bitv (N.lor x y) b = bitv x b || bitv y b.
Proof. unfold bitv. rewrite N.lor_spec. now destruct ((0 <=? b) && (b <? 64)). Qed.
Lemma bitv_land x y b : bitv (N.land x y) b = bitv x b && bitv y b.
Proof. unfold bitv. rewrite N.land_spec. now destruct ((0 <=? b) && (b <? 64)). Qed.
Lemma bitv_wnot x b : (x < W64)%N -> bitv (wnot x) b = (0 <=? b) && (b <? 64) && negb (bitv x b).
Proof. intros H. unfold bitv. rewrite wnot_spec by auto. destruct (Z.leb_spec 0 b), (Z.ltb_spec b 64); cbn [andb]; auto. destruct (N.ltb_spec (Z.to_N b) 64); auto; lia. Qed.
Lemma bitv_out x b : b < 0 \/ 64 <= b -> bitv x b = false.
Proof. intros H. unfold bitv. replace ((0 <=? b) && (b <? 64)) with false by lia. reflexivity. Qed.
Lemma bitv_0 b : bitv 0 b = false.
Proof. unfold bitv. rewrite N.bits_0. apply andb_false_r. Qed.

(** ** flip *)
Lemma flip_ok s lw : wok s -> 0 <= lw < Z.of_nat (length s) -> (forall k, lw < k -> word s k = 0%N) ->
  exists t, sub_flip s lw = Ok t /\ length t = length s /\ wok t /\ forall q, mem t q = (0 <=? q) && mem s (64 * (lw + 1) - 1 - q).
Proof.
  intros W L Ab. unfold sub_flip.
  destruct (w_for_inv (fun i t => length t = length s /\ wok t /\ forall k, word t k = if (lw - i <? k) && (k <=? lw) then revBitsOfLong (word s (lw - k)) else 0%N)
     (fun i t => do w <- w_get s i ; w_set t (lw - i) (revBitsOfLong w)) (Z.to_nat (lw + 1)) 0 (w_zero (length s))) as (t & E & Ln & Wt & Nt).
  - csplit; [apply zero_len|apply zero_wok|]. intros k. rewrite word_zero. destruct ((lw - 0 <? k) && (k <=? lw)) eqn:X; auto. lia.
  - intros j t Hj (Ln & Wt & Nt). rewrite word_get by lia. cbn [bind]. rewrite set_ok by lia. eexists. split; [reflexivity|]. csplit.
    + now rewrite upd_length.
    + apply upd_wok; auto. apply revBitsOfLong_lt.
    + intros k. rewrite word_upd by lia. rewrite Nt. destruct (Z.eqb_spec k (lw - j)) as [->|NE].
      * destruct ((lw - (j + 1) <? lw - j) && (lw - j <=? lw)) eqn:X; [|lia]. do 2 f_equal. lia.
      * destruct ((lw - j <? k) && (k <=? lw)) eqn:X, ((lw - (j + 1) <? k) && (k <=? lw)) eqn:Y; auto; lia.
  - exists t. csplit; auto. apply (by_pos (fun q => mem t q = (0 <=? q) && mem s (64 * (lw + 1) - 1 - q))). intros k b Hb. rewrite mem_pos by auto. rewrite Nt.
    replace (64 * (lw + 1) - 1 - (64 * k + b)) with (64 * (lw - k) + (63 - b)) by lia. rewrite mem_pos by lia.
    destruct ((lw - (0 + Z.of_nat (Z.to_nat (lw + 1))) <? k) && (k <=? lw)) eqn:X.
    + destruct (Z.leb_spec 0 (64 * k + b)); [|lia]. cbn [andb]. unfold bitv. rewrite revBitsOfLong_spec by (auto using word_lt; lia). replace (63 - Z.to_N b)%N with (Z.to_N (63 - b)) by lia. f_equal. lia.
    + rewrite bitv_0. destruct (Z.leb_spec 0 (64 * k + b)); auto. cbn [andb]. destruct (Z.lt_ge_cases lw k) as [G|G]; [|lia]. unfold word. destruct (Z.ltb_spec (lw - k) 0); [|lia]. now rewrite bitv_0.
Qed.

(** ** moving down *)
Lemma sub_word_ok t t' i x : wok t -> wok t' -> length t' = length t -> 0 <= i < Z.of_nat (length t) -> 1 <= x <= 63 -> (x < 63 \/ i + 1 = Z.of_nat (length t)) ->
  word t' i = word t i -> word t' (i + 1) = word t (i + 1) ->
  exists w, sub_word t' i x = Ok w /\ (w < W64)%N /\ forall b, 0 <= b < 64 -> bitv w b = mem t (64 * i + b + x).
Proof.
  intros W W' Ln Hi Hx Hc E0 E1. unfold sub_word. rewrite Ln.
  assert (N1 : exists nx, (if i + 1 =? Z.of_nat (length t) then Ok 0%N else do w <- w_get t' (i + 1) ; do m <- w_low (x + 1) ; Ok (N.land w m)) = Ok nx /\ (nx < W64)%N /\
     forall b, b < x -> bitv nx b = bitv (word t (i + 1)) b).
  { destruct (Z.eqb_spec (i + 1) (Z.of_nat (length t))) as [E|E].
    - eexists. split; [reflexivity|]. split; [reflexivity|]. intros b _. rewrite word_over by lia. reflexivity.
    - rewrite word_get by lia. cbn [bind]. destruct (low_ok (x + 1)) as (m & -> & Lm & Bm); [lia|]. cbn [bind]. eexists. split; [reflexivity|]. split; [apply land_lt; now apply word_lt|].
      intros b Hb. rewrite bitv_land, Bm, E1. destruct (Z.ltb_spec b (x + 1)); [|lia]. destruct (Z.leb_spec 0 b); cbn [andb]; [apply andb_true_r|]. rewrite andb_false_r. symmetry. apply bitv_out. lia. }
  destruct N1 as (nx & -> & Lx & Bx). cbn [bind]. rewrite word_get by lia. cbn [bind]. rewrite E0. destruct (shr_ok (word t i) x) as (a & -> & La & Ba); [now apply word_lt|lia|]. cbn [bind].
  destruct (shl_ok nx (64 - x)) as (c & -> & Lc & Bc); [lia|]. cbn [bind]. eexists. split; [reflexivity|]. split; [now apply lor_lt|]. intros b Hb. rewrite bitv_lor, Ba, Bc.
  destruct (Z.leb_spec 0 b); [|lia]. destruct (Z.ltb_spec b 64); [|lia]. cbn [andb]. rewrite andb_true_r. destruct (Z.leb_spec (64 - x) b) as [G|G]; cbn [andb].
  - rewrite (bitv_out (word t i)) by lia. cbn [orb]. rewrite Bx by lia. replace (64 * i + b + x) with (64 * (i + 1) + (b + x - 64)) by lia. rewrite mem_pos by lia. f_equal. lia.
  - rewrite orb_false_r. replace (64 * i + b + x) with (64 * i + (b + x)) by lia. now rewrite mem_pos by lia.
Qed.
Lemma down_ok t lw x : wok t -> 0 <= lw < Z.of_nat (length t) -> (forall k, lw < k -> word t k = 0%N) -> 1 <= x <= 63 -> (x < 63 \/ Z.of_nat (length t) = 1) ->
  exists r, sub_down t lw x = Ok r /\ length r = length t /\ wok r /\ forall q, mem r q = (0 <=? q) && mem t (q + x).
Proof.
  intros W L Ab Hx Hc. unfold sub_down. replace (Z.min lw (Z.of_nat (length t) - 1) + 1) with (lw + 1) by lia.
  destruct (w_for_inv (fun i nt => length nt = length t /\ wok nt /\ forall k b, 0 <= b < 64 -> bitv (word nt k) b = (0 <=? k) && (k <? i) && mem t (64 * k + b + x))
     (fun i nt => do w <- sub_word t i x ; w_set nt i w) (Z.to_nat (lw + 1)) 0 (w_zero (length t))) as (r & E & Ln & Wr & Nr).
  - csplit; [apply zero_len|apply zero_wok|]. intros k b Hb. rewrite word_zero, bitv_0. destruct ((0 <=? k) && (k <? 0)) eqn:X; auto; lia.
  - intros j nt Hj (Ln & Wn & Nn). destruct (sub_word_ok t t j x) as (w & -> & Lw & Bw); auto; try lia. cbn [bind]. rewrite set_ok by lia. eexists. split; [reflexivity|]. csplit.
    + now rewrite upd_length.
    + now apply upd_wok.
    + intros k b Hb. rewrite word_upd by lia. destruct (Z.eqb_spec k j) as [->|NE].
      * rewrite Bw by auto. replace ((0 <=? j) && (j <? j + 1)) with true by lia. reflexivity.
      * rewrite Nn by auto. f_equal. lia.
  - exists r. csplit; auto. apply (by_pos (fun q => mem r q = (0 <=? q) && mem t (q + x))). intros k b Hb. rewrite mem_pos, Nr by auto.
    destruct (Z.leb_spec 0 (64 * k + b)), (Z.leb_spec 0 k); try lia; cbn [andb]; auto. destruct (Z.ltb_spec k (0 + Z.of_nat (Z.to_nat (lw + 1)))); auto. cbn [andb].
    symmetry. rewrite mem_word. rewrite Ab; [apply bitv_0|]. apply Z.lt_le_trans with k; [lia|]. apply Z.div_le_lower_bound; lia.
Qed.
(** ** by words up and bits down *)
Lemma clear_ok t i n : wok t -> 0 <= i -> i + Z.of_nat n <= Z.of_nat (length t) ->
  exists r, w_for n i (fun j t => w_set t j 0%N) t = Ok r /\ length r = length t /\ wok r /\ forall k, word r k = if (i <=? k) && (k <? i + Z.of_nat n) then 0%N else word t k.
Proof.
  intros W Hi Hn. destruct (w_for_inv (fun j r => length r = length t /\ wok r /\ forall k, word r k = if (i <=? k) && (k <? j) then 0%N else word t k) (fun j t => w_set t j 0%N) n i t) as (r & E & Ln & Wr & Nr).
  - csplit; auto. intros k. destruct ((i <=? k) && (k <? i)) eqn:X; auto; lia.
  - intros j r Hj (Ln & Wr & Nr). rewrite set_ok by lia. eexists. split; [reflexivity|]. csplit; [now rewrite upd_length|now apply upd_wok|]. intros k. rewrite word_upd by lia. rewrite Nr.
    destruct (Z.eqb_spec k j), ((i <=? k) && (k <? j)) eqn:X, ((i <=? k) && (k <? j + 1)) eqn:Y; auto; lia.
  - exists r. csplit; auto.
Qed.
Lemma move_ok t lw delta x : wok t -> 0 <= lw < Z.of_nat (length t) -> (forall k, lw < k -> word t k = 0%N) -> 1 <= x <= 63 -> (x < 63 \/ Z.of_nat (length t) = 1) ->
  1 <= delta -> lw + delta < Z.of_nat (length t) -> (delta = 1 \/ lw = 0) -> (forall q, q < x -> mem t q = false) ->
  exists r, sub_move t lw delta x = Ok r /\ length r = length t /\ wok r /\ forall q, mem r q = (0 <=? q) && mem t (q - 64 * delta + x).
Proof.
  intros W L Ab Hx Hc Hd Hl Hdl Lo. unfold sub_move.
  destruct (w_for_inv (fun i p => length (fst p) = length t /\ wok (fst p) /\ (i <= lw -> forall k, i <= k -> word (fst p) k = word t k) /\
      length (snd p) = length t /\ wok (snd p) /\ forall k b, 0 <= b < 64 -> bitv (word (snd p) k) b = (delta <=? k) && (k <? i + delta) && mem t (64 * (k - delta) + b + x))
     (fun i p => let '(t, nt) := p in do w <- sub_word t i x ; do nt <- w_set nt (i + delta) w ; do t <- w_for (Z.to_nat delta) i (fun j t => w_set t j 0%N) t ; Ok (t, nt))
     (Z.to_nat (lw + 1)) 0 (t, w_zero (length t))) as ([t' r] & E & _ & _ & _ & Ln & Wr & Nr).
  - cbn [fst snd]. csplit; auto; [apply zero_len|apply zero_wok|]. intros k b Hb. rewrite word_zero, bitv_0. destruct ((delta <=? k) && (k <? 0 + delta)) eqn:X; auto; lia.
  - intros j [t' nt] Hj (Lt & Wt & At & Ln & Wn & Nn). cbn [fst snd] in *. destruct (sub_word_ok t t' j x) as (w & -> & Lw & Bw); auto; try lia; try (apply At; lia). cbn [bind]. rewrite set_ok by lia. cbn [bind].
    destruct (clear_ok t' j (Z.to_nat delta)) as (t2 & -> & L2 & W2 & N2); auto; try lia. cbn [bind]. eexists. split; [reflexivity|]. cbn [fst snd]. csplit; auto.
    + congruence.
    + intros Hj1 k Hk. rewrite N2. destruct Hdl as [-> | ->]; [|lia]. destruct ((j <=? k) && (k <? j + Z.of_nat (Z.to_nat 1))) eqn:X; [lia|]. apply At; lia.
    + now rewrite upd_length.
    + now apply upd_wok.
    + intros k b Hb. rewrite word_upd by lia. destruct (Z.eqb_spec k (j + delta)) as [->|NE].
      * rewrite Bw by auto. replace ((delta <=? j + delta) && (j + delta <? j + 1 + delta)) with true by lia. cbn [andb]. f_equal. lia.
      * rewrite Nn by auto. f_equal. lia.
  - cbn [fst snd] in *. rewrite E. cbn [bind]. exists r. csplit; auto. apply (by_pos (fun q => mem r q = (0 <=? q) && mem t (q - 64 * delta + x))). intros k b Hb. rewrite mem_pos, Nr by auto.
    replace (64 * k + b - 64 * delta + x) with (64 * (k - delta) + b + x) by lia. destruct (Z.leb_spec delta k) as [G|G].
    + destruct (Z.leb_spec 0 (64 * k + b)); [|lia]. cbn [andb]. destruct (Z.ltb_spec k (0 + Z.of_nat (Z.to_nat (lw + 1)) + delta)); auto. cbn [andb].
      symmetry. rewrite mem_word. rewrite Ab; [apply bitv_0|]. apply Z.lt_le_trans with (k - delta); [lia|]. apply Z.div_le_lower_bound; lia.
    + cbn [andb]. rewrite Lo by lia. now rewrite andb_false_r.
Qed.
(** ** up *)
Lemma words_up t delta (dst : list N) : wok t -> wok dst -> length dst = length t -> 0 <= delta -> delta <= Z.of_nat (length t) -> (forall k, k < delta -> word dst k = 0%N) ->
  exists r, w_for (Z.to_nat (Z.of_nat (length dst) - delta)) delta (fun i nt => do w <- w_get t (i - delta) ; w_set nt i w) dst = Ok r /\ length r = length t /\ wok r /\
    forall q, mem r q = (q <? 64 * Z.of_nat (length t)) && mem t (q - 64 * delta).
Proof.
  intros W Wd Ld Hd Hdl Lo. rewrite Ld.
  destruct (w_for_inv (fun i nt => length nt = length t /\ wok nt /\ forall k, k < i -> word nt k = word t (k - delta))
    (fun i nt => do w <- w_get t (i - delta) ; w_set nt i w) (Z.to_nat (Z.of_nat (length t) - delta)) delta dst) as (r & E & Ln & Wr & Nr).
  - csplit; auto. intros k Hk. rewrite Lo by auto. unfold word. destruct (Z.ltb_spec (k - delta) 0); auto; lia.
  - intros j nt Hj (Ln & Wn & Nn). rewrite word_get by lia. cbn [bind]. rewrite set_ok by lia. eexists. split; [reflexivity|]. csplit; [now rewrite upd_length|apply upd_wok; auto; now apply word_lt|].
    intros k Hk. rewrite word_upd by lia. destruct (Z.eqb_spec k j) as [->|]; auto. apply Nn. lia.
  - exists r. csplit; auto. apply (by_pos (fun q => mem r q = (q <? 64 * Z.of_nat (length t)) && mem t (q - 64 * delta))). intros k b Hb. rewrite mem_pos by auto.
    replace (64 * k + b - 64 * delta) with (64 * (k - delta) + b) by lia. rewrite mem_pos by auto. destruct (Z.ltb_spec (64 * k + b) (64 * Z.of_nat (length t))) as [G|G]; cbn [andb].
    + rewrite Nr by lia. reflexivity.
    + rewrite word_over by lia. apply bitv_0.
Qed.
Lemma up_bits_ok t lw up : wok t -> 0 <= lw < Z.of_nat (length t) -> (forall k, lw < k -> word t k = 0%N) -> 1 <= up <= 63 ->
  exists p, w_for (Z.to_nat (Z.min (lw + 1) (Z.of_nat (length t) - 1) + 1)) 0 (fun i p => let '(next, nt) := p in
      do w <- w_get t i ; do a <- w_shl w up ; do nt <- w_set nt i (N.lor a next) ;
      do m <- w_low (64 - up) ; do next <- w_shr (N.land w (wnot m)) (64 - up) ; Ok (next, nt)) (0%N, w_zero (length t)) = Ok p /\
   length (snd p) = length t /\ wok (snd p) /\ forall q, mem (snd p) q = (q <? 64 * Z.of_nat (length t)) && mem t (q - up).
Proof.
  intros W L Ab Hu.
  edestruct (w_for_inv (fun i p => (fst p < W64)%N /\ (forall b, bitv (fst p) b = (0 <=? b) && (b <? up) && bitv (word t (i - 1)) (b + 64 - up)) /\
      length (snd p) = length t /\ wok (snd p) /\ forall k b, 0 <= b < 64 -> bitv (word (snd p) k) b = (k <? i) && mem t (64 * k + b - up))) as (p & E & _ & _ & Ln & Wr & Nr).
  3: exists p; split; [exact E|].
  - cbn [fst snd]. csplit; [reflexivity| |apply zero_len|apply zero_wok|].
    + intros b. rewrite bitv_0. unfold word. cbn [Z.sub Z.opp Z.add Z.ltb Z.compare]. rewrite bitv_0. now rewrite andb_false_r.
    + intros k b Hb. rewrite word_zero, bitv_0. destruct (Z.ltb_spec k 0); auto. cbn [andb]. unfold mem. destruct (Z.leb_spec 0 (64 * k + b - up)); auto. lia.
  - intros j [next nt] Hj (Lx & Bx & Ln & Wn & Nn). cbn [fst snd] in *. rewrite word_get by lia. cbn [bind]. destruct (shl_ok (word t j) up) as (a & -> & La & Ba); [lia|]. cbn [bind].
    rewrite set_ok by lia. cbn [bind]. destruct (low_ok (64 - up)) as (m & -> & Lm & Bm); [lia|]. cbn [bind].
    destruct (shr_ok (N.land (word t j) (wnot m)) (64 - up)) as (nx & -> & Lnx & Bnx); [apply land_lt; now apply word_lt|lia|]. cbn [bind].
    eexists. split; [reflexivity|]. cbn [fst snd]. csplit; auto.
    + intros b. rewrite Bnx, bitv_land, bitv_wnot, Bm by auto. replace (j + 1 - 1) with j by lia. replace (b + (64 - up)) with (b + 64 - up) by lia.
      destruct (Z.leb_spec 0 b); auto. cbn [andb]. destruct (Z.ltb_spec b up) as [G|G]; cbn [andb].
      * destruct (Z.leb_spec 0 (b + 64 - up)), (Z.ltb_spec (b + 64 - up) 64), (Z.ltb_spec (b + 64 - up) (64 - up)); try lia; cbn; now rewrite ?andb_true_r.
      * rewrite bitv_out by lia. reflexivity.
    + now rewrite upd_length.
    + apply upd_wok; auto. now apply lor_lt.
    + intros k b Hb. rewrite word_upd by lia. destruct (Z.eqb_spec k j) as [->|NE].
      * rewrite bitv_lor, Ba, Bx. destruct (Z.leb_spec 0 b); [|lia]. destruct (Z.ltb_spec b 64); [|lia]. destruct (Z.ltb_spec j (j + 1)); [|lia]. cbn [andb]. rewrite andb_true_r.
        destruct (Z.leb_spec up b), (Z.ltb_spec b up); try lia; cbn [andb orb].
        -- rewrite orb_false_r. replace (64 * j + b - up) with (64 * j + (b - up)) by lia. now rewrite mem_pos by lia.
        -- replace (64 * j + b - up) with (64 * (j - 1) + (b + 64 - up)) by lia. now rewrite mem_pos by lia.
      * rewrite Nn by auto. f_equal. lia.
  - csplit; auto. apply (by_pos (fun q => mem (snd p) q = (q <? 64 * Z.of_nat (length t)) && mem t (q - up))). intros k b Hb. rewrite mem_pos, Nr by auto.
    destruct (Z.ltb_spec k (0 + Z.of_nat (Z.to_nat (Z.min (lw + 1) (Z.of_nat (length t) - 1) + 1)))) as [G|G]; cbn [andb].
    + destruct (Z.ltb_spec (64 * k + b) (64 * Z.of_nat (length t))); auto; lia.
    + destruct (Z.ltb_spec (64 * k + b) (64 * Z.of_nat (length t))); auto. cbn [andb]. symmetry. rewrite mem_word, Ab; [apply bitv_0|].
      apply Z.lt_le_trans with (k - 1); [lia|]. apply Z.div_le_lower_bound; lia.
Qed.
Lemma up_ok t lw delta up : wok t -> 0 <= lw < Z.of_nat (length t) -> (forall k, lw < k -> word t k = 0%N) -> 1 <= up <= 63 -> 0 <= delta < Z.of_nat (length t) ->
  exists r, sub_up t lw delta up = Ok r /\ length r = length t /\ wok r /\ forall q, mem r q = (q <? 64 * Z.of_nat (length t)) && mem t (q - 64 * delta - up).
Proof.
  intros W L Ab Hu Hd. unfold sub_up. destruct (up_bits_ok t lw up W L Ab Hu) as ([next nt] & -> & Ln & Wn & Mn). cbn [bind fst snd] in *.
  destruct (clear_ok t 0 (Z.to_nat delta)) as (t2 & -> & L2 & W2 & N2); auto; try lia. cbn [bind].
  destruct (words_up nt delta t2) as (r & E & Lr & Wr & Mr); auto; try congruence; try lia.
  - intros k Hk. rewrite N2. destruct ((0 <=? k) && (k <? 0 + Z.of_nat (Z.to_nat delta))) eqn:X; auto. unfold word. destruct (Z.ltb_spec k 0); auto; lia.
  - exists r. csplit; auto; [congruence|]. intros q. rewrite Mr, Mn, Ln. destruct (Z.ltb_spec q (64 * Z.of_nat (length t))); auto. cbn [andb].
    destruct (Z.ltb_spec (q - 64 * delta) (64 * Z.of_nat (length t))); auto; lia.
Qed.

(** ** the whole *)
Lemma last_spec rt : forall lw b, wok rt -> w_last rt (Z.of_nat (length rt) - 1) = Some (lw, b) ->
  0 <= lw < Z.of_nat (length rt) /\ (b < 64)%N /\ wmsb (word (rev rt) lw) = Some b /\ forall k, lw < k -> word (rev rt) k = 0%N.
Proof.
  induction rt as [|w r IH]; intros lw b W H; [discriminate|]. inversion W as [|? ? Hw Wr]; subst. cbn [w_last length] in H. replace (Z.of_nat (S (length r)) - 1) with (Z.of_nat (length r)) in H by lia.
  assert (WA : forall k, word (rev r ++ [w]) k = if k =? Z.of_nat (length r) then w else word (rev r) k).
  { intros k. unfold word. destruct (Z.ltb_spec k 0), (Z.eqb_spec k (Z.of_nat (length r))); try lia; auto.
    - subst. rewrite app_nth2 by (rewrite rev_length; lia). rewrite rev_length. replace (Z.to_nat (Z.of_nat (length r)) - length r)%nat with 0%nat by lia. reflexivity.
    - destruct (Z.lt_ge_cases k (Z.of_nat (length r))); [now rewrite app_nth1 by (rewrite rev_length; lia)|]. rewrite !nth_overflow; auto; rewrite ?app_length, rev_length; cbn; lia. }
  cbn [rev]. destruct (wmsb w) eqn:M.
  - injection H as <- <-. csplit; try (cbn [length]; lia).
    + destruct w as [|p]; [discriminate|]. destruct (wmsb_spec (Npos p) ltac:(discriminate)) as (i & E & T & _). rewrite M in E. injection E as <-. destruct (N.lt_ge_cases n 64) as [|G]; auto. rewrite (W64_bits _ _ Hw G) in T. discriminate.
    + rewrite WA, Z.eqb_refl. exact M.
    + intros k Hk. apply word_over. rewrite app_length, rev_length. cbn. lia.
  - assert (w = 0%N) as -> by (destruct w; auto; destruct (wmsb_spec (Npos p) ltac:(discriminate)) as (i & E & _); congruence).
    apply (IH lw b Wr) in H as (A & B & C & D). cbn [length]. csplit; auto; try lia.
    + rewrite WA. destruct (Z.eqb_spec lw (Z.of_nat (length r))); auto. lia.
    + intros k Hk. rewrite WA. destruct (k =? Z.of_nat (length r)); auto.
Qed.
Lemma last_none rt : forall lw, w_last rt lw = None -> Forall (fun w => w = 0%N) rt.
Proof.
  induction rt as [|w r IH]; intros lw H; constructor; cbn in H; destruct (wmsb w) eqn:M; try discriminate; [|eauto].
  destruct w; auto. destruct (wmsb_spec (Npos p) ltac:(discriminate)) as (i & E & _). congruence.
Qed.

(** when ofs - s is computed correctly; lv is the largest member, dec its distance to ofs *)
Definition sub_ok (n : nat) (ofs lv : Z) : Prop :=
  n = 1%nat \/
  (~ (lv mod 64 = 0 /\ (ofs - lv) mod 64 = 0) /\
   (64 <= ofs - lv -> (ofs - lv) mod 64 + lv mod 64 < 63 -> (ofs - lv < 128 \/ lv < 64) /\ lv / 64 + (ofs - lv) / 64 < Z.of_nat n)).

Lemma mem_lt t q : mem t q = true -> 0 <= q < 64 * Z.of_nat (length t).
Proof.
  unfold mem. intros H. apply andb_prop in H as [H T]. split; [lia|]. pose proof (div_nn q ltac:(lia)). pose proof (mod64 q). pose proof (divmod q).
  destruct (Nat.lt_ge_cases (Z.to_nat (q / 64)) (length t)); [lia|]. rewrite nth_overflow in T by auto. rewrite N.bits_0 in T. discriminate.
Qed.
Lemma ns_sub_ok s ofs : wok s -> (forall v, mem s v = true -> 0 <= ofs - v < 64 * Z.of_nat (length s)) ->
  (forall lv, mem s lv = true -> (forall v, mem s v = true -> v <= lv) -> sub_ok (length s) ofs lv) ->
  exists r, ns_sub ofs s = Ok r /\ length r = length s /\ wok r /\ forall q, mem r q = mem s (ofs - q).
Proof.
  intros W R C. unfold ns_sub. assert (Wr : wok (rev s)) by (apply Forall_rev; exact W).
  destruct (w_last (rev s) (Z.of_nat (length s) - 1)) as [[lw b]|] eqn:La.
  2: { exists (w_zero (length s)). csplit; [reflexivity|apply zero_len|apply zero_wok|]. intros q. rewrite mem_zero. apply last_none in La. symmetry. unfold mem.
       assert (Z0 : nth (Z.to_nat ((ofs - q) / 64)) s 0%N = 0%N). { destruct (Nat.lt_ge_cases (Z.to_nat ((ofs - q) / 64)) (length s)); [|now apply nth_overflow]. rewrite Forall_forall in La. apply La, in_rev. rewrite rev_involutive. now apply nth_In. }
       now rewrite Z0, N.bits_0, andb_false_r. }
  rewrite <- rev_length in La. apply last_spec in La as (Llw & Lb & Mb & Ab); auto. rewrite rev_length in Llw. rewrite rev_involutive in *.
  set (lv := lw * 64 + Z.of_N b). assert (Wz : word s lw <> 0%N) by (intros X; rewrite X in Mb; discriminate).
  destruct (wmsb_spec (word s lw) Wz) as (b' & Eb & Tb & Hb). rewrite Mb in Eb. injection Eb as <-.
  assert (Bb : bitv (word s lw) (Z.of_N b) = true) by (unfold bitv; rewrite N2Z.id, Tb; lia).
  assert (Mlv : mem s lv = true) by (unfold lv; rewrite Z.mul_comm, mem_pos by lia; exact Bb).
  assert (Dlv : lv / 64 = lw /\ lv mod 64 = Z.of_N b) by (unfold lv; rewrite Z.mul_comm; apply split_pos; lia). destruct Dlv as [Dlv Rlv].
  assert (Max : forall v, mem s v = true -> v <= lv).
  { intros v Hv. rewrite mem_word in Hv. pose proof (mod64 v). pose proof (divmod v). destruct (Z.lt_trichotomy (v / 64) lw) as [X|[X|X]]; [unfold lv; lia| |rewrite Ab, bitv_0 in Hv by auto; discriminate].
    rewrite X in Hv. destruct (Z.lt_ge_cases (Z.of_N b) (v mod 64)) as [G|G]; [|unfold lv; lia]. unfold bitv in Hv. rewrite (Hb (Z.to_N (v mod 64))) in Hv by lia. rewrite andb_false_r in Hv. discriminate. }
  specialize (C lv Mlv Max). unfold sub_ok in C. pose proof (R lv Mlv) as Rl.
  destruct (flip_ok s lw W Llw Ab) as (t & -> & Ln & Wt & Mt). cbn [bind]. rewrite word_get by lia. cbn [bind].
  set (nb := 63 - Z.of_N b).
  assert (Mnb : mem t nb = true) by (rewrite Mt; replace (64 * (lw + 1) - 1 - nb) with lv by (unfold nb, lv; lia); rewrite Mlv; unfold nb; lia).
  assert (Lo : forall q, q < nb -> mem t q = false).
  { intros q Hq. rewrite Mt. destruct (Z.leb_spec 0 q); auto. cbn [andb]. destruct (mem s (64 * (lw + 1) - 1 - q)) eqn:X; auto. apply Max in X. unfold lv, nb in *. lia. }
  assert (At : forall k, lw < k -> word t k = 0%N).
  { intros k Hk. apply N.bits_inj. intros i. rewrite N.bits_0. destruct (N.lt_ge_cases i 64) as [G|G]; [|apply W64_bits; auto; now apply word_lt].
    assert (X : mem t (64 * k + Z.of_N i) = false) by (rewrite Mt; destruct (mem s (64 * (lw + 1) - 1 - (64 * k + Z.of_N i))) eqn:Y; [apply mem_lt in Y; lia|apply andb_false_r]).
    rewrite mem_pos in X by lia. unfold bitv in X. rewrite N2Z.id in X. replace ((0 <=? Z.of_N i) && (Z.of_N i <? 64)) with true in X by lia. exact X. }
  assert (Nz : word t 0 <> 0%N) by (intros X; rewrite mem_word in Mnb; replace (nb / 64) with 0 in Mnb by (symmetry; apply Z.div_small; unfold nb; lia); rewrite X, bitv_0 in Mnb; discriminate).
  destruct (next_bits (word t 0) (word_lt t 0 Wt) Nz) as (nbs & -> & Lnbs & Bn & _).
  assert (Enb : Z.of_N nbs = nb).
  { assert (T : N.testbit (word t 0) nbs = true) by (apply in_wbits; rewrite Bn; now left).
    assert (M1 : mem t (Z.of_N nbs) = true) by (replace (Z.of_N nbs) with (64 * 0 + Z.of_N nbs) by lia; rewrite mem_pos by lia; unfold bitv; rewrite N2Z.id, T; lia).
    assert (nb <= Z.of_N nbs) by (destruct (Z.lt_ge_cases (Z.of_N nbs) nb) as [X|X]; auto; rewrite (Lo _ X) in M1; discriminate).
    assert (I : In (Z.to_N nb) (wbits (word t 0))).
    { apply in_wbits. replace nb with (64 * 0 + nb) in Mnb by lia. rewrite mem_pos in Mnb by (unfold nb; lia). unfold bitv in Mnb. apply andb_prop in Mnb as [_ Mnb]. exact Mnb. }
    pose proof (wbits_sorted (word t 0)) as So. rewrite Bn in So, I. apply StronglySorted_inv in So as [_ F]. destruct I as [->|I]; [unfold nb in *; lia|]. rewrite Forall_forall in F. specialize (F _ I). unfold nb in *. lia. }
  rewrite Enb. rewrite land63, shr6. set (dec := ofs - lv) in *. pose proof (mod64 dec) as Md. pose proof (divmod dec) as Dd.
  replace (64 - dec mod 64 - (64 - nb)) with (nb - dec mod 64) by lia.
  assert (Fin : forall r, (forall q, mem r q = (0 <=? q) && (q <? 64 * Z.of_nat (length s)) && mem t (q - dec + nb)) -> forall q, mem r q = mem s (ofs - q)).
  { intros r Hr q. rewrite Hr, Mt. replace (64 * (lw + 1) - 1 - (q - dec + nb)) with (ofs - q) by (unfold nb, dec, lv; lia).
    destruct (mem s (ofs - q)) eqn:X; [|now rewrite !andb_false_r]. pose proof (R _ X). pose proof (mem_lt _ _ X). pose proof (Max _ X). rewrite andb_true_r. unfold nb, dec, lv in *. lia. }
  assert (Out : forall z, 64 * (lw + 1) <= z -> mem t z = false) by (intros z Hz; rewrite mem_word, At; [apply bitv_0|]; apply Z.lt_le_trans with (lw + 1); [lia|apply Z.div_le_lower_bound; lia]).
  assert (Ntx : forall z, z < 0 -> mem t z = false) by (intros z Hz; unfold mem; destruct (Z.leb_spec 0 z); auto; lia).
  destruct (Z.ltb_spec dec nb) as [Dn|Dn].
  - destruct (down_ok t lw (nb - dec)) as (r & E & Lr & Wr2 & Mr); auto; try (unfold nb in *; lia).
    exists r. csplit; auto; [congruence|]. apply Fin. intros q. rewrite Mr. replace (q + (nb - dec)) with (q - dec + nb) by lia. destruct (Z.leb_spec 0 q); auto. cbn [andb].
    destruct (Z.ltb_spec q (64 * Z.of_nat (length s))); auto. cbn [andb]. rewrite Out by lia. reflexivity.
  - pose proof (Z.div_pos dec 64 ltac:(lia) ltac:(lia)) as Dp. assert (Dl : dec / 64 < Z.of_nat (length s)) by (apply Z.div_lt_upper_bound; lia).
    destruct (Z.ltb_spec 0 (nb - dec mod 64)) as [Bp|Bp]; [|destruct (Z.ltb_spec (nb - dec mod 64) 0) as [Bm|Bm]].
    + assert (64 <= dec) by lia. destruct C as [C|[C1 C2]]; [lia|]. specialize (C2 ltac:(lia)). rewrite Rlv in C1, C2. rewrite Dlv in C2. destruct C2 as [C2 C3]; [unfold nb in *; lia|].
      destruct (move_ok t lw (dec / 64) (nb - dec mod 64)) as (r & E & Lr & Wr2 & Mr); auto; try lia.
      * intros q Hq. apply Lo. lia.
      * exists r. csplit; auto; [congruence|]. apply Fin. intros q. rewrite Mr. replace (q - 64 * (dec / 64) + (nb - dec mod 64)) with (q - dec + nb) by lia. destruct (Z.leb_spec 0 q); auto. cbn [andb].
        destruct (Z.ltb_spec q (64 * Z.of_nat (length s))); auto. cbn [andb]. apply Out. unfold nb in *. lia.
    + destruct (up_ok t lw (dec / 64) (- (nb - dec mod 64))) as (r & E & Lr & Wr2 & Mr); auto; try (unfold nb in *; lia).
      exists r. csplit; auto; [congruence|]. apply Fin. intros q. rewrite Mr, Ln. replace (q - 64 * (dec / 64) - - (nb - dec mod 64)) with (q - dec + nb) by lia.
      destruct (Z.leb_spec 0 q); cbn [andb]; auto. rewrite Ntx by lia. now rewrite andb_false_r.
    + destruct (Z.eqb_spec (dec / 64) 0) as [D0|D0].
      * exists t. csplit; auto. apply Fin. intros q. replace (q - dec + nb) with q by lia. destruct (mem t q) eqn:X; [|now rewrite !andb_false_r]. apply mem_lt in X. lia.
      * unfold sub_words. destruct (words_up t (dec / 64) (w_zero (length t))) as (r & E & Lr & Wr2 & Mr); auto; try lia; [apply zero_wok|apply zero_len|intros; apply word_zero|].
        rewrite zero_len in E. exists r. csplit; auto; [congruence|]. apply Fin. intros q. rewrite Mr, Ln. replace (q - 64 * (dec / 64)) with (q - dec + nb) by lia.
        destruct (Z.leb_spec 0 q); cbn [andb]; auto. rewrite Ntx by lia. now rewrite andb_false_r.
Qed.
