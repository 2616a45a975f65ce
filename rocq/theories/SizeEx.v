(** Merge functions of the examples: how many nodes a relaxed layer is left with (C09, C84). *)
From Verif Require Import Base DDModel DDSpec DDFrame SearchModel SearchProofs KnapModel KnapProofs TspModel TspProofs ApartProofs SizeProofs SizeSearch.

(** an additional invariant *)
Lemma valid_and {St} (P : prob St) I (J : St -> Prop) rank N : valid_model P I rank N -> J (p_target P) ->
  (forall s l s', I s -> J s -> s <> p_target P -> In l (p_labels P s) -> p_stf P s l = Some s' -> J s') ->
  (forall a b m, I a -> I b -> J a -> J b -> rank a = rank b -> p_smf P a b = Some m -> J m) ->
  valid_model P (fun s => I s /\ J s) rank N.
Proof.
  intros [[V1 V1' V1'' V1'''] V2 V3 V4 V5 V6 V7 V8] JT JS JM. constructor; [constructor|..].
  - intros a b [A _] [B _]. exact (V1 a b A B).
  - intros s [A _]. exact (V1' s A).
  - split; assumption.
  - intros s l s' [A B] T Hl E. split; [exact (V1''' s l s' A T Hl E)|exact (JS s l s' A B T Hl E)].
  - intros s l s' [A _]. exact (V2 s l s' A).
  - intros s [A _]. exact (V3 s A).
  - intros a b m [A1 A2] [B1 B2] Ta Tb R E. destruct (V4 a b m A1 B1 Ta Tb R E) as (Q1 & Q2 & Q3). split; [split; [exact Q1|exact (JM a b m A1 B1 A2 B2 R E)]|split; assumption].
  - intros a b m [A1 A2] [B1 B2]. exact (V5 a b m A1 B1).
  - intros sd a b E [A1 A2] [B1 B2]. exact (V6 sd a b E A1 B1).
  - intros sd a s l E [A1 A2] Ta [B1 B2]. exact (V7 sd a s l E A1 Ta B1).
  - intros lo s ctx v E [A1 A2]. exact (V8 lo s ctx v E A1).
Qed.

(** every two states of a layer can be merged *)
Lemma merges_total {St} (P : prob St) (I : St -> Prop) (rank : St -> nat) : p_sdom P = None ->
  (forall a b, I a -> I b -> a <> p_target P -> b <> p_target P -> rank a = rank b -> p_smf P a b <> None) -> merges_to P I rank 1.
Proof.
  intros SD MT. constructor; auto.
  - intros k [|a [|b l]] H U; cbn; try lia. exfalso. inversion U as [|? ? F _]; subst. inversion F as [|? ? E _]; subst.
    destruct (H a) as (A1 & A2 & A3); [now left|]. destruct (H b) as (B1 & B2 & B3); [right; now left|]. apply (MT a b); auto. congruence.
  - intros x a b m H E. exfalso. destruct (H x) as (A1 & A2 & A3); auto. destruct (H a) as (B1 & B2 & B3); auto. apply (MT x a); auto.
Qed.

(** states are merged when they agree on a key *)
Lemma merges_by_key {St K} (P : prob St) (I : St -> Prop) (rank : St -> nat) (key : St -> K) (ks : list K) : p_sdom P = None ->
  (forall s, I s -> s <> p_target P -> In (key s) ks) ->
  (forall a b, I a -> I b -> a <> p_target P -> b <> p_target P -> rank a = rank b -> (p_smf P a b = None <-> key a <> key b)) ->
  (forall a b m, p_smf P a b = Some m -> key m = key a) ->
  (forall a b m, I a -> I b -> a <> p_target P -> b <> p_target P -> rank a = rank b -> p_smf P a b = Some m -> I m /\ m <> p_target P /\ rank m = rank a) ->
  merges_to P I rank (length ks).
Proof.
  intros SD IK HK MK ML. constructor; auto.
  - intros k l H U. rewrite <- (map_length key l). apply NoDup_incl_length.
    + clear IK. induction U as [|a l F U IH]; cbn; constructor.
      * rewrite in_map_iff. intros (b & E & Hb). rewrite Forall_forall in F. pose proof (F b Hb) as FB.
        destruct (H a) as (A1 & A2 & A3); [now left|]. destruct (H b) as (B1 & B2 & B3); [now right|].
        apply HK in FB; auto; congruence.
      * apply IH. intros s Hs. apply H. now right.
    + intros x Hx. apply in_map_iff in Hx as (s & <- & Hs). destruct (H s Hs) as (? & ? & _). auto.
  - intros x a b m H E1 E2 E. destruct (H x) as (X1 & X2 & X3); auto. destruct (H a) as (A1 & A2 & A3); auto. destruct (H b) as (B1 & B2 & B3); auto.
    destruct (ML a b m) as (M1 & M2 & M3); auto; [congruence|]. apply HK; auto; [congruence|]. rewrite (MK _ _ _ E). apply HK; auto.
Qed.

(** numbers that are more than g apart *)
Lemma apart_count g cap : (0 <= g)%Z -> forall l, (forall z, In z l -> (0 <= z <= cap)%Z) -> ForallOrdPairs (fun a b => (g < Z.abs (a - b))%Z) l ->
  length l <= Z.to_nat (cap / (g + 1)) + 1.
Proof.
  intros G l H U. set (f := fun z => Z.to_nat (z / (g + 1))). rewrite <- (map_length f l), <- (seq_length (Z.to_nat (cap / (g + 1)) + 1) 0).
  apply NoDup_incl_length.
  - induction U as [|a l F U IH]; cbn; constructor.
    + rewrite in_map_iff. intros (b & E & Hb). rewrite Forall_forall in F. pose proof (F b Hb) as FB. pose proof (H a (or_introl eq_refl)) as A.
      pose proof (H b (or_intror Hb)) as B. unfold f in E.
      assert (E' : (b / (g + 1) = a / (g + 1))%Z) by (apply Z2Nat.inj in E; auto; apply Z.div_pos; lia).
      pose proof (Z.div_mod a (g + 1) ltac:(lia)) as DA. pose proof (Z.div_mod b (g + 1) ltac:(lia)) as DB. rewrite E' in DB.
      pose proof (Z.mod_pos_bound a (g + 1) ltac:(lia)). pose proof (Z.mod_pos_bound b (g + 1) ltac:(lia)).
      set (q := ((g + 1) * (a / (g + 1)))%Z) in *. lia.
    + apply IH. intros z Hz. apply H. now right.
  - intros x Hx. apply in_map_iff in Hx as (z & <- & Hz). apply in_seq. pose proof (H z Hz). unfold f.
    assert ((z / (g + 1) <= cap / (g + 1))%Z) by (apply Z.div_le_mono; lia). lia.
Qed.

(** ** knapsack *)
Section Knap.
Variables (weight profit : list Z) (capa : Z).
Hypothesis H1 : 1 <= kn_I weight.
Hypothesis H2 : (0 <= capa)%Z.
Hypothesis H3 : Forall (fun w => (0 <= w)%Z) weight.
Definition kn_inv' (s : sks) : Prop := kn_inv weight s /\ (snd s <= capa)%Z.
Lemma wt_pos n : (0 <= wt weight n)%Z.
Proof. unfold wt. destruct (nth_in_or_default n weight 0%Z) as [Hn| ->]; [|lia]. rewrite Forall_forall in H3. auto. Qed.
Section Like.
Variables (P : prob sks) (g : Z).
Hypothesis HT : p_target P = (kn_I weight, 0%Z).
Hypothesis HG : (0 <= g)%Z.
Hypothesis HS : forall s l s', In l (p_labels P s) -> p_stf P s l = Some s' -> (snd s' <= snd s)%Z \/ s' = p_target P.
Hypothesis HM : forall a b, p_smf P a b = if (Z.abs (snd a - snd b) <=? g)%Z then Some (Nat.max (fst a) (fst b), Z.max (snd a) (snd b)) else None.
Hypothesis VM : valid_model P (kn_inv weight) fst (kn_I weight).
Lemma kn_valid' : valid_model P kn_inv' fst (kn_I weight).
Proof.
  apply (valid_and P (kn_inv weight) (fun s => snd s <= capa)%Z); auto.
  - rewrite HT. cbn. lia.
  - intros s l s' _ J _ Hl E. destruct (HS s l s' Hl E) as [| ->]; [lia|]. rewrite HT. cbn. lia.
  - intros a b m _ _ Ja Jb _ E. rewrite HM in E. destruct (_ <=? _)%Z; [|discriminate]. injection E as <-. cbn. lia.
Qed.
Lemma kn_merges : merges_to P kn_inv' fst (Z.to_nat (capa / (g + 1)) + 1).
Proof.
  constructor.
  - intros k l H U. assert (ML : length (map (fun s : sks => snd s) l) = length l) by apply map_length. rewrite <- ML. apply (apart_count g capa HG).
    + intros z Hz. apply in_map_iff in Hz as (s & <- & Hs). destruct (H s Hs) as ((Is & J) & Nt & R). split; auto. destruct Is as [[_ ?]|E]; auto. now rewrite <- HT in E.
    + apply (FOP_map (fun s : sks => snd s)). apply (FOP_impl (fun a b => p_smf P a b = None)); auto. intros a b _ _ E. rewrite HM in E.
      destruct (Z.leb_spec (Z.abs (snd a - snd b)) g); [discriminate|auto].
  - intros x a b m H E1 E2 E. destruct (H a) as (_ & _ & A3); auto. destruct (H b) as (_ & _ & B3); auto. rewrite HM in *.
    destruct (Z.leb_spec (Z.abs (snd x - snd a)) g); [discriminate|]. destruct (Z.leb_spec (Z.abs (snd x - snd b)) g); [discriminate|].
    destruct (Z.leb_spec (Z.abs (snd a - snd b)) g); [|discriminate]. injection E as <-. cbn [snd].
    destruct (Z.leb_spec (Z.abs (snd x - Z.max (snd a) (snd b))) g); [|auto]. destruct (Z.max_spec (snd a) (snd b)) as [[_ M]|[_ M]]; rewrite M in *; lia.
  - right. intros [a1 a2] [b1 b2] m _ _ R E. cbn [fst] in R. rewrite HM in E. cbn [fst snd] in E. destruct (_ <=? _)%Z; [|discriminate]. injection E as <-. subst b1.
    rewrite Nat.max_id. destruct (Z.max_spec a2 b2) as [[_ ->]|[_ ->]]; auto.
Qed.
End Like.
Lemma kn_labels_few s : length (kn_lgf weight s) <= 2 /\ length (kn2_lgf weight s) <= 2.
Proof. unfold kn_lgf, kn2_lgf. destruct (_ <=? _)%Z; cbn; lia. Qed.
Lemma kn_down s l s' : In l (kn_lgf weight s) -> kn_stf weight s l = Some s' -> (snd s' <= snd s)%Z \/ s' = (kn_I weight, 0%Z).
Proof.
  intros _. unfold kn_stf. pose proof (wt_pos (fst s)). destruct (_ <? _)%Z; [|intros [= <-]; auto]. destruct (l =? 0)%Z; intros [= <-]; cbn; left; lia.
Qed.
Lemma kn2_down s l s' : In l (kn2_lgf weight s) -> kn2_stf weight s l = Some s' -> (snd s' <= snd s)%Z \/ s' = (kn_I weight, 0%Z).
Proof.
  intros Hl. assert (0 <= l)%Z by (unfold kn2_lgf in Hl; destruct (_ <=? _)%Z; cbn in Hl; intuition lia). unfold kn2_stf. pose proof (wt_pos (fst s)).
  destruct (_ <? _)%Z; intros [= <-]; auto. left. cbn. nia.
Qed.
Lemma knapsack_few : valid_model (knapsack weight profit capa) kn_inv' fst (kn_I weight) /\ merges_to (knapsack weight profit capa) kn_inv' fst 50.
Proof.
  assert (G : (0 <= Z.quot (2 * capa) 100)%Z) by (apply Z.quot_pos; lia). split.
  - apply (kn_valid' _ (Z.quot (2 * capa) 100)); auto; [exact kn_down|]. now apply knapsack_valid.
  - pose proof (kn_merges (knapsack weight profit capa) (Z.quot (2 * capa) 100) eq_refl G kn_down (fun a b => eq_refl)) as [M1 M2 M3]. constructor; auto.
    intros k l H U. etransitivity; [eapply M1; eauto|]. rewrite Z.quot_div_nonneg in * by lia. set (g := (2 * capa / 100)%Z) in *.
    assert (2 * capa < 100 * (g + 1))%Z by (unfold g; pose proof (Z.div_mod (2 * capa) 100 ltac:(lia)); pose proof (Z.mod_pos_bound (2 * capa) 100 ltac:(lia)); lia).
    assert (capa / (g + 1) < 50)%Z by (apply Z.div_lt_upper_bound; lia). lia.
Qed.
Lemma knapsack2_few : valid_model (knapsack2 weight profit capa frac_exact) (kn_inv weight) fst (kn_I weight) ->
  valid_model (knapsack2 weight profit capa frac_exact) kn_inv' fst (kn_I weight) /\ merges_to (knapsack2 weight profit capa frac_exact) kn_inv' fst (Z.to_nat (capa / 2) + 1).
Proof.
  intros V. split.
  - apply (kn_valid' _ 1); auto. exact kn2_down.
  - apply (kn_merges (knapsack2 weight profit capa frac_exact) 1 eq_refl ltac:(lia) kn2_down (fun a b => eq_refl)).
Qed.
End Knap.

(** ** travelling salesman *)
Section Tsp.
Variables (nv : nat) (d : nat -> nat -> Z).
Hypothesis Hnv : 2 <= nv.
Lemma tsp_few : merges_to (tsp_prob nv d) (tsp_inv nv) t_h nv.
Proof.
  replace (merges_to (tsp_prob nv d) (tsp_inv nv) t_h nv) with (merges_to (tsp_prob nv d) (tsp_inv nv) t_h (length (seq 0 nv))) by (now rewrite seq_length).
  apply (merges_by_key _ _ _ t_e); auto.
  - intros s Is Nt. destruct (tsp_split nv d s Is Nt) as (_ & E & _). apply in_seq. lia.
  - intros a b _ _ _ _ R. cbn [tsp_prob p_smf]. unfold tsp_smf. rewrite R, Nat.eqb_refl, andb_true_r. destruct (Nat.eqb_spec (t_e a) (t_e b)); split; congruence.
  - intros a b m. cbn [tsp_prob p_smf]. unfold tsp_smf. destruct (_ && _); [|discriminate]. now intros [= <-].
  - apply (vm_mlayered _ _ _ _ (tsp_valid nv d Hnv)).
Qed.
End Tsp.

Section Apps.
Context {St : Type}.
Lemma search_small' (P : prob St) I rank N L c srt dfuel mxw lim fuel s e : setting P I rank N srt dfuel mxw -> merges_to P I rank c ->
  (forall s, I s -> s <> p_target P -> length (p_labels P s) <= L) -> 1 <= mxw -> search P srt dfuel lim fuel mxw None = Ok (s, e) ->
  d_nn (s_restr s) <= 2 + (1 + N * mxw) * L /\ d_nn (s_relaxed s) <= 2 + (1 + 2 * (N * Nat.max (s_w s) c)) * L /\
  length (s_pool s) <= 1 + length (s_hist s) * (4 + 2 * (N * Nat.max (s_w s) c) * L + L).
Proof.
  intros SE MT HL Hw E. destruct (search_small P I rank N L c srt dfuel mxw SE HL Hw lim None fuel s e ltac:(apply be_refl) E) as (_ & [R _] & X).
  destruct (X MT) as (X1 & _ & X3). unfold restr_size, relax_size in *. csplit; auto. etransitivity; [exact X3|]. apply Nat.add_le_mono_l, Nat.mul_le_mono_l. lia.
Qed.
End Apps.
Lemma knapsack_size weight profit capa srt dfuel mxw lim fuel s e : 1 <= kn_I weight -> (0 <= capa)%Z -> Forall (fun w => 0 <= w)%Z weight -> Forall (fun p => 0 <= p)%Z profit ->
  (forall d l, Permutation (srt d l) l) -> kn_I weight + 1 < dfuel -> 1 <= mxw -> (N.of_nat mxw < 4294967296)%N ->
  search (knapsack weight profit capa) srt dfuel lim fuel mxw None = Ok (s, e) -> let n := kn_I weight in
  d_nn (s_restr s) <= 2 + (1 + n * mxw) * 2 /\ d_nn (s_relaxed s) <= 2 + (1 + 2 * (n * Nat.max (s_w s) 50)) * 2 /\
  length (s_pool s) <= 1 + length (s_hist s) * (6 + 4 * (n * Nat.max (s_w s) 50)).
Proof.
  intros H1 H2 H3 H4 HS HD Hw MW E n. pose proof (knapsack_like weight profit capa H1) as K. destruct (kn_init_inv weight profit capa H1 H2 _ K) as [A B].
  destruct (knapsack_few weight profit capa H1 H2 H3) as [V M].
  assert (SE : setting (knapsack weight profit capa) (kn_inv' weight capa) fst n srt dfuel mxw).
  { constructor; auto. - split; auto. cbn. lia. - apply (kn_in_range weight profit capa H1 _ K); auto. lia. }
  assert (HL : forall s0, kn_inv' weight capa s0 -> s0 <> p_target (knapsack weight profit capa) -> length (p_labels (knapsack weight profit capa) s0) <= 2) by (intros s0 _ _; now apply kn_labels_few).
  destruct (search_small' _ _ _ _ 2 50 _ _ _ _ _ _ _ SE M HL Hw E) as (R1 & R2 & R3).
  csplit; auto. etransitivity; [exact R3|]. apply Nat.add_le_mono_l, Nat.mul_le_mono_l. lia.
Qed.
Lemma flen {A} (f : A -> bool) l : length (filter f l) <= length l.
Proof. induction l as [|a l IH]; cbn; auto. destruct (f a); cbn; lia. Qed.
Lemma tsp_size nv d srt dfuel mxw lim fuel s e : 2 <= nv -> fits nv d -> (forall d l, Permutation (srt d l) l) -> nv < dfuel -> 1 <= mxw -> (N.of_nat mxw < 4294967296)%N ->
  search (tsp_prob nv d) srt dfuel lim fuel mxw None = Ok (s, e) ->
  d_nn (s_restr s) <= 2 + (1 + (nv - 1) * mxw) * nv /\ d_nn (s_relaxed s) <= 2 + (1 + 2 * ((nv - 1) * Nat.max (s_w s) nv)) * nv /\
  length (s_pool s) <= 1 + length (s_hist s) * (4 + 2 * ((nv - 1) * Nat.max (s_w s) nv) * nv + nv).
Proof.
  intros H FT HS HD Hw MW E. eapply search_small'; eauto.
  - apply tsp_setting; auto.
  - now apply tsp_few.
  - intros s0 _ _. cbn [tsp_prob p_labels]. unfold tsp_lgf. destruct (_ <=? _)%Z; [cbn; lia|]. rewrite map_length. unfold blist. etransitivity; [apply flen|]. rewrite seq_length. auto.
Qed.
