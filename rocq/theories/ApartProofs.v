(** How wide the layers of a relaxed diagram get when only some pairs of states can be merged (C09, C84). *)
From Verif Require Import Base DDModel DDSpec DDFrame DDInv DDLayer DDMerge DDTopo DDPasses DDRestricted DDExpand DDRestricted2 DDRelaxed DDRelaxed2 DDRelaxedEnd.

(** nodes keep their states *)
Definition keepst {St} (d d' : dd St) : Prop := forall i, i < d_nn d -> i < d_nn d' /\ st d' i = st d i.
Lemma keepst_refl {St} (d : dd St) : keepst d d.
Proof. intros i; auto. Qed.
Lemma keepst_trans {St} (a b c : dd St) : keepst a b -> keepst b c -> keepst a c.
Proof. intros A B i Hi. destruct (A i Hi) as [A1 A2]. destruct (B i A1) as [B1 B2]. split; congruence. Qed.
Lemma keepst_node {St} (d : dd St) j n : n_state n = st d j -> keepst d (with_node d j n).
Proof. intros E i Hi. cbn [with_node d_nn d_nd]. split; auto. unfold fupd. destruct (Nat.eqb_spec i j); [now subst|auto]. Qed.

Section Keep.
Context {St : Type}.
Variable P : prob St.
Lemma redirect_keep recv : forall es (d d1 : dd St), redirect d es recv = Ok d1 -> keepst d d1.
Proof.
  induction es as [|e r IH]; intros d d1 E; cbn [redirect] in E; [injection E as <-; apply keepst_refl|]. cbn zeta in E.
  destruct (_ =? recv); [discriminate|]. apply IH in E. eapply keepst_trans; [|exact E].
  match goal with |- keepst _ (with_node ?d1 _ _) => apply (keepst_trans _ d1); [|apply keepst_node; reflexivity] end. intros i; auto.
Qed.
Lemma mp_donor_keep (d : dd St) m dn d1 b : mp_donor d m dn = Ok (d1, b) -> keepst d d1.
Proof.
  unfold mp_donor, transferArcs. destruct (dn =? m); [intros [= <- _]; apply keepst_refl|]. intros E. apply bind_ok in E as (d2 & E2 & E).
  apply bind_ok in E2 as (d3 & E3 & E2). apply redirect_keep in E3. injection E2 as <-. injection E as <- _.
  eapply keepst_trans; [exact E3|]. intros i. apply (keepst_node d3 dn); reflexivity.
Qed.
Lemma mergePair_keep (d : dd St) m n1 n2 d1 a : mergePair d m n1 n2 = Ok (d1, a) -> keepst d d1.
Proof.
  unfold mergePair. cbn zeta. intros E. apply bind_ok in E as ([d2 a1] & E2 & E). apply bind_ok in E as ([d3 a2] & E3 & E). injection E as <- _.
  apply mp_donor_keep in E2, E3. eapply keepst_trans; [|exact E3]. eapply keepst_trans; [|exact E2].
  set (d0 := if nbParents d m =? 0 then _ else d). apply (keepst_trans _ d0).
  - unfold d0. destruct (_ =? 0); [apply keepst_node; reflexivity|apply keepst_refl].
  - match goal with |- keepst _ (with_dexact ?x _) => change (keepst d0 x) end. apply keepst_node; reflexivity.
Qed.
Lemma merge_keep (d : dd St) a b d1 m : merge P d a b = Some (d1, m) ->
  exists vs, p_smf P (st d a) (st d b) = Some vs /\ keepst d d1 /\ (eqb_at P d vs -> st d1 m = vs).
Proof.
  unfold merge. destruct (p_smf P _ _) as [s|]; [|discriminate]. cbn zeta. match goal with |- (if ?b then _ else _) = _ -> _ => destruct b; [discriminate|] end.
  destruct (makeNode P d s true) as [d2 rv] eqn:E. intros X. injection X as <- <-. exists s.
  assert (K : keepst d d2 /\ (eqb_at P d s -> st d2 rv = s)).
  { clear - E. unfold makeNode in E. destruct (hasNode P d s) as [j|] eqn:Hj.
    - assert (Q : eqb_at P d s -> st d j = s) by (intros Q; now apply (hasNode_some P d s j Q)).
      destruct (_ && _); injection E as <- <-; (split; [|intros X; rewrite <- (Q X)]).
      + intros i Hi. split; [exact Hi|]. destruct (Nat.eq_dec i j) as [->|Ne]; cbn; [rewrite fupd_same; cbn; now rewrite fupd_same|now rewrite !fupd_diff by auto].
      + cbn. rewrite fupd_same. cbn. now rewrite fupd_same.
      + apply keepst_node. reflexivity.
      + cbn. now rewrite fupd_same.
    - injection E as <- <-. unfold alloc. cbn. split; [|intros _; now rewrite fupd_same].
      intros i Hi. cbn. rewrite fupd_diff by lia. split; [lia|auto]. }
  destruct K as [K1 K2]. csplit; auto.
  - destruct (isBetter P _ (n_bound (d_nd (if isBetter P _ _ then _ else _) rv))); [apply (keepst_trans _ d2 _ K1)|];
    destruct (isBetter P _ _); auto; unfold copyBL;
    try (apply (keepst_trans _ d2 _ K1)); try (apply keepst_node; reflexivity).
    eapply keepst_trans; apply keepst_node; reflexivity.
  - intros Q. rewrite <- (K2 Q). unfold copyBL. repeat match goal with |- context [if ?b then _ else _] => destruct b end; cbn; rewrite ?fupd_same; cbn; rewrite ?fupd_same; reflexivity.
Qed.
End Keep.

(** no state of the list can be merged with a later one *)
Definition unmergeable {St} (P : prob St) : list St -> Prop := ForallOrdPairs (fun a b => p_smf P a b = None).

(** Merging is good enough for at most c nodes to be left on a layer: states that cannot be merged pairwise are at most c; what cannot
    be merged with a and with b cannot be merged with the merger of a and b; and there is no dominance
    function, or the merger is always one of the two states (otherwise a dominated node may have taken the state of the merger, C09). *)
Record merges_to {St} (P : prob St) (I : St -> Prop) (rank : St -> nat) (c : nat) : Prop := {
  mt_few : forall k l, (forall s, In s l -> I s /\ s <> p_target P /\ rank s = k) -> unmergeable P l -> length l <= c;
  mt_closed : forall x a b m, (forall s, s = x \/ s = a \/ s = b -> I s /\ s <> p_target P /\ rank s = rank x) ->
     p_smf P x a = None -> p_smf P x b = None -> p_smf P a b = Some m -> p_smf P x m = None;
  mt_table : p_sdom P = None \/ forall a b m, I a -> I b -> rank a = rank b -> p_smf P a b = Some m -> m = a \/ m = b }.

Section Apart.
Context {St : Type}.
Variable P : prob St.
Variable I : St -> Prop.
Variables (rank : St -> nat) (N c : nat).
Hypothesis VM : valid_model P I rank N.
Hypothesis MT : merges_to P I rank c.
Variables (rs : St) (rb : Z) (rl : list Z).
Hypothesis Hrs : rs <> p_target P.
Hypothesis HI : I rs.
Hypothesis Hrange : in_range P rs rb.
Variable primal : Z.
Notation HC := (vm_closed _ _ _ _ VM). Notation Hlay := (vm_layered _ _ _ _ VM). Notation Hdom := (vm_dom _ _ _ _ VM). Notation Hdt := (vm_domt _ _ _ _ VM).
Notation Hml := (vm_mlayered _ _ _ _ VM). Notation Hvm := (vm_merge _ _ _ _ VM).
Notation linv := (linv P I 0 1 rs rb rl rank primal true).
Definition tidy' (d : dd St) : Prop := p_sdom P = None -> tidy 1 rs rank d.

Lemma cur_state d K cur next i : linv d K nobody nobody cur next -> In i cur -> I (st d i) /\ st d i <> p_target P /\ rank (st d i) = rank rs + K.
Proof.
  intros H Hi. pose proof (g_base (l_gen H)) as B. destruct (l_cur H i Hi) as (N1 & L1 & T1 & Y1 & C1). csplit.
  - now apply (b_I B).
  - now rewrite (st_target B N1).
  - rewrite (l_rank H i N1 L1 T1). lia.
Qed.
Lemma merge_none d K cur next n1 n2 : linv d K nobody nobody cur next -> In n1 cur -> In n2 cur -> tidy' d ->
  merge P d n1 n2 = None -> p_smf P (st d n1) (st d n2) = None.
Proof.
  intros H H1 H2 TD. pose proof (l_gen H) as G. pose proof (g_base G) as B.
  destruct (l_cur H n1 H1) as (N1 & L1 & T1 & Y1 & C1). destruct (l_cur H n2 H2) as (N2 & L2 & T2 & Y2 & C2).
  destruct (cur_state _ _ _ _ _ H H1) as (I1 & S1 & R1). destruct (cur_state _ _ _ _ _ H H2) as (I2 & S2 & R2).
  unfold merge. destruct (p_smf P (st d n1) (st d n2)) as [vs|] eqn:SM; [|auto].
  destruct (Hml _ _ _ I1 I2 S1 S2 ltac:(congruence) SM) as (Iv & Vt & Rv).
  destruct (hasNode P d vs) as [m|] eqn:HN.
  - destruct (hasNode_some P d vs m (eqb_base HC B Iv) HN) as [Hm Es].
    assert (Mt : m <> 1) by (intros ->; apply Vt; rewrite <- Es; apply (st_target B); auto).
    assert (lay d m = K).
    { destruct (mt_table _ _ _ _ MT) as [SD|Two].
      - pose proof (TD SD m Hm Mt) as Q. rewrite Es in Q. lia.
      - destruct (Two _ _ _ I1 I2 ltac:(congruence) SM) as [E|E]; rewrite E in Es; apply (b_uniq B) in Es; auto; congruence. }
    destruct (lay d m <? Nat.max (lay d n1) (lay d n2)) eqn:LT; [apply Nat.ltb_lt in LT; lia|].
    destruct (makeNode P d vs true). discriminate.
  - destruct (makeNode P d vs true). discriminate.
Qed.

Definition apart (d : dd St) (x y : nat) : Prop := p_smf P (st d x) (st d y) = None.
Lemma FOP_snoc {A} (R : A -> A -> Prop) l a : ForallOrdPairs R l -> (forall x, In x l -> R x a) -> ForallOrdPairs R (l ++ [a]).
Proof.
  induction l as [|b l IH]; intros F H; cbn; [repeat constructor|]. inversion F; subst. constructor; [|apply IH; auto; intros; apply H; now right].
  apply Forall_app. split; auto. constructor; auto. apply H. now left.
Qed.
Lemma FOP_map {A B} (f : A -> B) (R : B -> B -> Prop) l : ForallOrdPairs (fun a b => R (f a) (f b)) l -> ForallOrdPairs R (map f l).
Proof. induction 1 as [|a l F _ IH]; cbn; constructor; auto. apply Forall_map. exact F. Qed.
Lemma FOP_impl {A} (R S : A -> A -> Prop) l : (forall a b, In a l -> In b l -> R a b -> S a b) -> ForallOrdPairs R l -> ForallOrdPairs S l.
Proof.
  intros H F. induction F as [|a l F1 F2 IH]; constructor.
  - rewrite Forall_forall in *. intros x Hx. apply H; cbn; auto.
  - apply IH. intros; apply H; cbn; auto.
Qed.
Lemma mergeLayer_apart : forall fuel d K w layer skip d' lk, linv d K nobody nobody (skip ++ layer) [] -> 0 < K ->
  fresh 0 1 d K (skip ++ layer) -> length layer <= fuel -> tidy' d ->
  ForallOrdPairs (apart d) skip -> (forall x y, In x skip -> In y layer -> apart d x y) ->
  mergeLayer P fuel d w layer skip = Ok (d', lk) -> length lk <= Nat.max w c.
Proof.
  assert (END : forall d K skip, linv d K nobody nobody skip [] -> ForallOrdPairs (apart d) skip -> length skip <= c).
  { intros d K skip H F. rewrite <- (map_length (fun i => st d i)). apply (mt_few _ _ _ _ MT (rank rs + K)).
    - intros s Hs. apply in_map_iff in Hs as (i & <- & Hi). apply (cur_state _ _ _ _ _ H Hi).
    - unfold unmergeable. apply (FOP_map (fun i => st d i)). exact F. }
  induction fuel as [|fuel IH]; intros d K w layer skip d' lk H K0 Fr F TD AP AL E.
  - destruct layer; [|cbn in F; lia]. cbn [mergeLayer] in E. injection E as <- <-. rewrite app_nil_r in *. pose proof (END _ _ _ H AP). lia.
  - destruct layer as [|n1 rest]; cbn [mergeLayer] in E.
    { injection E as <- <-. rewrite app_nil_r in *. pose proof (END _ _ _ H AP). lia. }
    destruct (length skip + length (n1 :: rest) <=? w) eqn:LW.
    { injection E as <- <-. apply Nat.leb_le in LW. rewrite app_length. lia. }
    apply bind_ok in E as ([[[d1 l1] s1] dn] & E1 & E). unfold mergeOne in E1.
    assert (In1 : In n1 (skip ++ n1 :: rest)) by (apply in_app_iff; right; now left).
    assert (K1 : nbChildren d n1 = 0). { apply nbChildren_zero. now apply (l_cur H n1). }
    rewrite K1 in E1. cbn [Nat.eqb negb] in E1.
    destruct (find_partner P d n1 rest) as [[n2 [d2 m]]|] eqn:FP.
    + apply find_partner_some in FP as [Hn2 M].
      destruct (merge_step P I HC 0 1 rs rb rl rank Hml Hvm primal true d K skip n1 rest n2 d2 m H K0 Fr Hn2 M) as (d3 & act & E3 & NA & H3 & Fr3 & BL & NN & TD3).
      rewrite E3 in E1. cbn [bind] in E1.
      assert (In2 : In n2 (skip ++ n1 :: rest)) by (apply in_app_iff; right; now right).
      assert (Ed : mergeLayer P fuel d3 w (merged_layer act m n2 rest) skip = Ok (d', lk)).
      { destruct act; [congruence| |]; injection E1 as <- <- <- <-; exact E. }
      destruct (merge_keep P _ _ _ _ _ M) as (vs & SM & KP & SV). pose proof (mergePair_keep _ _ _ _ _ _ E3) as KP3.
      destruct (cur_state _ _ _ _ _ H In1) as (I1 & S1 & R1). destruct (cur_state _ _ _ _ _ H In2) as (I2 & S2 & R2).
      destruct (Hml _ _ _ I1 I2 S1 S2 ltac:(congruence) SM) as (Iv & Vt & Rv).
      specialize (SV (eqb_base HC (g_base (l_gen H)) Iv)).
      assert (Ks : forall i, In i (skip ++ n1 :: rest) -> st d3 i = st d i).
      { intros i Hi. destruct (l_cur H i Hi) as (Hn & _). destruct (keepst_trans _ _ _ KP KP3 i Hn). auto. }
      assert (Kx : forall x, In x skip -> st d3 x = st d x) by (intros x Hx; apply Ks; apply in_app_iff; now left).
      assert (Hm2 : m < d_nn d2). { clear - M SV. unfold merge in M. destruct (p_smf P _ _); [|discriminate]. cbn zeta in M. match type of M with (if ?b then _ else _) = _ => destruct b; [discriminate|] end.
        destruct (makeNode P d s true) as [e rv] eqn:E. injection M as <- <-. assert (rv < d_nn e).
        { clear - E. unfold makeNode in E. destruct (hasNode P d s) as [j|] eqn:Hj; [|injection E as <- <-; cbn; lia].
          unfold hasNode in Hj. apply find_some in Hj as [Hj _]. apply in_seq in Hj. destruct (_ && _); injection E as <- <-; cbn; lia. }
        unfold copyBL. repeat match goal with |- context [if ?b then _ else _] => destruct b end; cbn; auto. }
      assert (Sm : st d3 m = vs). { destruct (KP3 m Hm2) as [_ ->]. exact SV. }
      apply (IH d3 K w (merged_layer act m n2 rest) skip d' lk); auto.
      * pose proof (erase1_length rest n2 Hn2). cbn [length] in F. destruct act; cbn [merged_layer length]; lia.
      * intros SD. auto.
      * apply (FOP_impl (apart d)); auto. unfold apart. intros a b Ha Hb. now rewrite !Kx.
      * intros x y Hx Hy. unfold apart. rewrite (Kx x Hx).
        assert (Hy' : y = m \/ In y rest).
        { destruct act; [congruence| |]; cbn [merged_layer] in Hy; [destruct Hy as [->|Hy]; auto|]; right; revert Hy; clear; induction rest as [|a r IHr]; cbn; auto; destruct (a =? n2); cbn; tauto. }
        destruct Hy' as [->|Hy'].
        -- rewrite Sm. apply (mt_closed _ _ _ _ MT (st d x) (st d n1) (st d n2) vs); [|apply AL; auto; now left|apply AL; auto; now right|exact SM].
           assert (Ix : In x (skip ++ n1 :: rest)) by (apply in_app_iff; now left).
           destruct (cur_state _ _ _ _ _ H Ix) as (Ixx & Sx & Rx). intros s [->|[->| ->]]; csplit; auto; congruence.
        -- rewrite (Ks y) by (apply in_app_iff; right; now right). apply AL; auto. now right.
    + injection E1 as <- <- <- <-. assert (Eq : (skip ++ [n1]) ++ rest = skip ++ n1 :: rest) by (now rewrite <- app_assoc).
      apply (IH d K w rest (skip ++ [n1]) d' lk); auto; try (rewrite Eq; auto).
      * cbn in F; lia.
      * apply FOP_snoc; auto. intros x Hx. apply AL; auto. now left.
      * intros x y Hx Hy. apply in_app_iff in Hx as [Hx|[<-|[]]]; [apply AL; auto; now right|].
        assert (In y (skip ++ n1 :: rest)) by (apply in_app_iff; right; now right).
        apply (merge_none d K _ _ _ _ H); auto. eapply find_partner_none; eauto; [now apply (l_cur H)|].
        transitivity K; [|symmetry]; now apply (l_cur H).
Qed.

Variable srt : dd St -> list nat -> list nat.
Hypothesis Hsrt : forall d l, Permutation (srt d l) l.
Lemma lq_pull_apart d K w q d' lk q' : linv d K nobody nobody q [] -> (0 < K -> fresh 0 1 d K q) -> (K = 0 -> q = [0]) -> tidy' d ->
  lq_pull P srt (mfuel_std d q) d w (q, []) = Ok (d', lk, q') -> length lk <= if K =? 0 then 1 else Nat.max w c.
Proof.
  intros H Fr R TD E. unfold lq_pull in E. apply bind_ok in E as ([d1 l1] & E1 & E). injection E as _ <- _.
  destruct (Nat.eqb_spec K 0) as [->|K0].
  - rewrite (R eq_refl) in *. assert (srt d [0] = [0]) as Es by (apply Permutation_length_1_inv; symmetry; apply Hsrt). rewrite Es in E1.
    rewrite (mergeLayer_single P I HC rs) in E1; [injection E1 as _ <-; cbn; lia|unfold mfuel_std; lia|apply (l_cur H); now left].
  - apply (mergeLayer_apart _ d K w (srt d q) [] d1 l1) in E1; auto.
    + eapply linv_perm; [| |exact H]; auto; symmetry; apply Hsrt.
    + lia.
    + intros i Hi L Nx LK. cbn [app]. eapply Permutation_in; [symmetry; apply Hsrt|]. apply Fr; auto. lia.
    + rewrite (Permutation_length (Hsrt d q)). unfold mfuel_std. lia.
    + constructor.
    + intros x y [].
Qed.
Lemma rx_loop_apart : forall fuel d K w q d', linv d K nobody nobody q [] -> fresh 0 1 d K q -> (K = 0 -> q = [0]) -> tidy' d ->
  rx_loop P srt fuel mfuel_std d primal w (q, []) = Ok d' ->
  forall W, 1 <= W -> Nat.max w c <= W ->
  (forall k ns, k < K -> NoDup ns -> (forall i, In i ns -> i < d_nn d /\ live 0 d i /\ i <> 1 /\ lay d i = k) -> length ns <= W) ->
  forall k ns, NoDup ns -> (forall i, In i ns -> i < d_nn d' /\ live 0 d' i /\ i <> 1 /\ lay d' i = k) -> length ns <= W.
Proof.
  induction fuel as [|fuel IH]; intros d K w q d' H Fr R TD E W W0 Hw WL k ns ND HN; cbn [rx_loop fst snd] in E; rewrite app_nil_r in E;
    (destruct q as [|n q]; [injection E as <-|]).
  2: discriminate.
  1,2: destruct (Nat.lt_ge_cases k K) as [|GK]; [now apply (WL k)|];
    destruct ns as [|i ns]; [cbn; lia|]; destruct (HN i (or_introl eq_refl)) as (A1 & A2 & A3 & A4);
    pose proof (l_le H i A1 A3) as LE; destruct (Nat.eq_dec k K) as [->|]; [destruct (Fr i A1 A2 A3 A4)|destruct (l_top H i A1 A2 A3 ltac:(lia))].
  destruct (lq_pull_linv P I HC 0 1 rs rb rl rank Hml Hvm primal srt Hsrt d K w (n :: q) H (fun _ => Fr) R) as (d1 & lk & E1 & H1 & Fr1 & BL & TD1 & _).
  rewrite E1 in E. cbn [bind] in E.
  assert (L1 := lq_pull_apart _ _ _ _ _ _ _ H (fun _ => Fr) R TD E1).
  destruct (rx_layer_linv P I HC 0 1 rs rb rl Hrs Hrange rank Hlay Hdom Hdt primal lk d1 K [] H1) as (d2 & next & E2 & H2 & LO & TD2). rewrite E2 in E. cbn [bind] in E.
  pose proof (linv_shift P I 0 1 rs rb rl rank primal true d2 K next H2) as H3.
  assert (Fr3 : fresh 0 1 d2 (S K) next). { intros i Hi Li Ni LK. apply (l_top H2); auto. }
  apply (IH d2 (S K) w next d' H3 Fr3) with (k := k); auto.
  - lia.
  - intros SD. auto.
  - clear k ns ND HN. intros k ns Hk ND HN.
    assert (HN1 : forall i, In i ns -> i < d_nn d1 /\ live 0 d1 i /\ i <> 1 /\ lay d1 i = k).
    { intros i Hi. destruct (HN i Hi) as (A1 & A2 & A3 & A4). destruct (LO i A1 A2 A3 ltac:(lia)) as (Q1 & Q2 & Q3 & _). csplit; auto. congruence. }
    destruct (Nat.eq_dec k K) as [->|].
    + transitivity (length lk); [|destruct (K =? 0); lia]. apply NoDup_incl_length; auto.
      intros i Hi. destruct (HN1 i Hi) as (A1 & A2 & A3 & A4). apply Fr1; auto.
    + apply (WL k); auto; try lia. intros i Hi. destruct (HN1 i Hi) as (A1 & A2 & A3 & A4).
      destruct (BL i A1 A2 A3 ltac:(lia)) as (Q1 & Q2 & Q3 & _). csplit; auto. congruence.
Qed.
Lemma prep_tidy d : started d rs rb rl -> tidy' (prep P d).
Proof.
  intros S _ i Hi Ni. pose proof (prep_ok P I d rs rb rl HC HI Hrs S) as PP. rewrite (pp_nn _ _ _ _ _ PP) in Hi. assert (i = 0) as -> by lia.
  rewrite (pp_st _ _ _ _ _ PP), (pp_lay _ _ _ _ _ PP). lia.
Qed.
(** C09 for partial merge functions *)
Theorem relaxed_width_few fuel d w d' : started d rs rb rl -> N + 1 < fuel + rank rs -> rx_compute P srt fuel d primal w = Ok d' ->
  forall k, length (layer_nodes d' k) <= Nat.max 1 (Nat.max w c).
Proof.
  intros S HF E k. pose proof (prep_ok P I d rs rb rl HC HI Hrs S) as PP.
  pose proof (prepped_linv P I HC rs rb rl Hrs HI rank primal true (prep P d) PP) as H0.
  assert (Fr0 : fresh 0 1 (prep P d) 0 [0]) by (eapply linv_fresh; eauto).
  destruct (rx_loop_linv P I HC 0 1 rs rb rl Hrs Hrange rank Hlay Hdom Hdt Hml Hvm primal srt Hsrt fuel (prep P d) 0 w [0] N) as (d2 & K & E2 & H & W); auto.
  { apply VM. } { lia. }
  unfold rx_compute in E. rewrite (sd_root _ _ _ _ S) in E.
  change (with_node (target P (with_dexact d true)) 0 (nset_layer (d_nd (target P (with_dexact d true)) 0) 0)) with (prep P d) in E.
  cbn [lq_enQueue] in E. rewrite E2 in E. cbn [bind] in E. pose proof (g_base (l_gen H)) as B. rewrite (b_trg B) in E.
  pose proof (tighten_spec P d2 1 (b_trg B)) as T.
  destruct (bback_ok P (tighten P d2 1) _ (tightened_wfg P _ _ _ _ T (linv_wfg P I rs rb rl rank _ _ _ _ H))) as (d3 & E3 & BO & BB).
  rewrite E3 in E. injection E as <-.
  pose proof (rx_loop_apart fuel (prep P d) 0 w [0] d2 H0 Fr0 (fun _ => eq_refl) (prep_tidy d S) E2 (Nat.max 1 (Nat.max w c)) ltac:(lia) ltac:(lia)) as WW.
  apply (WW ltac:(intros; lia) k).
  - apply NoDup_filter. rewrite (bo_an _ _ BO), (tg_an _ _ _ _ T). apply (l_nda H).
  - intros i Hi. unfold layer_nodes in Hi. apply filter_In in Hi as [Hi F].
    rewrite (bo_an _ _ BO), (tg_an _ _ _ _ T), (l_an H) in Hi. rewrite (bo_trg _ _ BO), (tg_trg _ _ _ _ T), (b_trg B) in F.
    rewrite (bo_nd _ _ BO) in F. cbn [n_layer nset_bb] in F. rewrite (tg_lay _ _ _ _ T) in F.
    apply andb_true_iff in F as [F1 F2]. cbn [is_ptr] in F1. apply negb_true_iff, Nat.eqb_neq in F1. apply Nat.eqb_eq in F2.
    unfold nobody in Hi. csplit; auto; try tauto. destruct Hi as [_ [?|[?|[]]]]; auto; congruence.
Qed.
End Apart.
