(** The engine with an addition that is exact on values up to M does what the engine over the integers does (C81). *)
From Verif Require Import Base HeapModel HeapProofs DDModel DDSpec DDFrame DDInv DDLayer DDRestricted DDExpand DDMerge DDRelaxed DDRestricted2 DDTopo DDPasses DDRelaxed2 SearchModel RoundModel.

Lemma fold_left_in {A B} (f g : A -> B -> A) : forall l a, (forall a b, In b l -> f a b = g a b) -> fold_left f l a = fold_left g l a.
Proof. induction l as [|b l IH]; intros a H; cbn; auto. rewrite H by (now left). apply IH. intros; apply H; now right. Qed.

(** ** the pass by decreasing degree with two treatments that agree *)
Section Same.
Context {St : Type}.
Variables (proc procF : dd St -> nat -> dd St) (nexts : dd St -> nat -> list nat) (nx : nat -> list nat) (f : nat -> nat).
Variable an : list nat.
Variable deg : nat -> nat.
Variable J : list nat -> dd St -> Prop.
Lemma deg_loop_same nl lc : (forall i j, In j (nx i) -> f i < f j) -> (forall i, In i an -> nl i = Some (lc i)) ->
  (forall R d i, NoDup R -> incl R an -> In i R -> (forall k, In k R -> ~ In i (nx k)) -> J R d ->
     J (remove Nat.eq_dec i R) (proc d i) /\ nexts (proc d i) i = nx i /\ procF d i = proc d i) ->
  forall fuel h R d, length R <= fuel -> heap_ok dn_ord h -> NoDup R -> incl R an ->
  Permutation (heap_elems h) (keyed lc (indeg nx R) R) -> (forall i j, In i R -> In j (nx i) -> In j R) -> J R d ->
  deg_loop fuel procF nexts h nl d = deg_loop fuel proc nexts h nl d.
Proof.
  intros Hf Hnl HJ. induction fuel as [|fuel IH]; intros h R d F K ND Hi Pm Cl Jd; cbn [deg_loop]; [reflexivity|].
  rewrite (size_elems h). unfold elems. rewrite (Permutation_length Pm). unfold keyed at 1 2. rewrite !map_length.
  destruct R as [|a R0] eqn:ER; [reflexivity|]. rewrite <- ER in *. assert (NR : R <> []) by (rewrite ER; discriminate).
  assert ((length R =? 0) = false) as -> by (apply Nat.eqb_neq; rewrite ER; discriminate). clear a R0 ER.
  destruct (extractMax_some dn_ord h (proj1 K)) as (v & h1 & E).
  { unfold elems. intros EE. rewrite EE in Pm. apply Permutation_nil in Pm. unfold keyed in Pm. apply map_eq_nil in Pm. auto. }
  rewrite E. destruct (extractMax_ok dn_ord dn_swo _ _ _ K E) as (K1 & (l & P1) & Mn). unfold elems in P1, Mn.
  assert (Hv : In (l, v) (keyed lc (indeg nx R) R)) by (eapply Permutation_in; [exact Pm|]; eapply Permutation_in; [symmetry; exact P1|now left]).
  unfold keyed in Hv. apply in_map_iff in Hv as (i & Ev & HiR). injection Ev as <- <-. cbn [fst].
  assert (D0 : indeg nx R i = 0).
  { destruct (source_exists proc nexts nl nx lc f Hf R NR) as (j & Hj & Dj).
    assert (Hin : In (lc j, (j, N.of_nat (indeg nx R j))) (heap_elems h)).
    { eapply Permutation_in; [symmetry; exact Pm|]. unfold keyed. apply in_map_iff. eauto. }
    apply Mn in Hin. unfold dn_ord in Hin. cbn [snd] in Hin. lia. }
  assert (NoP := proj1 (indeg_zero nx R i) D0).
  destruct (HJ R d i ND Hi HiR NoP Jd) as (J1 & NX & SM). rewrite SM, NX.
  set (R' := remove Nat.eq_dec i R) in *. assert (PR : Permutation R (i :: R')) by (now apply remove_perm).
  assert (ND' : NoDup R') by (apply (Permutation_NoDup PR) in ND; now inversion ND).
  assert (P2 : Permutation (heap_elems h1) (keyed lc (indeg nx R) R')).
  { apply (Permutation_cons_inv (a := (lc i, (i, N.of_nat (indeg nx R i))))). rewrite <- P1, Pm.
    unfold keyed. rewrite (Permutation_map _ PR). reflexivity. }
  assert (InR : forall j, In j R' <-> In j R /\ j <> i).
  { intros j. unfold R'. split; [apply in_remove|]. intros [? ?]. now apply in_in_remove. }
  destruct (deg_decrease_ok proc nexts nl nx lc (nx i) h1 (indeg nx R) R' K1 ND' P2) as (h2 & E2 & K2 & P3).
  { intros j Hj. assert (In j R) by (eapply Cl; eauto). split; [apply InR; split; auto|auto].
    intros ->. apply (NoP i); auto. }
  { intros j. rewrite (indeg_perm proc nexts nl nx lc _ _ j PR). unfold indeg. cbn [flat_map]. rewrite cnt_app. lia. }
  rewrite E2. cbn [bind].
  apply (IH h2 R' (proc d i)); auto.
  + apply Permutation_length in PR. cbn in PR. lia.
  + intros j Hj. apply Hi. now apply InR.
  + eapply Permutation_trans; [exact P3|]. match goal with |- Permutation ?a ?b => enough (E0 : a = b) by (rewrite E0; apply Permutation_refl) end. unfold keyed. apply map_ext. intros j. do 3 f_equal.
    rewrite (indeg_perm proc nexts nl nx lc _ _ j PR). unfold indeg. cbn [flat_map]. rewrite cnt_app. lia.
  + intros a b Ha Hb. apply InR in Ha as [Ha _]. apply InR. split; [eapply Cl; eauto|]. intros ->. apply (NoP a); auto.
Qed.

Lemma deg_run_same d0 : NoDup an -> (forall i j, In i an -> In j (nx i) -> In j an) ->
  (forall i j, In j (nx i) -> f i < f j) -> (forall i, In i an -> indeg nx an i = deg i) ->
  (forall R d i, NoDup R -> incl R an -> In i R -> (forall k, In k R -> ~ In i (nx k)) -> J R d ->
     J (remove Nat.eq_dec i R) (proc d i) /\ nexts (proc d i) i = nx i /\ procF d i = proc d i) ->
  J an d0 ->
  (let '(h, nl) := deg_fill (heap_new dn_dflt 1000) (fun _ => None) deg an in
     deg_loop (length an) procF nexts (heap_buildHeap dn_ord h) nl d0) =
  (let '(h, nl) := deg_fill (heap_new dn_dflt 1000) (fun _ => None) deg an in
     deg_loop (length an) proc nexts (heap_buildHeap dn_ord h) nl d0).
Proof.
  intros ND Cl Hf Hd HJ J0.
  destruct (deg_fill (heap_new dn_dflt 1000) (fun _ => None) deg an) as [h nl] eqn:E.
  destruct (new_ok dn_ord dn_dflt 1000 ltac:(lia)) as [[W0 _] E0]. unfold elems in E0.
  destruct (deg_fill_ok deg an _ _ _ _ W0 ND E) as (W & _ & lc & Hnl & Pe). rewrite E0 in Pe. cbn [app] in Pe.
  destruct (buildHeap_ok dn_ord dn_swo h W) as (K & S).
  apply (deg_loop_same nl lc Hf Hnl HJ (length an) (heap_buildHeap dn_ord h) an d0); auto.
  - intros i; auto.
  - eapply Permutation_trans; [apply (elems_perm _ _ S)|]. unfold elems. rewrite Pe. unfold keyed.
    match goal with |- Permutation ?a ?b => enough (E1 : a = b) by (rewrite E1; apply Permutation_refl) end.
    apply map_ext_in. intros i Hi. now rewrite Hd.
Qed.
End Same.

(** ** compilation of one diagram *)
Section Compile.
Context {St : Type}.
Variable fadd : Z -> Z -> Z.
Variable M : Z.
Hypothesis Hadd : forall a b, (Z.abs a <= M -> Z.abs b <= M -> Z.abs (a + b) <= M -> fadd a b = a + b)%Z.
Variable P : prob St.
Variable I : St -> Prop.
Hypothesis HC : closed P I.
Notation dd := (dd St).
Variables (r t : nat) (rs : St) (rb : Z) (rl : list Z).
Hypothesis Hrs : rs <> p_target P.
Hypothesis Hrange : in_range P rs rb.
Variable rank : St -> nat.
Hypothesis Hlay : layered P I rank.
Hypothesis Hdom : valid_dom P I rank.
Hypothesis Hdt : dom_avoids_target P I rank.
Hypothesis Hml : merge_layered P I rank.
Hypothesis Hvm : valid_merge P I rank.
Variable primal : Z.
Variable N : nat.
Hypothesis HN : depth_le P I rank N.
Variables A C : Z.
Hypothesis HA : (2147483647 <= A)%Z.
Hypothesis HC0 : (0 <= C)%Z.
Hypothesis Hcost : forall s l, I s -> s <> p_target P -> In l (p_labels P s) -> (Z.abs (p_cost P s l) <= C)%Z.
Hypothesis Hlocal : forall loc s x, p_local P = Some loc -> I s -> (Z.abs (loc s x) <= A)%Z.
Hypothesis HM : (2 * A + C * (2 * Z.of_nat N + 4) <= M)%Z.

Notation base := (base P I r t rs).
Notation live := (live r).
Notation low := (low r t).
Notation below := (below r t).
Notation fresh := (fresh r t).
Notation linv := (linv P I r t rs rb rl rank primal).

(** bound on forward values: grows with the layer *)
Definition VB (d : dd) : Prop := forall i, i < d_nn d -> (Z.abs (bd d i) <= A + C * Z.of_nat (rank rs + lay d i))%Z.

Lemma sent_A : (Z.abs (sentinel P) <= A)%Z.
Proof. unfold sentinel. destruct (p_min P); lia. Qed.
Lemma CZ (a b : nat) : a <= b -> (C * Z.of_nat a <= C * Z.of_nat b)%Z.
Proof. intros. apply Z.mul_le_mono_nonneg_l; lia. Qed.
Lemma CM (a : nat) x : (x <= A + C * Z.of_nat a)%Z -> a <= N + 2 -> (x + A <= M)%Z /\ (x + A + C <= M)%Z /\ (x + A + C + C * Z.of_nat N <= M)%Z.
Proof.
  intros H L. pose proof (CZ a (N + 2) L). replace (Z.of_nat (N + 2)) with (Z.of_nat N + 2)%Z in H0 by lia.
  assert (0 <= C * Z.of_nat N)%Z by (apply Z.mul_nonneg_nonneg; lia). lia.
Qed.

Lemma VB_made d s x d1 c : base d -> made P d s x d1 c -> VB d -> VB d1.
Proof.
  intros B Md V i Hi. destruct (Nat.eq_dec i c) as [->|Nc].
  - assert (K : resets d c \/ ~ resets d c).
    { unfold resets. destruct (Nat.eq_dec c (d_nn d)); auto. destruct (par d c) eqn:E; [|right; intros [?|(? & _)]; congruence].
      destruct (is_ptr (d_root d) c) eqn:E1; [apply is_ptr_true in E1; right; intros [?|(_ & ? & _)]; congruence|].
      destruct (is_ptr (d_trg d) c) eqn:E2; [apply is_ptr_true in E2; right; intros [?|(_ & _ & ?)]; congruence|].
      apply is_ptr_false in E1, E2. left. right. auto. }
    destruct K as [K|K].
    + destruct (m_reset Md K) as [-> _]. pose proof sent_A. assert (0 <= C * Z.of_nat (rank rs + lay d1 c))%Z by (apply Z.mul_nonneg_nonneg; lia). lia.
    + destruct (m_keep Md K) as [-> _]. assert (c < d_nn d). { destruct (m_c Md) as [(?&?&?)|(?&?&?)]; auto. exfalso. apply K. now left. }
      rewrite (m_lay Md) by auto. now apply V.
  - assert (i < d_nn d) by (destruct (m_c Md) as [(?&?&?)|(?&?&?)]; lia). rewrite (m_bd Md), (m_lay Md) by auto. now apply V.
Qed.

Lemma VB_arced d p c l cost d' : arced P d p c l cost d' -> p < d_nn d -> (Z.abs cost <= C)%Z -> VB d -> VB d'.
Proof.
  intros Ar Hp Hc V i Hi. rewrite (a_nn Ar) in Hi. destruct (Nat.eq_dec i c) as [->|Nc].
  - rewrite (a_layc Ar). destruct (a_bdc Ar) as [(_ & -> & _)|(_ & -> & _)].
    + pose proof (V p Hp). pose proof (CZ (rank rs + lay d p + 1) (rank rs + Nat.max (lay d c) (lay d p + 1))).
      replace (Z.of_nat (rank rs + lay d p + 1)) with (Z.of_nat (rank rs + lay d p) + 1)%Z in H0 by lia. lia.
    + pose proof (V c Hi). pose proof (CZ (rank rs + lay d c) (rank rs + Nat.max (lay d c) (lay d p + 1))). lia.
  - rewrite (a_bd Ar), (a_lay Ar) by auto. now apply V.
Qed.

Lemma depth_node mode d K pe xa cur next i : linv mode d K pe xa cur next -> i < d_nn d -> live d i -> i <> t -> rank rs + lay d i <= N.
Proof.
  intros H Hi L Nt. pose proof (g_base (l_gen H)) as B. rewrite <- (l_rank H i) by auto. apply HN; [now apply (b_I B)|]. now rewrite (st_target B Hi).
Qed.

Lemma step_arcF_eq mode d K (pe : nat -> Prop) cur next q p l :
  linv mode d K pe nobody cur next -> p < d_nn d -> live d p -> p <> t -> In l (p_labels P (st d p)) -> VB d ->
  step_arcF fadd P d primal q p l = step_arc P d primal q p l /\
  (forall d' enq, step_arc P d primal q p l = Ok (d', enq) -> VB d').
Proof.
  intros H Hp Lp Np Hl V. pose proof (l_gen H) as G. pose proof (g_base G) as B.
  assert (Ntp : st d p <> p_target P) by (rewrite (st_target B Hp); auto).
  pose proof (Hcost _ _ (b_I B p Hp) Ntp Hl) as Bc.
  pose proof (depth_node _ _ _ _ _ _ _ _ H Hp Lp Np) as Dp. pose proof (V p Hp) as Bp.
  destruct (CM _ _ Bp ltac:(lia)) as (M1 & M2 & M3).
  assert (TF : transitionF fadd P d primal p l = transition P d primal p l).
  { unfold transitionF, transition. destruct (p_stf P (st d p) l) as [vs|] eqn:S; auto. destruct (p_local P) as [loc|] eqn:L; auto. cbn zeta.
    pose proof (Hlocal loc vs true eq_refl (cl_step P I HC _ _ _ (b_I B p Hp) Ntp Hl S)) as Bl.
    rewrite (Hadd (bd d p)) by lia. rewrite Hadd by lia. rewrite (Hadd (p_cost P (st d p) l)) by lia. reflexivity. }
  destruct (transition P d primal p l) as [d1 o] eqn:T.
  destruct (transition_spec P _ _ _ _ _ _ (eqb_next HC B Hp Ntp Hl) T) as [(-> & -> & Why)|(c0 & s' & -> & S & Pr & Md)].
  - unfold step_arcF. rewrite TF. rewrite (step_arc_none P _ _ _ _ _ _ T). split; auto. intros d' enq E. injection E as <- <-. auto.
  - assert (Npc : p <> c0).
    { intros <-. assert (st d p = s') by (destruct (m_c Md) as [(?&?&?)|(?&?&?)]; [auto|lia]). subst s'.
      pose proof (Hlay _ _ _ (b_I B p Hp) Ntp Hl S Ntp). lia. }
    pose proof (VB_made _ _ _ _ _ B Md V) as V1. assert (Hp1 : p < d_nn d1) by (destruct (m_c Md) as [(?&?&?)|(?&?&?)]; lia).
    assert (S1 : st d1 p = st d p) by (now apply (m_st Md)). assert (B1 : bd d1 p = bd d p) by (now apply (m_bd Md)).
    split.
    + unfold step_arcF, step_arc. rewrite TF, T. cbn zeta. rewrite Hadd; [reflexivity|rewrite ?S1, ?B1; lia ..].
    + intros d' enq E. rewrite (step_arc_some P _ _ _ _ _ _ _ T) in E. apply bind_ok in E as ([[d2 c] nw] & DS & E). apply bind_ok in E as (d5 & AT & E).
      assert (d' = d5) as -> by (destruct (_ && _); injection E; auto). apply arc_tail_arced in AT as [_ Ar].
      assert (Q : d_nn d2 = d_nn d1 /\ (forall i, bd d2 i = bd d1 i) /\ (forall i, lay d2 i = lay d1 i)).
      { unfold dom_sel in DS. destruct (p_sdom P); [|injection DS as <- <- <-; auto]. destruct (nbParents d1 c0 =? 0); [|injection DS as <- <- <-; auto].
        destruct checkDominance; [|injection DS as <- <- <-; auto]. apply bind_ok in DS as (an & _ & DS). injection DS as <- <- <-. auto. }
      destruct Q as (Q1 & Q2 & Q3). eapply VB_arced; [exact Ar|lia|now rewrite S1|].
      intros i Hi. rewrite Q2, Q3. apply V1. lia.
Qed.

(** *** restricted *)
Lemma rs_labelsF_eq : forall ls d K w cur q p,
  linv false d K (eq p) nobody cur q -> p < d_nn d -> live d p -> p <> t -> lay d p = K -> ~ In p cur ->
  (forall l, In l ls -> In l (p_labels P (st d p))) -> VB d ->
  rs_labelsF fadd P d primal w q p ls = rs_labels P d primal w q p ls /\
  (forall d' q' j, rs_labels P d primal w q p ls = Ok (d', q', j) -> VB d').
Proof.
  induction ls as [|l ls IH]; intros d K w cur q p H Hp Lp Np Kp Nc HL V; cbn [rs_labels rs_labelsF].
  - split; auto. intros d' q' j E. injection E as <- <- <-. auto.
  - destruct (step_arc_linv P I HC r t rs rb rl Hrs Hrange rank Hlay Hdom Hdt primal false d K (eq p) cur q p l H Hp Lp Np Kp Nc eq_refl (HL l (or_introl eq_refl)))
      as (d1 & enq & E & H1 & D1 & N1 & S1 & B1 & L1 & K1 & X1 & O1 & Y1 & _ & W1).
    destruct (step_arcF_eq _ _ _ _ _ _ q p l H Hp Lp Np (HL l (or_introl eq_refl)) V) as [EF V1]. rewrite EF, E. specialize (V1 _ _ E). cbn [bind].
    assert (Rec : forall q1, linv false d1 K (eq p) nobody cur q1 ->
      rs_labelsF fadd P d1 primal w q1 p ls = rs_labels P d1 primal w q1 p ls /\
      (forall d' q' j, rs_labels P d1 primal w q1 p ls = Ok (d', q', j) -> VB d')).
    { intros q1 HQ. apply (IH d1 K w cur q1 p HQ); auto; try lia. intros l' Hl'. rewrite S1. apply HL. now right. }
    destruct enq as [c|]; cbn [pushq] in H1; [|now apply Rec]. cbn zeta.
    assert (H1' : linv false d1 K (eq p) nobody cur (q ++ [c])) by (eapply linv_perm; [apply Permutation_refl|apply Permutation_cons_append|exact H1]).
    destruct (rs_full (rs_estimate d1 (q ++ [c])) w); [|now apply Rec]. split; auto. intros d' q' j E'. injection E' as <- <- <-. exact V1.
Qed.

Lemma rs_layerF_eq : forall lk d K w q,
  linv false d K nobody nobody lk q -> length q < w -> (N.of_nat w <= 4294967296)%N -> VB d ->
  rs_layerF fadd P d primal w q lk = rs_layer P d primal w q lk /\
  (forall d' q', rs_layer P d primal w q lk = Ok (d', q') -> VB d').
Proof.
  induction lk as [|p lk IH]; intros d K w q H LQ LW V; cbn [rs_layer rs_layerF].
  - split; auto. intros d' q' E. injection E as <- <-. auto.
  - destruct (l_cur H p (or_introl eq_refl)) as (Hp & Lp & Np & Kp & _).
    pose proof (l_ndc H) as ND. apply NoDup_cons_iff in ND as [ND _]. pose proof (linv_begin P I r t rs rb rl rank primal false _ _ _ _ _ H) as HB.
    destruct (rs_labels_linv P I HC r t rs rb rl Hrs Hrange rank Hlay Hdom Hdt primal (p_labels P (st d p)) d K w lk q p HB Hp Lp Np Kp ND (fun l h => h) LQ LW)
      as (d1 & q1 & j & E & W & J1 & J2).
    destruct (rs_labelsF_eq (p_labels P (st d p)) d K w lk q p HB Hp Lp Np Kp ND (fun l h => h) V) as [EF V1].
    rewrite EF, E. specialize (V1 _ _ _ E). cbn [bind]. destruct j.
    + split; auto. intros d' q' E'. injection E' as <- <-. auto.
    + destruct (J1 eq_refl) as (A1 & A2 & A3 & A4 & A5 & A6). apply (IH d1 K w q1); auto.
      eapply linv_end; eauto. intros _ l Hl. rewrite A3 in Hl. auto.
Qed.

Lemma rs_loopF_eq : forall fuel d K w q,
  linv false d K nobody nobody q [] -> 1 <= w -> (N.of_nat w <= 4294967296)%N -> VB d ->
  rs_loopF fadd P fuel d primal w q = rs_loop P fuel d primal w q /\
  (forall d', rs_loop P fuel d primal w q = Ok d' -> VB d').
Proof.
  induction fuel as [|fuel IH]; intros d K w q H Hw LW V; destruct q as [|n q]; cbn [rs_loop rs_loopF].
  - split; auto. intros d' E. injection E as <-. auto.
  - split; auto. discriminate.
  - split; auto. intros d' E. injection E as <-. auto.
  - destruct (rs_pull P d n q) as [lk q1] eqn:PL. pose proof PL as PL'. apply rs_pull_perm in PL' as (a & Eq & Pm & _).
    assert (q1 = [] /\ a = q) as [-> ->].
    { unfold rs_pull in PL. rewrite same_layer_all in PL.
      - injection PL as <- <-. rewrite app_nil_r in Eq. auto.
      - intros i Hi. destruct (l_cur H n (or_introl eq_refl)) as (_ & _ & _ & -> & _).
        apply (l_cur H i). now right. }
    assert (H1 : linv false d K nobody nobody lk []).
    { eapply linv_perm; [| |exact H]; auto. now symmetry. }
    destruct (rs_layer_linv P I HC r t rs rb rl Hrs Hrange rank Hlay Hdom Hdt primal lk d K w [] H1) as (d1 & q2 & E & H2 & LQ & LO); auto.
    destruct (rs_layerF_eq lk d K w [] H1) as [EF V1]; auto. rewrite EF, E. specialize (V1 _ _ E). cbn [bind].
    apply (IH d1 (S K) w q2); auto. now apply linv_shift.
Qed.

(** *** relaxed *)
Lemma redirect_frame : forall es (d : dd) m d', redirect d es m = Ok d' ->
  d_nn d' = d_nn d /\ (forall i, bd d' i = bd d i) /\ (forall i, lay d' i = lay d i).
Proof.
  induction es as [|e es IH]; intros d m d' E; cbn [redirect] in E; [injection E as <-; auto|].
  destruct (from d e =? m); [discriminate|]. apply IH in E as (E1 & E2 & E3). dsimp. csplit; auto; intros i; rewrite ?E2, ?E3; fcase; auto.
Qed.
Lemma mp_donor_frame (d : dd) m n d' x : mp_donor d m n = Ok (d', x) -> d_nn d' = d_nn d /\ (forall i, bd d' i = bd d i) /\ (forall i, lay d' i = lay d i).
Proof.
  unfold mp_donor. destruct (n =? m); [intros E; injection E as <- <-; auto|]. intros E. apply bind_ok in E as (d1 & E1 & E). injection E as <- <-.
  unfold transferArcs in E1. apply bind_ok in E1 as (d2 & E1 & E2). injection E2 as <-. apply redirect_frame in E1 as (F1 & F2 & F3).
  dsimp. csplit; auto; intros i; fcase; auto.
Qed.
Lemma mergePair_frame (d : dd) m n1 n2 d' x : mergePair d m n1 n2 = Ok (d', x) ->
  d_nn d' = d_nn (mp_pre d m n1) /\ (forall i, bd d' i = bd (mp_pre d m n1) i) /\ (forall i, lay d' i = lay (mp_pre d m n1) i).
Proof.
  unfold mergePair. intros E. apply bind_ok in E as ([d4 a1] & E1 & E). apply bind_ok in E as ([d5 a2] & E2 & E). injection E as <- <-.
  apply mp_donor_frame in E1 as (F1 & F2 & F3), E2 as (F4 & F5 & F6). unfold mp_pre. csplit; intros; try congruence; rewrite ?F5, ?F6; auto.
Qed.

Lemma VB_merge d K skip n1 rest n2 d1 m d2 act :
  linv true d K nobody nobody (skip ++ n1 :: rest) [] -> 0 < K -> fresh d K (skip ++ n1 :: rest) -> In n2 rest ->
  merge P d n1 n2 = Some (d1, m) -> mergePair d1 m n1 n2 = Ok (d2, act) -> VB d -> VB d2.
Proof.
  intros H K0 Fr H2 E EP V. set (cur := skip ++ n1 :: rest) in *.
  assert (I1 : In n1 cur) by (apply in_app_iff; right; now left).
  assert (I2 : In n2 cur) by (apply in_app_iff; right; now right).
  destruct (merge_pre P I HC r t rs rb rl rank Hml Hvm primal true d K cur [] n1 n2 d1 m H K0 Fr I1 I2 E)
    as (d3 & xa & Ed3 & H3 & Hm & Mr & Mt & Km & Ym & Rm & Xm & Dx & Am & Xa & NX & RB & NP & LE & Old & Nn & LvO & Mc & New).
  apply mergePair_frame in EP as (F1 & F2 & F3). rewrite Ed3 in F1, F2, F3.
  intros i Hi. rewrite F2, F3. rewrite F1 in Hi. destruct (Nat.eq_dec i m) as [->|Ni].
  2:{ destruct (New i Hi) as [Hi'|]; [|congruence]. destruct (Old i Hi') as [_ O]. rewrite O by auto. now apply V. }
  rewrite Ym.
  destruct (l_cur H n1 I1) as (N1 & L1 & T1 & Y1 & C1). destruct (l_cur H n2 I2) as (N2 & L2 & T2 & Y2 & C2).
  pose proof (V n1 N1) as V1. pose proof (V n2 N2) as V2. rewrite Y1 in V1. rewrite Y2 in V2.
  pose proof (g_base (l_gen H)) as B.
  assert (BD3 : bd d3 m = bd d1 m).
  { rewrite <- Ed3. unfold mp_pre. destruct (nbParents d1 m =? 0); dsimp; rewrite !fupd_same; dsimp; rewrite ?fupd_same; auto. }
  rewrite BD3. unfold merge in E. destruct (p_smf P (st d n1) (st d n2)) as [vs|] eqn:SM; [|discriminate].
  destruct (match hasNode P d vs with Some m0 => _ | None => false end) eqn:RF; [discriminate|].
  destruct (makeNode P d vs true) as [d0 m0] eqn:MK.
  pose proof (l_rank H n1 N1 L1 T1) as Q1. pose proof (l_rank H n2 N2 L2 T2) as Q2. rewrite Y1 in Q1. rewrite Y2 in Q2.
  assert (S1 : st d n1 <> p_target P) by (now rewrite (st_target B N1)).
  assert (S2 : st d n2 <> p_target P) by (now rewrite (st_target B N2)).
  destruct (Hml _ _ _ (b_I B n1 N1) (b_I B n2 N2) S1 S2 ltac:(congruence) SM) as (Iv & Vt & Rv).
  pose proof (makeNode_made P _ _ _ _ _ (eqb_base HC B Iv) MK) as Md. cbn zeta in E. injection E as E <-.
  assert (P1 : par d1 m0 = par d0 m0).
  { destruct (merge_bounds P I HC rs d0 n1 n2 m0) as (_ & _ & _ & _ & _ & _ & _ & _ & Q & _). rewrite E in Q. exact Q. }
  assert (B0 : (Z.abs (bd d0 m0) <= A + C * Z.of_nat (rank rs + K))%Z).
  { destruct (live_dec r d3 m0) as [L|L].
    - destruct (l_cur H m0 (Mc L)) as (Hm0 & _ & _ & Y0 & _). pose proof (V m0 Hm0) as V0. rewrite Y0 in V0.
      assert (~ resets d m0). { intros [?|(Q & _)]; [lia|]. destruct (proj1 (proj1 (Old m0 Hm0)) L); congruence. }
      destruct (m_keep Md H0) as [-> _]. auto.
    - apply NP in L. rewrite Nat.eqb_eq, nbParents_zero in L.
      assert (R : resets d m0).
      { destruct (m_c Md) as [(Hm0 & _)|(Q & _)]; [|now left]. right. rewrite (b_root B), (b_trg B). csplit; try congruence.
        rewrite <- (m_par Md) by auto. congruence. }
      destruct (m_reset Md R) as [-> _]. pose proof sent_A. assert (0 <= C * Z.of_nat (rank rs + K))%Z by (apply Z.mul_nonneg_nonneg; lia). lia. }
  assert (Bn : forall n, n < d_nn d -> (Z.abs (bd d n) <= A + C * Z.of_nat (rank rs + K))%Z -> (Z.abs (bd d0 n) <= A + C * Z.of_nat (rank rs + K))%Z).
  { intros n Hn Bn. destruct (Nat.eq_dec n m0) as [->|Nm]; auto. now rewrite (m_bd Md). }
  pose proof (Bn n1 N1 V1) as W1. pose proof (Bn n2 N2 V2) as W2.
  set (da := if isBetter P (bd d0 n1) (bd d0 m0) then copyBL d0 m0 n1 else d0) in *.
  assert (Ba : forall n, (Z.abs (bd d0 n) <= A + C * Z.of_nat (rank rs + K))%Z -> (Z.abs (bd da n) <= A + C * Z.of_nat (rank rs + K))%Z).
  { intros n Hn. unfold da. destruct (isBetter P (bd d0 n1) (bd d0 m0)); auto. unfold copyBL; dsimp. fcase; auto. }
  rewrite <- E. destruct (isBetter P (bd da n2) (bd da m0)); [|now apply Ba]. unfold copyBL; dsimp. rewrite fupd_same. dsimp. now apply Ba.
Qed.

Lemma mergeLayerF_eq : forall fuel d K w layer skip, linv true d K nobody nobody (skip ++ layer) [] -> 0 < K ->
  fresh d K (skip ++ layer) -> VB d ->
  mergeLayerF fadd P fuel d w layer skip = mergeLayer P fuel d w layer skip /\
  (forall d' lk, mergeLayer P fuel d w layer skip = Ok (d', lk) -> VB d').
Proof.
  induction fuel as [|fuel IH]; intros d K w layer skip H K0 Fr V; (destruct layer as [|n1 rest]; cbn [mergeLayer mergeLayerF];
    [split; auto; intros d' lk E; injection E as <- <-; auto|]);
    (destruct (length skip + length (n1 :: rest) <=? w); [split; auto; intros d' lk E; injection E as <- <-; auto|]).
  - split; auto. discriminate.
  - unfold mergeOne.
    assert (K1 : nbChildren d n1 = 0). { apply nbChildren_zero. apply (l_cur H n1). apply in_app_iff. right. now left. }
    rewrite K1. cbn [Nat.eqb negb].
    destruct (find_partner P d n1 rest) as [[n2 [d1 m]]|] eqn:FP.
    + apply find_partner_some in FP as [Hn2 Mg].
      destruct (merge_step P I HC r t rs rb rl rank Hml Hvm primal true d K skip n1 rest n2 d1 m H K0 Fr Hn2 Mg) as (d2 & act & E & NA & H2 & Fr2 & BL & NN & TD2).
      pose proof (VB_merge _ _ _ _ _ _ _ _ _ _ H K0 Fr Hn2 Mg E V) as V2. rewrite E. cbn [bind].
      destruct (IH d2 K w (merged_layer act m n2 rest) skip H2 K0 Fr2 V2) as [E1 E2].
      destruct act; [congruence| |]; cbn [bind merged_layer] in *; auto.
    + cbn [bind]. apply (IH d K w rest (skip ++ [n1])); auto; now rewrite <- app_assoc.
Qed.

Variable srt : dd -> list nat -> list nat.
Hypothesis Hsrt : forall d l, Permutation (srt d l) l.

Lemma lq_pullF_eq d K w q : linv true d K nobody nobody q [] -> (0 < K -> fresh d K q) -> (K = 0 -> q = [r]) -> VB d ->
  lq_pullF fadd P srt (mfuel_std d q) d w (q, []) = lq_pull P srt (mfuel_std d q) d w (q, []) /\
  (forall d' x, lq_pull P srt (mfuel_std d q) d w (q, []) = Ok (d', fst x, snd x) -> VB d').
Proof.
  intros H Fr R V. unfold lq_pull, lq_pullF.
  assert (X : mergeLayerF fadd P (mfuel_std d q) d w (srt d q) [] = mergeLayer P (mfuel_std d q) d w (srt d q) [] /\
    (forall d' lk, mergeLayer P (mfuel_std d q) d w (srt d q) [] = Ok (d', lk) -> VB d')).
  { destruct (Nat.eq_dec K 0) as [->|K0].
    - rewrite (R eq_refl) in *. assert (srt d [r] = [r]) as -> by (apply Permutation_length_1_inv; symmetry; apply Hsrt).
      assert (Kr : kids d r = []) by (apply (l_cur H); now left).
      rewrite (mergeLayer_single P I HC rs); [|unfold mfuel_std; lia|exact Kr]. split; [|intros d' lk E; injection E as <- <-; auto].
      replace (mfuel_std d [r]) with (S (S (2 + d_nn d))) by (unfold mfuel_std; cbn [length]; lia). cbn [mergeLayerF length].
      destruct (0 + 1 <=? w); auto. unfold mergeOne. assert (nbChildren d r = 0) as -> by (now apply nbChildren_zero). reflexivity.
    - assert (H1 : linv true d K nobody nobody ([] ++ srt d q) []) by (eapply linv_perm; [| |exact H]; auto; symmetry; apply Hsrt).
      apply (mergeLayerF_eq _ d K w (srt d q) [] H1); auto; try lia.
      intros i Hi L Ni LK. cbn [app]. eapply Permutation_in; [symmetry; apply Hsrt|]. apply Fr; auto. lia. }
  destruct X as [X1 X2]. rewrite X1. split; auto. intros d' x E. apply bind_ok in E as ([d1 lk] & E1 & E). injection E as <- _ _. eauto.
Qed.

Lemma rx_labelsF_eq : forall ls d K cur next p,
  linv true d K (eq p) nobody cur next -> p < d_nn d -> live d p -> p <> t -> lay d p = K -> ~ In p cur ->
  (forall l, In l ls -> In l (p_labels P (st d p))) -> VB d ->
  rx_labelsF fadd P d primal (next, []) p ls = rx_labels P d primal (next, []) p ls /\
  (forall d' q, rx_labels P d primal (next, []) p ls = Ok (d', q) -> VB d').
Proof.
  induction ls as [|l ls IH]; intros d K cur next p H Hp Lp Np Kp Nc HL V; cbn [rx_labels rx_labelsF].
  - split; auto. intros d' q E. injection E as <- <-. auto.
  - destruct (step_arc_linv P I HC r t rs rb rl Hrs Hrange rank Hlay Hdom Hdt primal true d K (eq p) cur next p l H Hp Lp Np Kp Nc eq_refl (HL l (or_introl eq_refl)))
      as (d1 & enq & E & H1 & D1 & N1 & S1 & B1 & L1 & K1 & X1 & O1 & Y1 & _ & W1).
    cbn [fst]. destruct (step_arcF_eq _ _ _ _ _ _ next p l H Hp Lp Np (HL l (or_introl eq_refl)) V) as [EF V1]. rewrite EF, E. specialize (V1 _ _ E). cbn [bind].
    assert (Q : match enq with Some c => lq_enQueue d1 (next, []) c | None => (next, []) end = (pushq next enq, [])).
    { destruct enq as [c|]; auto. cbn [lq_enQueue pushq]. destruct next as [|f next]; auto.
      assert (lay d1 f = S K) as ->. { apply (l_next H1). cbn [pushq]. right. now left. }
      rewrite (Y1 c eq_refl), Nat.eqb_refl. auto. }
    rewrite Q. apply (IH d1 K cur (pushq next enq) p H1); auto; try lia.
    intros l' Hl'. rewrite S1. apply HL. now right.
Qed.

Lemma rx_layerF_eq : forall lk d K next, linv true d K nobody nobody lk next -> VB d ->
  rx_layerF fadd P d primal (next, []) lk = rx_layer P d primal (next, []) lk /\
  (forall d' q, rx_layer P d primal (next, []) lk = Ok (d', q) -> VB d').
Proof.
  induction lk as [|p lk IH]; intros d K next H V; cbn [rx_layer rx_layerF].
  - split; auto. intros d' q E. injection E as <- <-. auto.
  - destruct (l_cur H p (or_introl eq_refl)) as (Hp & Lp & Np & Kp & _).
    pose proof (l_ndc H) as ND. apply NoDup_cons_iff in ND as [ND _].
    pose proof (linv_begin P I r t rs rb rl rank primal true d K p lk next H) as HB.
    destruct (rx_labels_linv P I HC r t rs rb rl Hrs Hrange rank Hlay Hdom Hdt primal (p_labels P (st d p)) d K lk next p HB Hp Lp Np Kp ND (fun l h => h))
      as (d1 & q1 & E & W & A1 & A2 & A3 & A4 & A5).
    destruct (rx_labelsF_eq (p_labels P (st d p)) d K lk next p HB Hp Lp Np Kp ND (fun l h => h) V) as [EF V1].
    rewrite EF, E. specialize (V1 _ _ E). cbn [bind]. apply (IH d1 K q1); auto.
    eapply linv_end; eauto. intros _ l Hl. rewrite A2 in Hl. auto.
Qed.

Lemma rx_loopF_eq : forall fuel d K w q,
  linv true d K nobody nobody q [] -> fresh d K q -> (K = 0 -> q = [r]) -> VB d ->
  rx_loopF fadd P srt fuel mfuel_std d primal w (q, []) = rx_loop P srt fuel mfuel_std d primal w (q, []) /\
  (forall d', rx_loop P srt fuel mfuel_std d primal w (q, []) = Ok d' -> VB d').
Proof.
  induction fuel as [|fuel IH]; intros d K w q H Fr R V; cbn [rx_loop rx_loopF fst snd]; rewrite app_nil_r.
  - destruct q; split; auto; [|discriminate]. intros d' E. injection E as <-. auto.
  - destruct q as [|n q]; [split; auto; intros d' E; injection E as <-; auto|].
    destruct (lq_pull_linv P I HC r t rs rb rl rank Hml Hvm primal srt Hsrt d K w (n :: q) H (fun _ => Fr) R) as (d1 & lk & E1 & H1 & Fr1 & BL & TD1 & W1).
    destruct (lq_pullF_eq d K w (n :: q) H (fun _ => Fr) R V) as [EF V1]. rewrite EF, E1. specialize (V1 d1 (lk, ([], []))). cbn [fst snd] in V1. specialize (V1 E1). cbn [bind].
    destruct (rx_layer_linv P I HC r t rs rb rl Hrs Hrange rank Hlay Hdom Hdt primal lk d1 K [] H1) as (d2 & next & E2 & H2 & LO & TD2).
    destruct (rx_layerF_eq lk d1 K [] H1 V1) as [EF2 V2]. rewrite EF2, E2. specialize (V2 _ _ E2). cbn [bind].
    apply (IH d2 (S K) w next); auto; [now apply linv_shift| |lia].
    intros i Hi L Ni LK. apply (l_top H2); auto.
Qed.

Lemma tightenF_eq mode d K i : linv mode d K nobody nobody [] [] -> i < d_nn d -> VB d -> tightenF fadd P d i = tighten P d i.
Proof.
  intros H Hi V. pose proof (l_gen H) as G. pose proof (g_base G) as B. unfold tightenF, tighten.
  rewrite (fold_left_in _ (fun '(cur, lab) e =>
      let ep := (bd d (from d e) + obj d e)%Z in
      if isBetter P ep cur then (ep, n_lab (d_nd d (from d e)) ++ [lbl d e]) else (cur, lab)) (par d i)); [reflexivity|].
  intros [cur lab] e He. cbn zeta. apply (b_par B) in He as [He _]; auto. destruct (b_ends B e He) as [Hf _].
  destruct (g_edge G e He) as (L & S & Hl & Eo). assert (Nt : from d e <> t) by (now rewrite (st_target B Hf) in S).
  pose proof (Hcost _ _ (b_I B _ Hf) S Hl) as Bc. rewrite <- Eo in Bc.
  pose proof (depth_node _ _ _ _ _ _ _ _ H Hf L Nt) as Dp. destruct (CM _ _ (V _ Hf) ltac:(lia)) as (M1 & M2 & M3).
  rewrite Hadd by lia. reflexivity.
Qed.
End Compile.

(** ** backward pass *)
Section BackPass.
Context {St : Type}.
Variable fadd : Z -> Z -> Z.
Variable M : Z.
Hypothesis Hadd : forall a b, (Z.abs a <= M -> Z.abs b <= M -> Z.abs (a + b) <= M -> fadd a b = a + b)%Z.
Variable P : prob St.
Variables A C : Z.
Hypothesis HA : (2147483647 <= A)%Z.
Hypothesis HC0 : (0 <= C)%Z.
Variable T : nat.
Hypothesis HM : (A + C * (Z.of_nat T + 1) <= M)%Z.

(** f grows along arcs and stays below T *)
Lemma bback_eq (d : dd St) f : wfg d f -> (forall i, In i (d_an d) -> f i <= T) -> (forall e, e < d_ne d -> (Z.abs (obj d e) <= C)%Z) ->
  computeBestBackwardF fadd P d = computeBestBackward P d /\
  (forall d', computeBestBackward P d = Ok d' -> forall i, In i (d_an d) -> (Z.abs (bb d' i) <= A + C * Z.of_nat T)%Z).
Proof.
  intros W HT HO. unfold computeBestBackward, computeBestBackwardF.
  destruct (bback_init_spec_aux P (d_an d) d d (bbonly_refl d)) as (I1 & I2 & _). fold (bback_init P d) in I1, I2.
  pose (nx := fun i => if in_dec Nat.eq_dec i (d_an d) then par_ids d i else []).
  assert (NX : forall i, In i (d_an d) -> nx i = par_ids d i) by (intros i Hi; unfold nx; destruct (in_dec Nat.eq_dec i (d_an d)); tauto).
  assert (NI : forall i j, In j (nx i) <-> In i (d_an d) /\ exists e, e < d_ne d /\ to d e = i /\ from d e = j).
  { intros i j. unfold nx. destruct (in_dec Nat.eq_dec i (d_an d)) as [Hi|Hi]; [|split; [intros []|tauto]].
    unfold par_ids. rewrite in_map_iff. split.
    - intros (e & Ee & He). apply (w_par W) in He as [He1 He2]; auto. split; auto. exists e; auto.
    - intros (_ & e & He & Ht & Hf). exists e. split; auto. apply (w_par W); auto. }
  assert (CT : forall a b : nat, a <= b -> (C * Z.of_nat a <= C * Z.of_nat b)%Z) by (intros; apply Z.mul_le_mono_nonneg_l; lia).
  assert (C0 : forall a : nat, (0 <= C * Z.of_nat a)%Z) by (intros; apply Z.mul_nonneg_nonneg; lia).
  pose (J := fun (R : list nat) (d1 : dd St) => bbonly d d1 /\ (forall i, In i (d_an d) -> (Z.abs (bb d1 i) <= A + C * Z.of_nat (T - f i))%Z)).
  assert (S1 : NoDup (d_an d)) by apply W.
  assert (S2 : forall i j, In i (d_an d) -> In j (nx i) -> In j (d_an d)).
  { intros i j Hi Hj. apply NI in Hj as (_ & e & He & _ & <-). apply (w_ends W e He). }
  assert (S4 : forall i j, In j (nx i) -> fold_right Nat.max 0 (map f (d_an d)) - f i < fold_right Nat.max 0 (map f (d_an d)) - f j).
  { intros i j Hj. apply NI in Hj as (Hi & e & He & <- & <-). pose proof (w_f W e He).
    assert (f (to d e) <= fold_right Nat.max 0 (map f (d_an d))); [|lia].
    revert Hi. clear. induction (d_an d) as [|a l IH]; cbn; [intros []|]. intros [->|Hi]; [lia|]. specialize (IH Hi). lia. }
  assert (S5 : forall i, In i (d_an d) -> indeg nx (d_an d) i = nbChildren d i).
  { intros i Hi. rewrite <- (deg_kids d f W i Hi). unfold indeg. f_equal.
    assert (G : forall l, incl l (d_an d) -> flat_map nx l = flat_map (par_ids d) l).
    { induction l as [|a l IH]; intros Hl; cbn; auto. rewrite NX, IH; auto; [|apply Hl; now left]. intros x Hx. apply Hl. now right. }
    apply G. intros x; auto. }
  assert (S6 : forall R d1 i, NoDup R -> incl R (d_an d) -> In i R -> (forall k, In k R -> ~ In i (nx k)) -> J R d1 ->
     J (remove Nat.eq_dec i R) (bback_proc P d1 i) /\ par_ids (bback_proc P d1 i) i = nx i /\ bback_procF fadd P d1 i = bback_proc P d1 i).
  { intros R d1 i ND HR Hi NoP (B1 & B2).
    assert (KD : forall j, kids d1 j = kids d j) by (intros j; rewrite (bo_nd _ _ B1); reflexivity).
    assert (EDG := bo_ed _ _ B1). assert (Ha : In i (d_an d)) by auto.
    assert (BE : forall e, In e (kids d i) -> (Z.abs (bb d1 (to d e)) <= A + C * Z.of_nat (T - f (to d e)))%Z /\ (Z.abs (obj d e) <= C)%Z /\ f i < f (to d e) /\ f (to d e) <= T).
    { intros e He. apply (w_kids W) in He as [He Ef]; auto. destruct (w_ends W e He) as [_ Ht]. pose proof (w_f W e He). rewrite Ef in H. auto. }
    set (cur0 := if nbChildren d1 i =? 0 then bb d1 i else initialBest P).
    assert (F0 : (Z.abs cur0 <= A + C * Z.of_nat (T - f i))%Z).
    { unfold cur0. destruct (nbChildren d1 i =? 0); auto. rewrite initialBest_sentinel. pose proof (C0 (T - f i)). unfold sentinel. destruct (p_min P); lia. }
    assert (FL : forall l cur, incl l (kids d i) -> (Z.abs cur <= A + C * Z.of_nat (T - f i))%Z ->
      (Z.abs (fold_left (fun cur e => let ep := (bb d1 (to d1 e) + obj d1 e)%Z in if isBetter P ep cur then ep else cur) l cur) <= A + C * Z.of_nat (T - f i))%Z).
    { induction l as [|e l IH]; intros cur Hl Hc; cbn [fold_left]; auto. apply IH; [intros x Hx; apply Hl; now right|]. cbn zeta. rewrite EDG.
      destruct (isBetter P _ cur); auto. destruct (BE e) as (Q1 & Q2 & Q3 & Q4); [apply Hl; now left|].
      pose proof (CT (S (T - f (to d e))) (T - f i) ltac:(lia)). replace (Z.of_nat (S (T - f (to d e)))) with (Z.of_nat (T - f (to d e)) + 1)%Z in H by lia. lia. }
    split; [split|split].
    - unfold bback_proc. now apply bbonly_set.
    - intros j Hj. unfold bback_proc. dsimp. fcase; auto. dsimp. apply FL; auto. rewrite KD. intros x; auto.
    - rewrite (NX i) by auto. unfold par_ids, bback_proc. dsimp. rewrite fupd_same. dsimp. rewrite EDG. rewrite (bo_nd _ _ B1 i). reflexivity.
    - unfold bback_procF, bback_proc. cbn zeta. do 2 f_equal. apply fold_left_in. intros cur e He. rewrite KD in He. cbn zeta. rewrite EDG.
      destruct (BE e He) as (Q1 & Q2 & Q3 & Q4). pose proof (CT (T - f (to d e)) T ltac:(lia)). rewrite Hadd by lia. reflexivity. }
  assert (S7 : J (d_an d) (bback_init P d)).
  { split; auto. intros i Hi. rewrite (I2 i Hi). pose proof (C0 (T - f i)). unfold bb0. destruct (is_ptr (d_trg d) i); [cbn; lia|].
    rewrite initialBest_sentinel. unfold sentinel. destruct (p_min P); lia. }
  split.
  - apply (deg_run_same (bback_proc P) (bback_procF fadd P) par_ids nx (fun i => fold_right Nat.max 0 (map f (d_an d)) - f i) (d_an d) (nbChildren d) J); auto.
  - intros d' E i Hi.
    destruct (deg_run (bback_proc P) par_ids nx (fun i => fold_right Nat.max 0 (map f (d_an d)) - f i) (d_an d) (nbChildren d) J (bback_init P d)) as (d2 & E2 & B2); auto.
    + intros j Hj. unfold nx. destruct (in_dec Nat.eq_dec j (d_an d)); tauto.
    + intros R d1 j H1 H2 H3 H4 H5. destruct (S6 R d1 j H1 H2 H3 H4 H5) as (Q1 & Q2 & _). auto.
    + rewrite E in E2. injection E2 as <-. destruct B2 as [_ B2]. pose proof (B2 i Hi). pose proof (CT (T - f i) T ltac:(lia)). lia.
Qed.
End BackPass.
