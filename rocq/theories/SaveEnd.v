(** What saveGraph and print write, for well-formed diagrams and for every diagram the strategies compile *)
From Verif Require Import Base HeapModel HeapProofs DDModel DDSpec DDFrame DDInv DDLayer DDMerge DDExpand DDRestricted DDRestricted2 DDRelaxed DDRelaxed2 DDRelaxedEnd DDExact DDTopo DDPasses SearchProofs SaveModel SaveProofs.

(** ** specification *)
Definition is_node (x : gline) : bool := match x with GNode _ _ _ => true | _ => false end.
Definition arc_of {St} (d : dd St) (e : nat) : gline := GArc (e_from (d_ed d e)) (e_to (d_ed d e)) (e_obj (d_ed d e)) (e_lbl (d_ed d e)).
(** a drawing of diagram d with sink t: every node once with its colour, only the sink as a box; every arc once; an arc comes after its source
    node and before its target node *)
Record drawing {St} (d : dd St) (t : nat) (out : list gline) : Prop := {
  dr_nodes : Permutation (filter is_node out) (map (fun i => GNode i (n_exact (d_nd d i)) (i =? t)) (d_an d));
  dr_arcs : Permutation (filter (fun x => negb (is_node x)) out) (map (arc_of d) (seq 0 (d_ne d)));
  dr_order : forall l1 l2 i j o l, out = l1 ++ GArc i j o l :: l2 -> (exists g b, In (GNode i g b) l1) /\ (exists g b, In (GNode j g b) l2) }.
(** a listing of the arcs of d: every arc once, the arcs into a node before those out of it *)
Definition listing {St} (d : dd St) (out : list gline) : Prop :=
  Permutation out (map (arc_of d) (seq 0 (d_ne d))) /\
  forall l1 l2 i j o l, out = l1 ++ GArc i j o l :: l2 -> forall e, e < d_ne d -> e_to (d_ed d e) = i -> In (arc_of d e) l1.

Lemma app_split {A} (a b l1 l2 : list A) x : a ++ b = l1 ++ x :: l2 ->
  (exists m, a = l1 ++ x :: m /\ l2 = m ++ b) \/ (exists m, l1 = a ++ m /\ b = m ++ x :: l2).
Proof.
  revert l1. induction a as [|y a IH]; intros l1 E; cbn in E; [right; exists l1; auto|].
  destruct l1 as [|z l1]; cbn in E; injection E as <- E.
  - left. exists a. auto.
  - destruct (IH _ E) as [(m & -> & ->)|(m & -> & ->)]; [left|right]; exists m; auto.
Qed.
Lemma map_split {A B} (g : A -> B) l m1 x m2 : map g l = m1 ++ x :: m2 -> exists l1 a l2, l = l1 ++ a :: l2 /\ m1 = map g l1 /\ x = g a /\ m2 = map g l2.
Proof.
  revert l. induction m1 as [|y m1 IH]; intros [|a l] E; cbn in E; try discriminate; injection E as E1 E.
  - exists [], a, l. cbn. auto.
  - destruct (IH _ E) as (l1 & b & l2 & -> & -> & -> & ->). exists (a :: l1), b, l2. cbn. subst. auto.
Qed.

Section Wfg.
Context {St : Type}.
Variable d : dd St.
Variable f : nat -> nat.
Hypothesis W : wfg d f.

Lemma topo_split : forall a k b, topo d (a ++ k :: b) -> (forall e, In e (kids d k) -> In (to d e) b) /\ (forall i e, In i (k :: b) -> In e (kids d i) -> In (to d e) b).
Proof.
  induction a as [|x a IH]; intros k b T; cbn [app topo] in T; [|destruct T; auto].
  destruct T as [T1 T2]. split; [exact T1|]. intros i e [<-|Hi] He; auto.
  clear T1. revert T2 Hi. induction b as [|y b IH]; cbn; [intros _ []|]. intros [T1 T2] [<-|Hi]; auto.
Qed.
Lemma topo_suf : forall a k b, topo d (a ++ k :: b) -> topo d b.
Proof. induction a as [|x a IH]; intros k b T; cbn in T; destruct T; eauto. Qed.

Lemma arcs_once ord : Permutation ord (d_an d) -> Permutation (flat_map (fun i => kids d i) ord) (seq 0 (d_ne d)).
Proof.
  intros Po. apply NoDup_Permutation; [|apply seq_NoDup|].
  - apply (NoDup_flat_map _ (fun e => from d e)).
    + eapply Permutation_NoDup; [symmetry; exact Po|]. apply (w_nda W).
    + intros i Hi. apply (w_ndk W). eapply Permutation_in; eauto.
    + intros i e Hi He. apply (w_kids W) in He; [tauto|]. eapply Permutation_in; eauto.
  - intros e. rewrite in_flat_map, in_seq. split.
    + intros (i & Hi & He). apply (w_kids W) in He; [lia|]. eapply Permutation_in; eauto.
    + intros He. exists (from d e). destruct (w_ends W e) as [A B]; [lia|]. split; [eapply Permutation_in; [symmetry; exact Po|auto]|].
      apply (w_kids W); auto. split; [lia|auto].
Qed.
Lemma filter_arcs l : filter is_node (map (arc_line d) l) = [] /\ filter (fun x => negb (is_node x)) (map (arc_line d) l) = map (arc_line d) l.
Proof. induction l as [|e l [A B]]; cbn; auto. rewrite A, B. auto. Qed.
Lemma filter_head l : forallb is_node l = true -> filter is_node l = l /\ filter (fun x => negb (is_node x)) l = [].
Proof. induction l as [|e l IH]; cbn; auto. intros H. apply andb_true_iff in H as [H1 H2]. rewrite H1. cbn. destruct (IH H2) as [-> ->]. auto. Qed.
Lemma into_before a k b : Permutation (a ++ k :: b) (d_an d) -> topo d (a ++ k :: b) -> forall e, e < d_ne d -> to d e = k -> In (from d e) a.
Proof.
  intros Po T e He Et. destruct (w_ends W e He) as [A B]. assert (ND : NoDup (a ++ k :: b)) by (eapply Permutation_NoDup; [symmetry; exact Po|apply (w_nda W)]).
  assert (Hf : In (from d e) (a ++ k :: b)) by (eapply Permutation_in; [symmetry; exact Po|auto]).
  apply in_app_iff in Hf as [|Hf]; auto. exfalso.
  assert (In (to d e) b). { apply (proj2 (topo_split _ _ _ T) (from d e) e Hf). apply (w_kids W); auto. }
  apply NoDup_remove_2 in ND. apply ND. rewrite in_app_iff. right. now rewrite <- Et.
Qed.
Variable head : nat -> list gline.
Hypothesis HN : forall i, forallb is_node (head i) = true.

Lemma block_split : forall ord l1 l2 i j o l, flat_map (block d head) ord = l1 ++ GArc i j o l :: l2 ->
  exists a k b k1 e k2, ord = a ++ k :: b /\ kids d k = k1 ++ e :: k2 /\ GArc i j o l = arc_line d e /\
    l1 = flat_map (block d head) a ++ head k ++ map (arc_line d) k1 /\ l2 = map (arc_line d) k2 ++ flat_map (block d head) b.
Proof.
  induction ord as [|k ord IH]; intros l1 l2 i j o l E; cbn [flat_map] in E; [destruct l1; discriminate|].
  apply app_split in E as [(m & E & ->)|(m & -> & E)].
  - unfold block in E. apply app_split in E as [(m' & E & _)|(m' & -> & E)].
    + exfalso. specialize (HN k). rewrite E, forallb_app in HN. apply andb_true_iff in HN as [_ HN]. discriminate.
    + apply map_split in E as (k1 & e & k2 & E1 & -> & E2 & ->). exists [], k, ord, k1, e, k2. cbn. auto.
  - destruct (IH _ _ _ _ _ _ E) as (a & k' & b & k1 & e & k2 & -> & E1 & E2 & -> & ->).
    exists (k :: a), k', b, k1, e, k2. cbn. rewrite app_assoc. auto.
Qed.
Lemma blocks_filter ord : filter is_node (flat_map (block d head) ord) = flat_map head ord /\
  filter (fun x => negb (is_node x)) (flat_map (block d head) ord) = map (arc_line d) (flat_map (fun i => kids d i) ord).
Proof.
  induction ord as [|i ord [A B]]; cbn [flat_map]; auto. unfold block at 1 3. rewrite !filter_app, A, B, map_app.
  destruct (filter_arcs (kids d i)) as [-> ->]. destruct (filter_head _ (HN i)) as [-> ->]. rewrite app_nil_r. auto.
Qed.
End Wfg.

(** what saveGraph needs *)
Record drawable {St} (P : prob St) (d : dd St) (t : nat) : Prop := {
  da_wf : exists f, wfg d f;
  da_trg : d_trg d = Some t;
  da_box : forall i, In i (d_an d) -> p_eqb P (st d i) (st d t) = (i =? t) }.

Theorem save_ok {St} (P : prob St) d t : drawable P d t -> exists out, saveGraph P d = Ok out /\ drawing d t out.
Proof.
  intros [(f & W) T B]. unfold saveGraph.
  pose (head := fun i => [GNode i (n_exact (d_nd d i)) (p_eqb P (st d i) (st d t))]).
  assert (HN : forall i, forallb is_node (head i) = true) by reflexivity.
  destruct (gr_run d f W head (gr_node P d)) as (ord & E & Po & To).
  { intros i _. unfold gr_node. rewrite T. reflexivity. }
  exists (flat_map (block d head) ord). split; [exact E|]. destruct (blocks_filter d head HN ord) as [F1 F2]. constructor.
  - rewrite F1. rewrite <- (Permutation_map _ Po).
    assert (Hi : incl ord (d_an d)) by (intros i Hi; eapply Permutation_in; eauto). clear - B Hi. induction ord as [|i ord IH]; cbn; auto.
    rewrite B by (apply Hi; now left). constructor. apply IH. intros j Hj. apply Hi. now right.
  - rewrite F2. apply Permutation_map. now apply (arcs_once d f W).
  - intros l1 l2 i j o l El. apply (block_split d head HN) in El as (a & k & b & k1 & e & k2 & Eo & Ek & Ee & -> & ->). injection Ee as -> -> _ _. subst ord.
    assert (Hk : In k (d_an d)) by (eapply Permutation_in; [exact Po|]; apply in_app_iff; right; now left).
    assert (He : In e (kids d k)) by (rewrite Ek; apply in_app_iff; right; now left).
    assert (Ef : from d e = k) by (now apply (w_kids W) in He). split.
    + rewrite Ef. do 2 eexists. apply in_app_iff. right. apply in_app_iff. left. now left.
    + apply (proj1 (topo_split d _ _ _ To)) in He. do 2 eexists. apply in_app_iff. right. apply in_flat_map. exists (to d e). split; auto. unfold block, head. now left.
Qed.
Theorem print_ok {St} (P : prob St) d t : drawable P d t -> exists out, print_dd d = Ok out /\ listing d out.
Proof.
  intros [(f & W) T B]. unfold print_dd.
  pose (head := fun i : nat => @nil gline). assert (HN : forall i, forallb is_node (head i) = true) by reflexivity.
  destruct (gr_run d f W head (fun _ => Ok [])) as (ord & E & Po & To); [reflexivity|].
  exists (flat_map (block d head) ord). split; [exact E|].
  assert (EQ : flat_map (block d head) ord = map (arc_line d) (flat_map (fun i => kids d i) ord)).
  { clear. induction ord as [|i ord IH]; cbn [flat_map]; auto. rewrite map_app, IH. reflexivity. }
  split; [rewrite EQ; apply Permutation_map; now apply (arcs_once d f W)|].
  intros l1 l2 i j o l El e' He' Et'. apply (block_split d head HN) in El as (a & k & b & k1 & e & k2 & Eo & Ek & Ee & -> & ->). injection Ee as -> -> _ _. subst ord.
  assert (Hk : In k (d_an d)) by (eapply Permutation_in; [exact Po|]; apply in_app_iff; right; now left).
  assert (Ef : from d e = k) by (assert (He : In e (kids d k)) by (rewrite Ek; apply in_app_iff; right; now left); now apply (w_kids W) in He).
  assert (In (from d e') a) by (eapply (into_before d f W a k b Po To); auto; unfold to in *; congruence).
  apply in_app_iff. left. apply in_flat_map. exists (from d e'). split; auto. unfold block, head. cbn [app]. apply in_map_iff. exists e'. split; auto.
  apply (w_kids W); [apply (w_ends W); auto|auto].
Qed.

(** ** compiled diagrams *)
Section Compiled.
Context {St : Type}.
Variable P : prob St.
Variable I : St -> Prop.
Lemma base_box (HC : closed P I) rs d : base P I 0 1 rs d -> forall i, i < d_nn d -> p_eqb P (st d i) (st d 1) = (i =? 1).
Proof.
  intros B i Hi. destruct (b_t B) as [T1 T2]. apply eq_iff_eq_true. rewrite (cl_eqb P I HC), Nat.eqb_eq by (now apply (b_I B)).
  split; [apply (b_uniq B); auto|congruence].
Qed.
Variables (rank : St -> nat) (N : nat).
Hypothesis VM : valid_model P I rank N.
Variables (rs : St) (rb : Z) (rl : list Z).
Hypothesis Hrs : rs <> p_target P.
Hypothesis HI : I rs.
Hypothesis Hrange : in_range P rs rb.
Lemma linv_drawable primal mode d K : linv P I 0 1 rs rb rl rank primal mode d K nobody nobody [] [] -> drawable P (tighten P d 1) 1.
Proof.
  intros H. pose proof (g_base (l_gen H)) as B. pose proof (tighten_spec P d 1 (b_trg B)) as T. constructor.
  - eexists. eapply (tightened_wfg P); [exact T|]. eapply linv_wfg. exact H.
  - now rewrite (tg_trg _ _ _ _ T), (b_trg B).
  - intros i Hi. rewrite !(tg_st _ _ _ _ T). eapply base_box; [apply VM|exact B|]. rewrite (tg_an _ _ _ _ T) in Hi. now apply (l_an H) in Hi.
Qed.
Lemma restricted_drawable fuel d primal w d' : started d rs rb rl -> (N.of_nat w <= 4294967296)%N -> N + 1 < fuel + rank rs ->
  rs_compute P fuel d primal w = Ok d' -> drawable P d' 1.
Proof.
  intros S LW HF E. pose proof (prep_ok P I d rs rb rl (vm_closed _ _ _ _ VM) HI Hrs S) as PP.
  pose proof (prepped_linv P I (vm_closed _ _ _ _ VM) rs rb rl Hrs HI rank primal false (prep P d) PP) as H0.
  unfold rs_compute in E. rewrite (sd_root _ _ _ _ S) in E.
  change (with_node (target P (with_dexact d true)) 0 (nset_layer (d_nd (target P (with_dexact d true)) 0) 0)) with (prep P d) in E.
  assert (X : exists w', (forall nb, rs_full nb w = rs_full nb w') /\ 1 <= w' /\ (N.of_nat w' <= 4294967296)%N).
  { destruct (Nat.eq_dec w 0) as [->|Nw]; [exists (N.to_nat 4294967296)|exists w; csplit; auto; lia].
    csplit; [|lia|lia]. apply rs_full_eq. rewrite Nnat.N2Nat.id. reflexivity. }
  destruct X as (w' & Ew & W1 & W2). rewrite (rs_loop_w P w w' Ew) in E.
  destruct (rs_loop_linv P I (vm_closed _ _ _ _ VM) 0 1 rs rb rl Hrs Hrange rank (vm_layered _ _ _ _ VM) (vm_dom _ _ _ _ VM) (vm_domt _ _ _ _ VM) primal fuel (prep P d) 0 w' [0] N H0 W1 W2) as (d2 & K & E2 & H & _); auto.
  { eapply prepped_width; eauto. } { apply VM. } { lia. }
  rewrite E2 in E. cbn [bind] in E. rewrite (b_trg (g_base (l_gen H))) in E. injection E as <-. eapply linv_drawable; eauto.
Qed.
Lemma bb_drawable (d d' : dd St) t : bbonly d d' -> drawable P d t -> drawable P d' t.
Proof.
  intros B [(f & [W1 W2 W3 W4 W5 W6 W7]) T X].
  assert (S : forall i, st d' i = st d i /\ par d' i = par d i /\ kids d' i = kids d i) by (intros i; rewrite (bo_nd _ _ B); now dsimp).
  constructor.
  - exists f. constructor; rewrite ?(bo_an _ _ B), ?(bo_ne _ _ B), ?(bo_ed _ _ B); auto; intros i *; destruct (S i) as (_ & S2 & S3); rewrite ?S2, ?S3; auto.
  - now rewrite (bo_trg _ _ B).
  - intros i. rewrite (bo_an _ _ B). destruct (S i) as [-> _], (S t) as [-> _]. auto.
Qed.
Lemma relaxed_drawable (srt : dd St -> list nat -> list nat) fuel d primal w d' : (forall d l, Permutation (srt d l) l) -> started d rs rb rl -> N + 1 < fuel + rank rs ->
  rx_compute P srt fuel d primal w = Ok d' -> drawable P d' 1.
Proof.
  intros Hs S HF E.
  destruct (relaxed_total P I (vm_closed _ _ _ _ VM) rs rb rl Hrs HI Hrange rank (vm_layered _ _ _ _ VM) (vm_dom _ _ _ _ VM) (vm_domt _ _ _ _ VM) (vm_mlayered _ _ _ _ VM) (vm_merge _ _ _ _ VM) N (vm_depth _ _ _ _ VM) srt Hs fuel d primal w S HF)
    as (d2 & K & d3 & d4 & E4 & C). rewrite E in E4. injection E4 as <-.
  eapply bb_drawable; [exact (k_bb _ _ _ _ _ _ _ _ _ _ _ _ C)|].
  pose proof (k_inv _ _ _ _ _ _ _ _ _ _ _ _ C) as H. pose proof (k_tight _ _ _ _ _ _ _ _ _ _ _ _ C) as T.
  pose proof (g_base (l_gen H)) as B. constructor.
  - eexists. eapply (tightened_wfg P); [exact T|]. eapply linv_wfg. exact H.
  - now rewrite (tg_trg _ _ _ _ T), (b_trg B).
  - intros i Hi. rewrite !(tg_st _ _ _ _ T). eapply base_box; [apply VM|exact B|]. rewrite (tg_an _ _ _ _ T) in Hi. now apply (l_an H) in Hi.
Qed.
End Compiled.

Lemma exact_drawable {St} (P : prob St) (I : St -> Prop) (HC : closed P I) (HL : p_local P = None) m (HA : acyclic P I m) rs rb rl :
  rs <> p_target P -> I rs -> forall d fuel primal d', started d rs rb rl -> ex_compute P fuel d primal = Ok d' -> drawable P d' 1.
Proof.
  intros Hrs HI d fuel primal d' S E. unfold ex_compute in E. rewrite (sd_root _ _ _ _ S) in E.
  destruct (started_einv P I HC rs rb rl Hrs HI d S) as [H0 N0].
  destruct (ex_loop_ok P I HC HL m HA rs rb rl HI fuel _ primal [0] 0 H0) as [(d1 & E1 & H1)|(E1 & _)]; [rewrite N0; reflexivity| |rewrite E1 in E; discriminate].
  rewrite E1 in E. cbn [bind] in E. pose proof (x_base _ _ _ _ _ _ _ _ H1) as B.
  pose proof (einv_wfg P I HC m HA rs rb rl HI d1 H1) as W. destruct (best_ok P d1 _ W) as (d2 & E2 & BO & _). rewrite E in E2. injection E2 as <-.
  destruct W as [W1 W2 W3 W4 W5 W6 W7].
  assert (Sn : forall i, st d' i = st d1 i /\ par d' i = par d1 i /\ kids d' i = kids d1 i) by (intros i; rewrite (fo_nd _ _ BO); now dsimp).
  constructor.
  - exists (fun i => m (st d1 i)). constructor; rewrite ?(fo_an _ _ BO), ?(fo_ne _ _ BO), ?(fo_ed _ _ BO); auto; intros i *; destruct (Sn i) as (_ & S2 & S3); rewrite ?S2, ?S3; auto.
  - now rewrite (fo_trg _ _ BO), (b_trg B).
  - intros i. rewrite (fo_an _ _ BO). destruct (Sn i) as [-> _], (Sn 1) as [-> _]. intros Hi. eapply base_box; [exact HC|exact B|]. rewrite (x_an _ _ _ _ _ _ _ _ H1) in Hi. apply in_seq in Hi. lia.
Qed.
