(** misp.cpp: the labels are the vertices picked, in increasing order. *)
From Verif Require Import Base DDModel DDSpec DDFrame DDRestricted DDExact SearchModel SearchProofs TspModel TspProofs MispModel MispSpec MispProofs MispInst.
From Coq Require Import NArith Nnat Sorting.Sorted.

Lemma adjacent_dec es i j : {adjacent es i j} + {~ adjacent es i j}.
Proof.
  destruct (existsb (fun e => ((fst e =? i) && (snd e =? j)) || ((fst e =? j) && (snd e =? i))) es) eqn:E; [left|right].
  - now apply badj_spec.
  - intros H. apply badj_spec in H. congruence.
Qed.

Section First.
Variables (top : nat) (es : list (nat * nat)) (weight : nat -> Z).
Hypothesis Ht : 1 <= top.
Notation P := (misp1 top es weight).
Notation live1 := (live2 top).
Definition inv1 (s : misp) : Prop := live1 s \/ s = p_target P.
Lemma live1_ne s : live1 s -> s <> p_target P.
Proof. intros ((v & Hv) & _) ->. cbn in Hv. discriminate. Qed.
Lemma inv1_live s : inv1 s -> s <> p_target P -> live1 s.
Proof. intros [?|?]; tauto. Qed.

Lemma m1_labels s l : live1 s -> (In l (p_labels P s) <-> exists c, l = Z.of_nat c /\ bmem (m_sel s) c = true).
Proof.
  intros ((v & Hv) & L2 & L3 & _). cbn [misp1 p_labels]. unfold m1_lgf. cbv zeta.
  assert (B : forall u, bmem (bfrom (m_l s + 1) (m_sel s)) u = true <-> bmem (m_sel s) u = true).
  { intros u. rewrite bfrom_spec. split; [tauto|]. intros Hu. split; auto. specialize (L2 u Hu). lia. }
  destruct (N.eqb_spec (bfrom (m_l s + 1) (m_sel s)) 0) as [E|_].
  { apply B in Hv. rewrite E, bmem_0 in Hv. discriminate. }
  rewrite in_map_iff. split.
  - intros (c & <- & Hc). apply in_blist in Hc as [_ Hc]. exists c. split; auto. now apply B.
  - intros (c & -> & Hc). exists c. split; auto. apply in_blist. split; [specialize (L2 c Hc); lia|]. now apply B.
Qed.
Definition stays1 (s : misp) (c v : nat) : Prop := bmem (m_sel s) v = true /\ c < v /\ ~ adjacent es c v.
Lemma m1_step s c : live1 s -> bmem (m_sel s) c = true -> exists s', p_stf P s (Z.of_nat c) = Some s' /\
  ((s' = p_target P /\ forall v, ~ stays1 s c v) \/
   (live1 s' /\ m_n s' = S (m_n s) /\ m_l s' = Z.of_nat c /\ forall v, bmem (m_sel s') v = true <-> stays1 s c v)).
Proof.
  intros Hs Hc. pose proof Hs as ((w & Hw) & L2 & L3 & L4). pose proof (L2 c Hc) as LC. cbn [misp1 p_stf p_target]. unfold m1_stf.
  destruct (Z.eqb_spec (Z.of_nat c) (Z.of_nat top)); [lia|]. rewrite Nat2Z.id. cbv zeta.
  set (out := bfrom (Z.of_nat c) (N.ldiff (m_sel s) (nbrs top es c))).
  assert (O : forall v, bmem out v = true <-> stays1 s c v).
  { intros v. unfold out, stays1. rewrite bfrom_spec, bmem_diff, andb_true_iff, negb_true_iff, <- not_true_iff_false, nbrs_spec. split.
    - intros [[H1 H2] H3]. specialize (L2 v H1). split; auto.
      destruct (Nat.eq_dec v c) as [E|N]; [exfalso; apply H2; split; [lia|auto]|]. split; [lia|]. intros Q. apply H2. split; [lia|auto].
    - intros (H1 & H2 & H3). split; [|lia]. split; auto. intros [_ [Q|Q]]; [lia|contradiction]. }
  eexists. split; [reflexivity|]. destruct (N.eqb_spec out 0) as [E0|E0].
  - left. split; [cbn; now rewrite E0|]. intros v Hv. apply O in Hv. rewrite E0, bmem_0 in Hv. discriminate.
  - right. cbn [m_sel m_n m_l]. csplit; auto. unfold live2. cbn [m_sel m_n m_l]. split; [apply bnonempty_spec; now apply N.eqb_neq|]. split; [|lia].
    intros v Hv. apply O in Hv as (H1 & H2 & _). specialize (L2 v H1). lia.
Qed.
Lemma m1_cost s c : c < top -> p_cost P s (Z.of_nat c) = weight c.
Proof. intros H. cbn [misp1 p_cost]. unfold m1_scf. destruct (Z.eqb_spec (Z.of_nat c) (Z.of_nat top)); [lia|]. now rewrite Nat2Z.id. Qed.
Lemma m1_cases s l s' : live1 s -> In l (p_labels P s) -> p_stf P s l = Some s' -> exists c, l = Z.of_nat c /\ bmem (m_sel s) c = true /\ c < top /\
  ((s' = p_target P /\ forall v, ~ stays1 s c v) \/
   (live1 s' /\ m_n s' = S (m_n s) /\ m_l s' = Z.of_nat c /\ forall v, bmem (m_sel s') v = true <-> stays1 s c v)).
Proof.
  intros Hs Hl E. apply m1_labels in Hl as (c & -> & Hc); auto. exists c. pose proof (proj1 (proj2 Hs) c Hc). csplit; auto; [lia|].
  destruct (m1_step s c Hs Hc) as (s2 & E2 & Q). assert (s2 = s') by congruence. now subst s2.
Qed.

Lemma m1_closed : closed P inv1.
Proof.
  constructor.
  - intros a b _ _. apply misp_eqb_eq.
  - intros s [Hs| ->]; [|split; auto]. split; [|intros ->; now apply live1_ne in Hs]. cbn. unfold m1_eqs. intros E. apply N.eqb_eq in E.
    destruct Hs as ((v & Hv) & _). rewrite E, bmem_0 in Hv. discriminate.
  - now right.
  - intros s l s' Hs Nt Hl E. apply inv1_live in Hs; auto. destruct (m1_cases s l s' Hs Hl E) as (c & _ & _ & _ & [[-> _]|[H _]]); [now right|now left].
Qed.
Lemma m1_layered : layered P inv1 m_n.
Proof.
  intros s l s' Hs Nt Hl E Nt'. apply inv1_live in Hs; auto. destruct (m1_cases s l s' Hs Hl E) as (c & _ & _ & _ & [[-> _]|(_ & H & _)]); [congruence|auto].
Qed.
Lemma m1_depth : depth_le P inv1 m_n (top - 1).
Proof.
  intros s Hs Nt. apply inv1_live in Hs; auto. destruct Hs as ((v & Hv) & L2 & L3 & L4). specialize (L2 v Hv). lia.
Qed.
Lemma m1_acyclic : acyclic P inv1 (fun s => if (m_sel s =? 0)%N then top + 1 else m_n s).
Proof.
  intros s l s' Hs Nt Hl E. apply inv1_live in Hs; auto.
  assert (NE : forall s, live1 s -> (m_sel s =? 0)%N = false).
  { intros x ((v & Hv) & _). destruct (N.eqb_spec (m_sel x) 0) as [E0|]; auto. rewrite E0, bmem_0 in Hv. discriminate. }
  rewrite (NE s Hs). assert (m_n s <= top - 1) by (apply m1_depth; auto; now left).
  destruct (m1_cases s l s' Hs Hl E) as (c & _ & _ & _ & [[-> _]|(L & H' & _)]); [cbn; lia|]. rewrite (NE s' L). lia.
Qed.
Lemma m1_merge_live a b m : live1 a -> live1 b -> m_n a = m_n b -> p_smf P a b = Some m ->
  live1 m /\ m_n m = m_n a /\ forall v, bmem (m_sel m) v = bmem (m_sel a) v || bmem (m_sel b) v.
Proof. intros Ha Hb R M. exact (dc_merge _ _ _ _ _ _ _ _ (dec2 top es weight Ht) a b m Ha Hb R M). Qed.
Lemma m1_merge_layered : merge_layered P inv1 m_n.
Proof.
  intros a b m Ha Hb Na Nb R M. apply inv1_live in Ha, Hb; auto. destruct (m1_merge_live a b m Ha Hb R M) as (L & R' & _). csplit; auto.
  - now left.
  - now apply live1_ne.
Qed.

(** completions of a live state: the non-empty independent sets of candidates that cannot be continued to the right *)
Definition runs (s : misp) (S : list nat) : Prop :=
  S <> [] /\ StronglySorted lt S /\ (forall x, In x S -> bmem (m_sel s) x = true) /\ independent es S /\
  forall u, bmem (m_sel s) u = true -> (forall i, In i S -> i < u) -> exists i, In i S /\ adjacent es i u.
Lemma m1_sound : forall ls s v, path P s ls v (p_target P) -> live1 s -> exists S, ls = map Z.of_nat S /\ v = total weight S /\ runs s S.
Proof.
  induction ls as [|l ls IH]; intros s v H Hs; inversion H as [|s0 l0 s1 ls0 v0 t0 HN HL HS HP]; subst; [exfalso; exact (live1_ne _ Hs eq_refl)|].
  destruct (m1_cases s l s1 Hs HL HS) as (c & -> & Hc & Hct & [[-> B]|(L1 & _ & _ & L3)]).
  - apply path_target in HP as (-> & -> & _). exists [c]. rewrite m1_cost by auto. csplit; auto. unfold runs. csplit.
    + discriminate.
    + repeat constructor.
    + intros x [<-|[]]. auto.
    + intros i j [<-|[]] [<-|[]]. congruence.
    + intros u Hu Lu. exists c. split; [now left|]. specialize (Lu c (or_introl eq_refl)).
      destruct (adjacent_dec es c u); auto. exfalso. apply (B u). split; auto.
  - destruct (IH s1 v0 HP L1) as (S & -> & -> & R1 & R2 & R3 & R4 & R5). exists (c :: S). rewrite m1_cost by auto. csplit; auto. unfold runs. csplit.
    + discriminate.
    + constructor; auto. apply Forall_forall. intros x Hx. apply R3, L3 in Hx. apply Hx.
    + intros x [<-|Hx]; auto. apply R3, L3 in Hx. apply Hx.
    + intros i j [<-|Hi] [<-|Hj] N; try congruence.
      * apply R3, L3 in Hj. apply Hj.
      * apply R3, L3 in Hi. intros Q. apply Hi. unfold adjacent in *. tauto.
      * auto.
    + intros u Hu Lu. destruct (adjacent_dec es c u) as [A|A]; [exists c; split; auto; now left|].
      destruct (R5 u) as (i & I1 & I2).
      * apply L3. split; auto. split; auto. apply Lu. now left.
      * intros i Hi. apply Lu. now right.
      * exists i. split; auto. now right.
Qed.
Lemma m1_complete : forall S s, live1 s -> runs s S -> path P s (map Z.of_nat S) (total weight S) (p_target P).
Proof.
  induction S as [|c S IH]; intros s Hs (R1 & R2 & R3 & R4 & R5); [congruence|]. inversion R2 as [|? ? Q1 Q2]; subst. rewrite Forall_forall in Q2.
  assert (Hc : bmem (m_sel s) c = true) by (apply R3; now left). pose proof (proj1 (proj2 Hs) c Hc) as LC.
  destruct (m1_step s c Hs Hc) as (s1 & E & B). cbn [map total]. rewrite <- (m1_cost s c) by lia.
  assert (ST : forall x, In x S -> stays1 s c x).
  { intros x Hx. specialize (Q2 x Hx). split; [apply R3; now right|]. split; auto. apply R4; [now left|now right|lia]. }
  econstructor; [now apply live1_ne|apply m1_labels; eauto|exact E|].
  destruct B as [[-> B]|(L1 & _ & _ & L3)].
  - destruct S as [|x S]; [constructor|]. exfalso. exact (B x (ST x (or_introl eq_refl))).
  - apply IH; auto. unfold runs. csplit; auto.
    + intros ->. destruct L1 as ((u & Hu) & _). apply L3 in Hu as (U1 & U2 & U3). destruct (R5 u U1) as (i & [<-|[]] & I2); [|contradiction].
      intros i [<-|[]]. auto.
    + intros x Hx. apply L3. auto.
    + intros i j Hi Hj. apply R4; now right.
    + intros u Hu Lu. apply L3 in Hu as (U1 & U2 & U3). destruct (R5 u U1) as (i & [<-|I1] & I2).
      * intros i [<-|Hi]; auto.
      * contradiction.
      * eauto.
Qed.

Section NonNeg.
Hypothesis W : forall v, v < top -> (0 <= weight v)%Z.
Lemma m1_extends : forall k s, live1 s -> top - Z.to_nat (m_l s + 1) <= k -> forall S, StronglySorted lt S -> (forall x, In x S -> bmem (m_sel s) x = true) -> independent es S ->
  exists v, compl P s v /\ (total weight S <= v)%Z.
Proof.
  induction k as [|k IH]; intros s Hs Hk S SS SI IN. { destruct Hs as ((v & Hv) & L2 & _). specialize (L2 v Hv). lia. }
  assert (G : exists c S', bmem (m_sel s) c = true /\ StronglySorted lt S' /\ (forall x, In x S' -> stays1 s c x) /\ independent es S' /\
     (total weight S <= weight c + total weight S')%Z).
  { destruct S as [|c S'].
    - destruct Hs as ((c & Hc) & L2 & _). exists c, []. specialize (L2 c Hc). csplit; auto; [intros x []|]. cbn. specialize (W c). lia.
    - exists c, S'. inversion SS as [|? ? Q1 Q2]; subst. rewrite Forall_forall in Q2. csplit; auto.
      + apply SI. now left.
      + intros x Hx. specialize (Q2 x Hx). split; [apply SI; now right|]. split; auto. apply IN; [now left|now right|lia].
      + intros i j Hi Hj. apply IN; now right.
      + cbn. lia. }
  destruct G as (c & S' & Hc & G1 & G2 & G3 & G4). pose proof (proj1 (proj2 Hs) c Hc) as LC.
  destruct (m1_step s c Hs Hc) as (s1 & E & B).
  assert (R : exists v, compl P s1 v /\ (total weight S' <= v)%Z).
  { destruct B as [[-> B]|(L1 & _ & L2 & L3)].
    - exists 0%Z. split; [exists []; constructor|]. destruct S' as [|x S']; [cbn; lia|]. exfalso. exact (B x (G2 x (or_introl eq_refl))).
    - apply IH; auto; [rewrite L2; destruct Hs as (_ & _ & ? & _); lia|]. intros x Hx. apply L3. auto. }
  destruct R as (v & (ls & R1) & R2). exists (weight c + v)%Z. split; [|lia]. exists (Z.of_nat c :: ls). rewrite <- (m1_cost s c) by lia.
  econstructor; [now apply live1_ne|apply m1_labels; eauto|exact E|exact R1].
Qed.
Lemma m1_valid_merge : valid_merge P inv1 m_n.
Proof.
  assert (Q : forall m a, live1 m -> live1 a -> (forall v, bmem (m_sel a) v = true -> bmem (m_sel m) v = true) -> relaxes P m a).
  { intros m a Hm Ha Sub v [ls H]. destruct (m1_sound ls a v H Ha) as (S & _ & -> & _ & R2 & R3 & R4 & _).
    destruct (m1_extends _ m Hm (le_n _) S) as (v' & C & L); auto. exists v'. split; auto. unfold be, val. cbn [misp1 p_min]. lia. }
  intros a b m Ha Hb Na Nb R M. apply inv1_live in Ha, Hb; auto. destruct (m1_merge_live a b m Ha Hb R M) as (L & R' & SM).
  split; apply Q; auto; intros v Hv; rewrite SM, Hv; auto using orb_true_r.
Qed.
Lemma m1_valid : valid_model P inv1 m_n (top - 1).
Proof.
  constructor.
  - apply m1_closed.
  - apply m1_layered.
  - apply m1_depth.
  - apply m1_merge_layered.
  - apply m1_valid_merge.
  - intros sdom a b [=].
  - intros sdom a s l [=].
  - intros local s ctx v [=].
Qed.
Lemma m1_nonneg s ls v t : path P s ls v t -> inv1 s -> (0 <= v)%Z.
Proof.
  intros H. induction H as [s|s l s' ls v t N L HS H IH]; intros Is; [lia|].
  assert (Is' : inv1 s') by (eapply (cl_step _ _ m1_closed); eauto). specialize (IH Is'). apply inv1_live in Is; auto.
  destruct (m1_cases s l s' Is L HS) as (c & -> & _ & C & _). rewrite m1_cost by auto. specialize (W c C). lia.
Qed.
End NonNeg.

Lemma m1_init_live : live1 (p_init P) /\ forall v, bmem (m_sel (p_init P)) v = true <-> v < top.
Proof. exact (dc_init _ _ _ _ _ _ _ _ (dec2 top es weight Ht)). Qed.
Lemma m1_solutions ls v : path P (p_init P) ls v (p_target P) <->
  exists S, indep_set top es S /\ right_maximal top es S /\ ls = map Z.of_nat S /\ v = total weight S.
Proof.
  destruct m1_init_live as [Hi Ii]. split.
  - intros H. destruct (m1_sound ls _ v H Hi) as (S & -> & -> & R1 & R2 & R3 & R4 & R5). exists S. csplit; auto.
    + split; auto. split; auto. apply Forall_forall. intros x Hx. apply Ii. auto.
    + intros u Hu Lu. apply R5; auto. now apply Ii.
  - intros (S & (S1 & S2 & S3) & RM & -> & ->). rewrite Forall_forall in S2. apply m1_complete; auto. unfold runs. csplit; auto.
    + intros ->. destruct (RM 0) as (i & [] & _); [lia|intros i []].
    + intros x Hx. apply Ii. auto.
    + intros u Hu Lu. apply RM; auto. now apply Ii.
Qed.
Lemma m1_optimum : (forall v, v < top -> (0 <= weight v)%Z) -> forall S, indep_set top es S ->
  exists ls v, path P (p_init P) ls v (p_target P) /\ (total weight S <= v)%Z.
Proof.
  intros W S (S1 & S2 & S3). rewrite Forall_forall in S2. destruct m1_init_live as [Hi Ii].
  destruct (m1_extends W _ _ Hi (le_n _) S) as (v & (ls & H) & L); eauto. intros x Hx. apply Ii. auto.
Qed.

(** ** the exact diagrams of misp.cpp and misp2.cpp *)
Definition m_states (t : misp) : list misp :=
  t :: map (fun x => mkM (fst (fst x)) (snd (fst x)) (snd x)) (list_prod (list_prod (masks top) (seq 0 (top + 1))) (map (fun k => Z.of_nat k - 1)%Z (seq 0 (top + 1)))).
Lemma in_m_states t s : live1 s -> In s (m_states t).
Proof.
  intros ((v & Hv) & L2 & L3 & L4). right. apply in_map_iff. exists (m_sel s, m_n s, m_l s). split; [now destruct s|]. specialize (L2 v Hv) as Q.
  apply in_prod; [apply in_prod|].
  - apply in_masks. intros u Hu. specialize (L2 u Hu). lia.
  - apply in_seq. lia.
  - apply in_map_iff. exists (Z.to_nat (m_l s + 1)). split; [lia|]. apply in_seq. lia.
Qed.
Lemma m_states_length t : length (m_states t) = 2 ^ top * (top + 1) * (top + 1) + 1.
Proof. unfold m_states. cbn [length]. rewrite map_length, !prodlen, map_length, masks_length, !seq_length. lia. Qed.

Lemma m1_exact fuel primal : (forall v, v < top -> (0 <= weight v)%Z) -> 2 ^ top * (top + 1) * (top + 1) + 1 <= fuel ->
  exists d n S, ex_compute P fuel (initDefault P (dd_empty P true)) primal = Ok d /\ trg_node d = Ok n /\
    indep_set top es S /\ n_lab n = map Z.of_nat S /\ n_bound n = total weight S /\ forall S', indep_set top es S' -> (total weight S' <= n_bound n)%Z.
Proof.
  intros W F. destruct m1_init_live as [Hi Ii].
  destruct (exact_best P inv1 _ (m_states (p_target P)) fuel primal m1_closed eq_refl m1_acyclic) as (d & n & E & T & H & B).
  - now left.
  - now apply live1_ne.
  - intros ls v s H. apply m1_nonneg in H; auto; [|now left]. unfold bt, val, sentinel. cbn [misp1 p_min]. lia.
  - intros s [Hs| ->] _; [now apply in_m_states|now left].
  - now left.
  - now rewrite m_states_length.
  - destruct (m1_optimum W []) as (ls & v & H & _); eauto. split; [constructor|]. split; [constructor|]. intros i j [].
  - apply m1_solutions in H as (S & S1 & S2 & S3 & S4). exists d, n, S. csplit; auto.
    intros S' HS'. destruct (m1_optimum W S' HS') as (ls & v & H & L). specialize (B ls v H). unfold be, val in B. cbn [misp1 p_min] in B. lia.
Qed.
Lemma m2_exact fuel primal : let P := misp2 top es weight in (forall v, v < top -> (0 <= weight v)%Z) -> 2 ^ top * (top + 1) * (top + 1) + 1 <= fuel ->
  exists d n vs, ex_compute P fuel (initDefault P (dd_empty P true)) primal = Ok d /\ trg_node d = Ok n /\ length vs = length (n_lab n) /\
    indep_set top es (picks vs (n_lab n)) /\ n_bound n = total weight (picks vs (n_lab n)) /\ forall S', indep_set top es S' -> (total weight S' <= n_bound n)%Z.
Proof.
  intros P2 W F. pose proof (dec2 top es weight Ht) as D. destruct (dc_init _ _ _ _ _ _ _ _ D) as [Hi Ii].
  assert (AC : acyclic P2 (dinv P2 live1) (fun s => if (m_sel s =? 0)%N then top + 1 else m_n s)).
  { intros s l s' Hs Nt Hl E. apply dinv_live in Hs; auto.
    assert (NE : forall s, live1 s -> (m_sel s =? 0)%N = false).
    { intros x ((v & Hv) & _). destruct (N.eqb_spec (m_sel x) 0) as [E0|]; auto. rewrite E0, bmem_0 in Hv. discriminate. }
    rewrite (NE s Hs). pose proof (dc_rank _ _ _ _ _ _ _ _ D s Hs). pose proof (cur_top _ _ _ _ _ _ _ _ D s Hs).
    destruct (dec_step _ _ _ _ _ _ _ _ D s l s' Hs Hl E) as [_ [[-> _]|(L & H' & _)]]; [cbn; lia|]. rewrite (NE s' L). lia. }
  destruct (exact_best P2 (dinv P2 live1) _ (m_states (p_target P2)) fuel primal (dec_closed _ _ _ _ _ _ _ _ D) eq_refl AC) as (d & n & E & T & H & B).
  - now left.
  - now apply (dc_ne _ _ _ _ _ _ _ _ D).
  - apply (dec_range _ _ _ _ _ _ _ _ D W).
  - intros s [Hs| ->] _; [now apply in_m_states|now left].
  - now left.
  - now rewrite m_states_length.
  - destruct (dec_every _ _ _ _ _ _ _ _ D []) as (ls & H & _); eauto. split; [constructor|]. split; [constructor|]. intros i j [].
  - destruct (dec_solution _ _ _ _ _ _ _ _ D _ _ H) as (T1 & T2 & T3 & T4). exists d, n, (trace P2 (cur2 top) (p_init P2) (n_lab n)). csplit; auto.
    intros S' HS'. destruct (dec_every _ _ _ _ _ _ _ _ D S' HS') as (ls & H' & _). specialize (B _ _ H'). unfold be, val, P2 in B. cbn [misp2 p_min] in B. lia.
Qed.
End First.

(** ** misp4 and misp5: the i-th label is about vertex i *)
Section Pos.
Variables (top : nat) (es : list (nat * nat)) (weight : nat -> Z).
Hypothesis Ht : 1 <= top.
Lemma trace4 : forall ls s v, path (misp4p top es weight) s ls v (p_target (misp4p top es weight)) -> live4 top s -> trace (misp4p top es weight) q_n s ls = seq (q_n s) (length ls).
Proof.
  pose proof (dec4 top es weight Ht) as D. induction ls as [|l ls IH]; intros s v H Hs; auto. inversion H as [|s0 l0 s1 ls0 v0 t0 HN HL HS HP]; subst.
  cbn [trace length seq]. rewrite HS. f_equal. destruct (dec_step _ _ _ _ _ _ _ _ D s l s1 Hs HL HS) as [_ [[-> _]|(L1 & R & _)]].
  - apply path_target in HP as (-> & _). auto.
  - rewrite (IH _ _ HP L1), R. auto.
Qed.
Lemma trace5 : forall ls s v, path (misp5 top es weight) s ls v (p_target (misp5 top es weight)) -> live5 top s -> trace (misp5 top es weight) m_n s ls = seq (m_n s) (length ls).
Proof.
  pose proof (dec5 top es weight Ht) as D. induction ls as [|l ls IH]; intros s v H Hs; auto. inversion H as [|s0 l0 s1 ls0 v0 t0 HN HL HS HP]; subst.
  cbn [trace length seq]. rewrite HS. f_equal. destruct (dec_step _ _ _ _ _ _ _ _ D s l s1 Hs HL HS) as [_ [[-> _]|(L1 & R & _)]].
  - apply path_target in HP as (-> & _). auto.
  - rewrite (IH _ _ HP L1), R. auto.
Qed.

(** the checker accepts what decodes to an independent set *)
Lemma flagged_picks : forall ls n a, flagged ls a = true -> In (n + a) (picks (seq n (length ls)) ls).
Proof.
  induction ls as [|l ls IH]; intros n a H; unfold flagged in H; [destruct a; discriminate|]. cbn [length seq picks]. destruct a as [|a].
  - cbn in H. apply negb_true_iff in H. rewrite H. left. lia.
  - cbn in H. specialize (IH (S n) a H). replace (n + S a) with (S n + a) by lia. destruct (l =? 0)%Z; auto. now right.
Qed.
Lemma checker_accepts ls : (forall a b, In (a, b) es -> a <> b) -> independent es (picks (seq 0 (length ls)) ls) -> checker es ls = true.
Proof.
  intros NL IN. unfold checker. apply forallb_forall. intros [a b] He. cbn [fst snd]. apply negb_true_iff. apply not_true_iff_false. rewrite andb_true_iff.
  intros [F1 F2]. apply (flagged_picks ls 0) in F1, F2. cbn [plus] in F1, F2. apply (IN a b F1 F2); [now apply NL|]. now left.
Qed.
End Pos.
