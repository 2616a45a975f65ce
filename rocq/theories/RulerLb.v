(** gruler_midlb.cpp: the solutions are those of gruler_mid.cpp. *)
From Verif Require Import Base DDModel DDSpec DDFrame DDExact TspModel TspProofs RulerModel RulerSpec RulerProofs RulerEnd.
From Coq Require Import Sorting.Sorted Permutation.
Local Open Scope Z_scope.

(** ** the smallest unused distance *)
Lemma unused_le f : forall s x, x <= unused f s x /\ forall y, x <= y < unused f s x -> imem s y = true.
Proof.
  induction f as [|f IH]; intros s x; cbn [unused]; [split; [lia|intros; lia]|].
  destruct (imem s x) eqn:E; [|split; [lia|intros; lia]]. destruct (IH s (x + 1)) as [A B]. split; [lia|].
  intros y Hy. destruct (Z.eq_dec y x) as [->|]; auto. apply B. lia.
Qed.
Lemma imem_small s x : imem s x = true -> x < Z.of_nat (N.size_nat s).
Proof.
  intros H. apply in_members in H. unfold members in H. apply in_map_iff in H as (i & <- & H). apply filter_In in H as [H _]. apply in_seq in H. lia.
Qed.
Lemma unused_full f : forall s x, imem s (unused f s x) = true -> unused f s x = x + Z.of_nat f.
Proof.
  induction f as [|f IH]; intros s x; cbn [unused]; [lia|]. destruct (imem s x) eqn:E; [|congruence]. intros H. rewrite (IH _ _ H). lia.
Qed.
(** the loop stops at an unused distance, so the fuel of the model is enough *)
Lemma unused_stops s x : 0 <= x -> imem s (unused (S (N.size_nat s)) s x) = false.
Proof.
  intros Hx. destruct (imem s (unused (S (N.size_nat s)) s x)) eqn:E; auto. pose proof (unused_full _ _ _ E) as U. apply imem_small in E. lia.
Qed.

Definition lbase (s : rulerL) : ruler := mkR (l_m s) (l_d s) (l_k s) (l_e s).
Lemma ml_ne n L s : l_k s < n -> s <> ml_target n L.
Proof. intros H ->. cbn in H. lia. Qed.
Section Lb.
Variables (n L : Z) (opt : Z -> Z) (b : Z).
Hypothesis Hn : 2 <= n.
Variables (eqb : ruler -> ruler -> bool) (eqbL : rulerL -> rulerL -> bool).
Notation P := (gr_prob n opt (mid_ub n L opt b) eqb).
(** the problem of gruler_midlb.cpp with an equality of states *)
Definition ml_probE : prob rulerL := mkProb rulerL ml_init (ml_target n L) (ml_lgf n L opt b) (ml_stf n L) ml_scf ml_smf (ml_eqs n) None None true eqbL.
Notation Q := ml_probE.

(** states of the diagrams, merged ones included *)
Definition ml_live (s : rulerL) : Prop :=
  1 <= l_k s < n /\ imem (l_m s) (l_e s) = true /\ (forall x, imem (l_m s) x = true -> x <= l_e s) /\
  1 <= l_sm s /\ (forall x, 1 <= x < l_sm s -> imem (l_d s) x = true).
Lemma ml_live_init : ml_live ml_init.
Proof.
  unfold ml_live, ml_init. cbn [l_k l_m l_e l_sm l_d]. csplit; try lia; intros; try lia.
  - now apply imem_one.
  - apply imem_one in H; lia.
Qed.

Lemma ml_legal_spec s l : (forall x, imem (l_m s) x = true -> x <= l) -> ml_legal s l = negb (ru_illegal (lbase s) l).
Proof.
  intros H. unfold ml_legal. destruct (ru_illegal (lbase s) l) eqn:E; cbn [negb].
  - apply illegal_spec in E as (i & A & B). apply N.eqb_neq. intros Z0. cbn [lbase r_m r_d] in *.
    assert (C : imem (N.land (l_d s) (refl l (l_m s))) (l - i) = true) by (apply imem_and; split; auto; apply imem_refl; eauto).
    rewrite Z0, imem_0 in C. discriminate.
  - apply N.eqb_eq. apply imem_ext. intros v. rewrite imem_0, imem_and, imem_refl by auto. split; [|discriminate].
    intros (A & i & B & ->). assert (ru_illegal (lbase s) l = true) by (apply illegal_spec; exists i; auto). congruence.
Qed.
(** starting the labels at e + sm instead of e + 1 loses nothing *)
Lemma ml_labels s l : ml_live s -> (In l (p_labels Q s) <-> In l (p_labels P (lbase s)) /\ ru_illegal (lbase s) l = false).
Proof.
  intros (K & Me & Mx & S1 & S2). cbn [ml_probE p_labels gr_prob]. unfold ml_lgf, ru_lgf. rewrite filter_In, !in_closeInc. cbn [lbase r_e r_k].
  assert (E0 : 0 <= l_e s) by (apply imem_bmem in Me; tauto).
  split.
  - intros [[H1 H2] H3]. assert (LE : l_e s + l_sm s <= l) by (unfold ru_lb in H1; destruct (_ <? _); lia).
    rewrite ml_legal_spec in H3 by (intros x Hx; specialize (Mx x Hx); lia). apply negb_true_iff in H3. csplit; auto.
    assert (L0 : 0 <= l) by lia. apply (proj1 (lb_le n opt _ _ _ L0)) in H1. apply (proj2 (lb_le n opt _ _ _ L0)). lia.
  - intros [[H1 H2] H3]. assert (LE : l_e s + 1 <= l) by (unfold ru_lb in H1; destruct (_ <? _); lia).
    rewrite ml_legal_spec by (intros x Hx; specialize (Mx x Hx); lia). rewrite H3. csplit; auto. assert (L0 : 0 <= l) by lia.
    apply (proj1 (lb_le n opt _ _ _ L0)) in H1 as [_ H1]. apply (proj2 (lb_le n opt _ _ _ L0)). split; auto.
    destruct (Z.lt_ge_cases (l - l_e s) (l_sm s)) as [C|]; [|lia]. exfalso.
    assert (ru_illegal (lbase s) l = true); [|congruence]. apply illegal_spec. exists (l_e s). split; auto. apply S2. lia.
Qed.
Lemma ml_next s l s' : ml_live s -> l_e s < l -> p_stf Q s l = Some s' ->
  (l_k s = n - 1 /\ s' = ml_target n L) \/ (l_k s < n - 1 /\ lbase s' = ru_next (lbase s) l /\ ml_live s' /\ imem (l_d s') (l_sm s') = false).
Proof.
  intros (K & Me & Mx & S1 & S2) Lt. cbn [ml_probE p_stf]. unfold ml_stf. destruct (Z.eqb_spec (l_k s) (n - 1)); [intros [= <-]; auto|]. intros [= <-]. right.
  assert (E0 : 0 <= l_e s) by (apply imem_bmem in Me; tauto).
  split; [lia|]. split; [reflexivity|]. set (dn := N.lor (refl l (l_m s)) (l_d s)). destruct (unused_le (S (N.size_nat dn)) dn (l_sm s)) as [U1 U2].
  split; [|apply unused_stops; lia]. unfold ml_live. cbn [l_k l_m l_e l_sm l_d]. csplit; try lia.
  - apply imem_or. right. apply imem_one; lia.
  - intros x Hx. apply imem_or in Hx as [Hx|Hx]; [specialize (Mx x Hx); lia|]. apply imem_one in Hx; lia.
  - cbn [unused] in U1. lia.
  - cbn [unused] in U2. intros x Hx. destruct (Z.lt_ge_cases x (l_sm s)).
    + apply imem_or. right. apply S2. lia.
    + apply U2. lia.
Qed.
Lemma ml_label_gt s l : ml_live s -> In l (p_labels Q s) -> l_e s < l.
Proof. intros Ls H. apply ml_labels in H as [H _]; auto. apply gr_label in H. cbn in H. lia. Qed.

(** same solutions below corresponding states *)
Lemma ml_paths1 s ls v : path Q s ls v (ml_target n L) -> ml_live s -> path P (lbase s) ls v (ru_target n).
Proof.
  intros H. remember (ml_target n L) as t eqn:Et. induction H as [s|s l s' ls v t N Hl S Hp IH]; intros Ls; [exfalso; destruct Ls; subst; cbn in *; lia|subst t].
  pose proof (ml_label_gt _ _ Ls Hl) as Lt. pose proof Ls as (K & _). apply ml_labels in Hl as [H1 H2]; auto.
  change (p_cost Q s l) with (p_cost P (lbase s) l). apply (ml_next s l s' Ls Lt) in S as [[Ks ->]|(Ks & E & Ls' & _)].
  - assert (ls = [] /\ v = 0) as [-> ->] by (inversion Hp; subst; auto; exfalso; match goal with H : ml_target n L <> _ |- _ => now apply H end).
    eapply path_cons; eauto; [apply live_target; cbn; lia| |constructor]. cbn [gr_prob p_stf]. unfold ru_stf. rewrite H2. cbn [lbase r_k]. now rewrite Ks, Z.eqb_refl.
  - eapply path_cons with (s' := lbase s'); eauto; [apply live_target; cbn; lia|]. cbn [gr_prob p_stf]. unfold ru_stf. rewrite H2. cbn [lbase r_k].
    destruct (Z.eqb_spec (l_k s) (n - 1)); [lia|]. now rewrite E.
Qed.
Lemma ml_paths2 : forall ls s v, path P (lbase s) ls v (ru_target n) -> ml_live s -> path Q s ls v (ml_target n L).
Proof.
  induction ls as [|l ls IH]; intros s v H Ls; pose proof Ls as (K & _).
  - exfalso. assert (E : lbase s = ru_target n) by (revert H; generalize (lbase s), (ru_target n); intros x y H; inversion H; auto). apply (f_equal r_k) in E. cbn in E. lia.
  - apply path_target_inv in H as (l' & r & s' & w & [= <- <-] & Hl & S & Hp & ->); [|apply live_target; cbn; lia].
    apply gr_step in S as [IL St]. assert (Hq : In l (p_labels Q s)) by (apply ml_labels; auto). pose proof (ml_label_gt _ _ Ls Hq) as Lt.
    change (l - r_e (lbase s)) with (p_cost Q s l). destruct (ml_stf n L s l) as [s2|] eqn:E; [|unfold ml_stf in E; destruct (_ =? _); discriminate].
    eapply path_cons; [apply ml_ne; lia|auto|exact E|]. apply (ml_next s l s2 Ls Lt) in E as [[Ks ->]|(Ks & E & Ls' & _)].
    + destruct St as [[_ ->]|[Ks' _]]; [|cbn in Ks'; lia]. apply path_at_target in Hp as [-> ->]. constructor.
    + destruct St as [[Ks' _]|[_ ->]]; [cbn in Ks'; lia|]. apply IH; auto. now rewrite E.
Qed.
Lemma ml_solutions ls v : path Q ml_init ls v (ml_target n L) <-> path P ru_init ls v (ru_target n).
Proof.
  split; intros H; [apply ml_paths1 in H|apply ml_paths2; [|apply ml_live_init]]; auto using ml_live_init.
Qed.
End Lb.

(** ** the closures are valid for an equality that compares all fields *)
Section Valid.
Variables (n L : Z) (opt : Z -> Z) (b : Z).
Hypothesis Hn : 2 <= n.
Definition rulerL_eqb2 (a c : rulerL) : bool := rulerL_eqb a c && (l_d a =? l_d c)%N && (l_sm a =? l_sm c).
Lemma rulerL_eqb2_eq a c : rulerL_eqb2 a c = true <-> a = c.
Proof.
  unfold rulerL_eqb2, rulerL_eqb. rewrite !andb_true_iff, !N.eqb_eq, !Z.eqb_eq. destruct a, c; cbn. split; [intros ((((-> & ->) & ->) & ->) & ->); auto|].
  intros [= -> -> -> -> ->]; auto.
Qed.
Notation Q eqbL := (ml_probE n L opt b eqbL).
Definition ml_inv (s : rulerL) : Prop := ml_live n s \/ s = ml_target n L.
Definition lrank (s : rulerL) : nat := Z.to_nat (l_k s).
Lemma ml_stepI eqbL s l s' : ml_live n s -> In l (p_labels (Q eqbL) s) -> p_stf (Q eqbL) s l = Some s' -> ml_inv s'.
Proof.
  intros Ls Hl S. pose proof (ml_label_gt n L opt b ruler_eqb eqbL s l Ls Hl) as Lt.
  apply (ml_next n L opt b eqbL s l s' Ls Lt) in S as [[_ ->]|(_ & _ & H & _)]; [now right|now left].
Qed.
Lemma ml_merge_live a c m : ml_live n a -> ml_live n c -> ml_smf a c = Some m ->
  ml_live n m /\ l_k m = l_k a /\ looser (lbase m) (lbase a) /\ looser (lbase m) (lbase c).
Proof.
  intros (K & Me & Mx & S1 & S2) (K' & Me' & Mx' & S1' & S2') E. unfold ml_smf in E. destruct (_ && _) eqn:EE; [|discriminate]. injection E as <-.
  apply andb_true_iff in EE as [E1 E2]. assert (E3 : l_e a = l_e c) by lia. rewrite <- E3 in *. rewrite Z.min_id. csplit; auto.
  - unfold ml_live. cbn [l_k l_m l_e l_sm l_d]. csplit; try lia.
    + now apply imem_and.
    + intros x Hx. apply imem_and in Hx as [Hx _]. auto.
    + intros x Hx. apply imem_and. split; [apply S2|apply S2']; lia.
  - unfold looser, lbase. cbn [l_k l_m l_e l_d r_k r_e r_m r_d]. csplit; auto; intros v; rewrite imem_and; tauto.
  - unfold looser, lbase. cbn [l_k l_m l_e l_d r_k r_e r_m r_d]. csplit; auto; [lia| |]; intros v; rewrite imem_and; tauto.
Qed.
Lemma ml_valid : valid_model (Q rulerL_eqb2) ml_inv lrank (Z.to_nat n).
Proof.
  constructor.
  - constructor.
    + intros a c _ _. apply rulerL_eqb2_eq.
    + intros s [H| ->]; cbn [ml_probE p_eqs p_target]; unfold ml_eqs; [|cbn; rewrite Z.eqb_refl; tauto]. destruct H as [H _]. split; [lia|]. intros ->. cbn in H. lia.
    + now right.
    + intros s l s' [H| ->] N; [|now elim N]. now apply ml_stepI.
  - intros s l s' [Ls| ->] N Hl S N'; [|now elim N]. pose proof (ml_label_gt n L opt b ruler_eqb _ s l Ls Hl) as Lt. pose proof Ls as (K & _).
    apply (ml_next n L opt b _ s l s' Ls Lt) in S as [[_ ->]|(_ & E & _)]; [now elim N'|]. assert (l_k s' = l_k s + 1) by (assert (X := f_equal r_k E); exact X). unfold lrank. lia.
  - intros s [[K _]| ->] N; [unfold lrank; lia|now elim N].
  - intros a c m [La| ->] [Lc| ->] Na Nc E S; try (now elim Na); try (now elim Nc). cbn [ml_probE p_smf] in S. destruct (ml_merge_live a c m La Lc S) as (Lm & K & _).
    csplit; [now left| |unfold lrank; lia]. apply (ml_ne n L). exact (proj2 (proj1 Lm)).
  - intros a c m [La| ->] [Lc| ->] Na Nc E S; try (now elim Na); try (now elim Nc). cbn [ml_probE p_smf] in S. destruct (ml_merge_live a c m La Lc S) as (Lm & K & L1 & L2).
    split; intros v (ls & Hp); exists v; (split; [|apply be_refl]); exists ls; apply (ml_paths1 n L opt b ruler_eqb) in Hp; auto;
      apply (ml_paths2 n L opt b ruler_eqb); auto; eapply looser_paths; eauto.
    + left. exact (proj1 La).
    + apply live_target. exact (proj2 (proj1 La)).
    + left. exact (proj1 Lc).
    + apply live_target. exact (proj2 (proj1 Lc)).
  - intros sdom a c H. discriminate.
  - intros sdom a s l H. discriminate.
  - intros local s ctx v H. discriminate.
Qed.
End Valid.

(** ** exact diagrams, with the equality of the code *)
Section Exact.
Variables (n L : Z) (opt : Z -> Z) (b : Z).
Hypothesis Hn : 2 <= n.
Variable M : Z.
Hypothesis HM : 0 <= M < 2147483647.
Hypothesis Hub : forall k, 1 <= k < n -> mid_ub n L opt b k <= M.
Notation Q := (ml_prob n L opt b).
Lemma ml_probE_eq : ml_prob n L opt b = ml_probE n L opt b rulerL_eqb.
Proof. reflexivity. Qed.
Definition mx_live (s : rulerL) : Prop := ml_live n s /\ imem (l_d s) (l_sm s) = false /\ exists xs, rep (lbase s) xs /\ rlen xs <= M.
Definition mx_inv (s : rulerL) : Prop := mx_live s \/ s = ml_target n L.
Lemma mx_uniq a c : mx_live a -> mx_live c -> l_m a = l_m c -> a = c.
Proof.
  intros ((_ & _ & _ & A1 & A2) & A3 & xs & A4 & _) ((_ & _ & _ & C1 & C2) & C3 & ys & C4 & _) E.
  destruct (rep_uniq _ _ _ _ A4 C4 E) as [B _]. destruct a as [am ad ak ae asm], c as [cm cd ck ce csm]. unfold lbase in B. cbn in *. injection B as -> -> -> ->.
  f_equal. destruct (Z.lt_trichotomy asm csm) as [H|[H|H]]; auto.
  - rewrite C2 in A3 by lia. discriminate.
  - rewrite A2 in C3 by lia. discriminate.
Qed.
Lemma mx_step s l s' : mx_live s -> In l (p_labels Q s) -> p_stf Q s l = Some s' -> mx_inv s' /\ (s' = ml_target n L \/ l_k s' = l_k s + 1 /\ l_e s' = l) /\ l <= M.
Proof.
  intros (Ls & _ & xs & R & B) Hl S. rewrite ml_probE_eq in Hl, S. pose proof (ml_label_gt n L opt b ruler_eqb _ s l Ls Hl) as Lt. pose proof Ls as (K & _).
  apply (ml_labels n L opt b ruler_eqb) in Hl as [H1 H2]; auto. apply gr_label in H1. cbn [lbase r_k] in H1. specialize (Hub (l_k s) K).
  apply (ml_next n L opt b _ s l s' Ls Lt) in S as [[_ ->]|(Ks & E & Ls' & Sm)]; [csplit; auto; [now right|lia]|].
  assert (Ek : l_k s' = l_k s + 1) by (apply (f_equal r_k) in E; exact E). assert (Ee : l_e s' = l) by (apply (f_equal r_e) in E; exact E).
  csplit; auto; [|lia]. left. split; auto. split; auto. pose proof R as (G & _ & _ & _ & Re). cbn [lbase r_e] in Re.
  exists (xs ++ [l]). rewrite E. split; [|unfold rlen; rewrite last_app; cbn [last]; lia]. apply rep_next; auto. apply (rep_legal (lbase s) xs); auto. lia.
Qed.
Lemma mx_init : mx_live ml_init.
Proof.
  split; [now apply ml_live_init|]. split; [now vm_compute|]. exists []. split; [apply rep_init|]. change (0 <= M). lia.
Qed.
Lemma mx_closed : closed Q mx_inv.
Proof.
  assert (Z0 : forall s, mx_live s -> l_m s <> 0%N).
  { intros s (_ & _ & xs & (_ & Mm & _) & _) E. specialize (Mm 0). cbn [lbase r_m] in Mm. rewrite E, imem_0 in Mm. assert (false = true) by (apply Mm; now left). discriminate. }
  assert (EQ : forall a c, rulerL_eqb a c = true -> l_m a = l_m c) by (intros a c; unfold rulerL_eqb; rewrite !andb_true_iff, N.eqb_eq; tauto).
  assert (RF : forall a, rulerL_eqb a a = true) by (intros a; unfold rulerL_eqb; now rewrite !Z.eqb_refl, N.eqb_refl).
  constructor; cbn [ml_prob p_eqb p_eqs p_target].
  - intros a c Ia Ic. split; [|intros ->; auto]. intros E. apply EQ in E.
    destruct Ia as [La| ->], Ic as [Lc| ->]; auto.
    + now apply mx_uniq.
    + now apply Z0 in La.
    + symmetry in E. now apply Z0 in Lc.
  - intros s [((K & _) & _)| ->]; unfold ml_eqs; [|cbn; rewrite Z.eqb_refl; tauto]. split; [lia|]. intros ->. cbn in K. lia.
  - now right.
  - intros s l s' [Is| ->] N; [|now elim N]. intros Hl S. now apply (mx_step s l s').
Qed.
Lemma mx_acyclic : acyclic Q mx_inv lrank.
Proof.
  intros s l s' [Is| ->] N Hl S; [|now elim N]. pose proof Is as ((K & _) & _). apply (mx_step s l s' Is Hl) in S as (_ & [->|[E _]] & _); unfold lrank; cbn; lia.
Qed.
Lemma mx_range : in_range Q ml_init 0.
Proof.
  assert (G : forall s ls v t, path Q s ls v t -> mx_inv s -> v <= Z.max 0 (M - l_e s)).
  { induction 1 as [|s l s' ls v t N Hl S Hp IH]; intros Is; [lia|]. destruct Is as [Is| ->]; [|now elim N].
    pose proof (mx_step s l s' Is Hl S) as (I' & [->|[_ E]] & B).
    - assert (v = 0) as -> by (inversion Hp; subst; auto; exfalso; match goal with H : ml_target n L <> _ |- _ => now apply H end).
      cbn [ml_prob p_cost]. unfold ml_scf. lia.
    - specialize (IH I'). cbn [ml_prob p_cost]. unfold ml_scf. lia. }
  intros ls v s H. apply G in H; [|left; apply mx_init]. unfold bt, val, sentinel. cbn [ml_prob p_min]. cbn [ml_init l_e] in H. lia.
Qed.
Definition ml_of (s : ruler) : rulerL := mkRL (r_m s) (r_d s) (r_k s) (r_e s) (unused (S (N.size_nat (r_d s))) (r_d s) 1).
Definition ml_states : list rulerL := ml_target n L :: map (fun m => ml_of (ru_state m)) (masks (Z.to_nat (M + 1))).
Lemma in_ml_states s : mx_inv s -> In s ml_states.
Proof.
  intros [Ls| ->]; [right|now left]. pose proof Ls as (Lv & Sm & xs & R & B). pose proof Lv as (K & _ & _ & S1 & S2).
  assert (E : ex_inv n M (lbase s)) by (left; exists xs; csplit; auto; exact (proj2 K)).
  apply (in_ru_states n opt (mid_ub n L opt b) M HM Hub) in E. destruct E as [E|E].
  - exfalso. apply (f_equal r_k) in E. cbn in E. lia.
  - apply in_map_iff in E as (m & E & Hm). apply in_map_iff. exists m. split; auto. rewrite E. unfold ml_of, lbase. cbn [r_m r_d r_k r_e]. destruct s as [m1 d1 k1 e1 s1]. cbn [l_m l_d l_k l_e l_sm] in *. f_equal.
    destruct (unused_le (S (N.size_nat d1)) d1 1) as [U1 U2]. pose proof (unused_stops d1 1 ltac:(lia)) as U3. set (u := unused _ d1 1) in *.
    destruct (Z.lt_trichotomy u s1) as [H|[H|H]]; auto.
    + rewrite S2 in U3 by lia. discriminate.
    + rewrite U2 in Sm by lia. discriminate.
Qed.
Lemma mx_exact fuel primal : (2 ^ Z.to_nat (M + 1) + 1 <= fuel)%nat -> (exists ls v, path Q (p_init Q) ls v (p_target Q)) ->
  exists d nd, ex_compute Q fuel (initDefault Q (dd_empty Q true)) primal = Ok d /\ trg_node d = Ok nd /\
    path Q (p_init Q) (n_lab nd) (n_bound nd) (p_target Q) /\ (forall ls v, path Q (p_init Q) ls v (p_target Q) -> be Q (n_bound nd) v).
Proof.
  intros F X. apply (exact_best Q mx_inv lrank ml_states fuel primal); auto.
  - apply mx_closed.
  - apply mx_acyclic.
  - left. apply mx_init.
  - apply (ml_ne n L). cbn. lia.
  - apply mx_range.
  - intros s Hs _. now apply in_ml_states.
  - now left.
  - unfold ml_states. cbn [length]. rewrite map_length, masks_length. lia.
Qed.
End Exact.
