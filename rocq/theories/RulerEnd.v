(** Golomb ruler examples: solutions, diagrams, merging; the mirrored variants. *)
From Verif Require Import Base DDModel DDSpec DDFrame DDRestricted DDExact TspModel TspProofs RulerModel RulerSpec RulerProofs.
From Coq Require Import Sorting.Sorted Permutation.
Local Open Scope Z_scope.

Lemma nth_last (q : list Z) : forall l, nth (length q) (l :: q) 0 = last q l.
Proof.
  induction q as [|x q IH]; intros l; auto. change (nth (length (x :: q)) (l :: x :: q) 0) with (nth (length q) (x :: q) 0).
  rewrite IH. symmetry. apply last_cons.
Qed.

(** ** the limits on the labels never exclude a mark of a ruler that is short enough *)
Section Limits.
Variables (n L : Z) (opt : Z -> Z) (b : Z).
Hypothesis Hn : 2 <= n.
Hypothesis Ho : opt_valid opt n.

Lemma seg_opt zs p a q r : golomb zs -> 0 :: zs = p ++ (a :: q) ++ r -> Z.of_nat (length q) + 1 <= n -> opt (Z.of_nat (length q) + 1) <= last q a - a.
Proof.
  intros G E Le. destruct (golomb_seg zs p a q r G E) as [G2 <-]. apply (proj2 Ho); [lia|]. split; auto. rewrite map_length. lia.
Qed.
(** a mark of a ruler with n marks *)
Lemma mark_lb zs ys l ts : ruler_of n zs -> zs = ys ++ l :: ts -> ru_lb n opt 0 (1 + Z.of_nat (length ys)) <= l.
Proof.
  intros [G Len] E. assert (G1 : golomb (ys ++ [l])) by (apply (golomb_pre _ ts); rewrite <- app_assoc; cbn [app]; rewrite <- E; auto).
  pose proof (golomb_pre _ _ G1) as G0. assert (Lt : rlen ys < l).
  { destruct G1 as [S _]. rewrite app_comm_cons in S. apply inc_app in S as (_ & _ & S). apply S; [|now left]. apply last_in. }
  assert (Ll : Z.of_nat (length ys) + Z.of_nat (length ts) + 1 = n - 1) by (rewrite E, app_length in Len; cbn [length] in Len; lia).
  pose proof (golomb_tri _ G0) as T. cbn zeta in T. set (k := Z.of_nat (length ys)) in *.
  assert (T2 : (1 + k) * (1 + k - 1) / 2 <= l). { apply Z.div_le_upper_bound; lia. }
  pose proof (proj2 Ho (k + 2) (ys ++ [l])) as O1. pose proof (proj2 Ho (k + 1) ys) as O2.
  assert (R1 : ruler_of (k + 2) (ys ++ [l])) by (split; auto; rewrite app_length; cbn [length]; lia).
  assert (R2 : ruler_of (k + 1) ys) by (split; auto; lia).
  replace (rlen (ys ++ [l])) with l in O1 by (unfold rlen; now rewrite last_app).
  pose proof (golomb_le _ 0 G0 (or_introl eq_refl)) as Pos.
  unfold ru_lb. destruct (Z.ltb_spec (1 + k) (n - 1)).
  - replace (1 + k + 1) with (k + 2) by lia. specialize (O1 ltac:(lia) R1). lia.
  - replace (1 + k) with (k + 1) in * by lia. specialize (O2 ltac:(lia) R2). lia.
Qed.
Lemma mark_ub zs ys l ts : ruler_of n zs -> zs = ys ++ l :: ts -> l <= rlen zs - opt (n - (1 + Z.of_nat (length ys))).
Proof.
  intros [G Len] E. assert (Ll : Z.of_nat (length ys) + Z.of_nat (length ts) + 1 = n - 1) by (rewrite E, app_length in Len; cbn [length] in Len; lia).
  pose proof (seg_opt zs (0 :: ys) l ts [] G) as H. rewrite app_nil_r in H. cbn [app] in H. rewrite <- E in H. specialize (H eq_refl ltac:(lia)).
  replace (n - (1 + Z.of_nat (length ys))) with (Z.of_nat (length ts) + 1) by lia.
  replace (rlen zs) with (last ts l); [lia|]. rewrite E. unfold rlen. rewrite last_app, last_cons. reflexivity.
Qed.

(** gruler *)
Lemma ru_solutions ls v : path (ru_prob n L opt b) ru_init ls v (ru_target n) <-> ruler_of n ls /\ v = rlen ls /\ rlen ls <= b - 1 /\ rlen ls <= L + 1.
Proof.
  unfold ru_prob. rewrite gr_solutions by auto. split.
  - intros (R & W & ->). csplit; auto.
    all: destruct R as [G Len]; destruct ls as [|l ls _] using rev_ind; [cbn in Len; lia|];
      specialize (W ls l [] eq_refl) as [_ W]; rewrite app_length in Len; cbn [length] in Len;
      unfold rlen; rewrite last_app; cbn [last]; unfold ru_ub in W; replace (n - (1 + Z.of_nat (length ls))) with 1 in W by lia;
      pose proof (proj1 Ho 1 ltac:(lia)); lia.
  - intros (R & -> & B1 & B2). csplit; auto. intros ys l ts E. split; [eapply mark_lb; eauto|].
    pose proof (mark_ub _ _ _ _ R E). unfold ru_ub. lia.
Qed.

(** gruler_mid: the first half of the marks lies in the first half of the ruler *)
Definition half_ok (zs : list Z) : Prop := 2 * nth (Z.to_nat (n / 2) - 1) (0 :: zs) 0 <= rlen zs.
Lemma half_or_mirror zs : ruler_of n zs -> half_ok zs \/ half_ok (mirror zs).
Proof.
  intros [G Len]. unfold half_ok. set (h := Z.to_nat (n / 2)). assert (Hh : Z.of_nat h = n / 2) by (unfold h; rewrite Z2Nat.id; auto; apply Z.div_pos; lia).
  pose proof (Z.div_mod n 2 ltac:(lia)) as DM. pose proof (Z.mod_pos_bound n 2 ltac:(lia)) as MB.
  destruct (Z.le_gt_cases (2 * nth (h - 1) (0 :: zs) 0) (rlen zs)) as [|Gt]; auto. right.
  rewrite mirror_last, mirror_nth by lia. destruct (Nat.eq_dec (h - 1) (length zs - (h - 1))) as [E|E].
  - lia.
  - pose proof (inc_nth _ (proj1 G) (h - 1) (length zs - (h - 1)) 0 ltac:(cbn [length]; lia)). lia.
Qed.
Lemma mid_ub_le zs ys l ts : ruler_of n zs -> half_ok zs -> rlen zs <= b - 1 -> rlen zs <= L + 1 -> zs = ys ++ l :: ts ->
  l <= mid_ub n L opt b (1 + Z.of_nat (length ys)).
Proof.
  intros R HO B1 B2 E. pose proof (mark_ub _ _ _ _ R E) as U. destruct R as [G Len]. unfold mid_ub. destruct (Z.ltb_spec (1 + Z.of_nat (length ys)) (n / 2)) as [Lt|]; [|lia].
  assert (Ll : Z.of_nat (length ys) + Z.of_nat (length ts) + 1 = n - 1) by (rewrite E, app_length in Len; cbn [length] in Len; lia).
  pose proof (Z.div_mod n 2 ltac:(lia)) as DM. pose proof (Z.mod_pos_bound n 2 ltac:(lia)) as MB.
  set (h := Z.to_nat (n / 2)) in *. assert (Hh : Z.of_nat h = n / 2) by (unfold h; rewrite Z2Nat.id; auto; apply Z.div_pos; lia).
  (* the marks from l to mark h-1 *)
  set (j := (h - 2 - length ys)%nat). assert (Ej : 0 :: zs = (0 :: ys) ++ (l :: firstn j ts) ++ skipn j ts).
  { rewrite E. cbn [app]. now rewrite firstn_skipn. }
  assert (Lj : length (firstn j ts) = j) by (apply firstn_length_le; lia).
  pose proof (seg_opt zs _ _ _ _ G Ej ltac:(lia)) as Sg. rewrite Lj in Sg.
  assert (Nh : nth (h - 1) (0 :: zs) 0 = last (firstn j ts) l).
  { rewrite Ej. rewrite app_nth2 by (cbn [length]; lia). cbn [length]. replace (h - 1 - S (length ys))%nat with j by lia.
    rewrite app_nth1 by (cbn [length]; lia). pose proof (nth_last (firstn j ts) l) as NL. now rewrite Lj in NL. }
  unfold half_ok in HO. fold h in HO. rewrite Nh in HO. replace (n / 2 - (1 + Z.of_nat (length ys))) with (Z.of_nat j + 1) by lia.
  assert (last (firstn j ts) l <= b / 2) by (apply Z.div_le_lower_bound; lia).
  assert (last (firstn j ts) l <= (L + 1) / 2) by (apply Z.div_le_lower_bound; lia). lia.
Qed.
Lemma mid_last ls : ruler_of n ls -> within n opt (mid_ub n L opt b) 1 ls -> rlen ls <= b - 1 /\ rlen ls <= L + 1.
Proof.
  intros [G Len] W. destruct ls as [|l ls _] using rev_ind; [cbn in Len; lia|].
  specialize (W ls l [] eq_refl) as [_ W]. rewrite app_length in Len; cbn [length] in Len. unfold rlen; rewrite last_app; cbn [last].
  unfold mid_ub in W. pose proof (Z.div_mod n 2 ltac:(lia)) as DM. pose proof (Z.mod_pos_bound n 2 ltac:(lia)) as MB.
  destruct (Z.ltb_spec (1 + Z.of_nat (length ls)) (n / 2)); [lia|]. replace (n - (1 + Z.of_nat (length ls))) with 1 in W by lia.
  pose proof (proj1 Ho 1 ltac:(lia)). lia.
Qed.
Lemma mid_sound ls v : path (mid_prob n L opt b) ru_init ls v (ru_target n) -> ruler_of n ls /\ v = rlen ls /\ rlen ls <= b - 1 /\ rlen ls <= L + 1.
Proof. unfold mid_prob. rewrite gr_solutions by auto. intros (R & W & ->). csplit; auto; now apply (mid_last ls). Qed.
Lemma mid_half zs : ruler_of n zs -> rlen zs <= b - 1 -> rlen zs <= L + 1 -> half_ok zs -> path (mid_prob n L opt b) ru_init zs (rlen zs) (ru_target n).
Proof.
  intros R B1 B2 H. unfold mid_prob. apply gr_solutions; auto. csplit; auto. intros ys l ts E. split; [eapply mark_lb; eauto|]. eapply mid_ub_le; eauto.
Qed.
Lemma mid_complete zs : ruler_of n zs -> rlen zs <= b - 1 -> rlen zs <= L + 1 ->
  path (mid_prob n L opt b) ru_init zs (rlen zs) (ru_target n) \/ path (mid_prob n L opt b) ru_init (mirror zs) (rlen zs) (ru_target n).
Proof.
  intros R B1 B2. destruct (half_or_mirror zs R) as [H|H]; [left; now apply mid_half|right].
  rewrite <- (mirror_last zs). apply mid_half; auto using ruler_mirror; now rewrite mirror_last.
Qed.
End Limits.

Lemma gr_label n opt ub eqb s l : In l (p_labels (gr_prob n opt ub eqb) s) -> r_e s + 1 <= l <= ub (r_k s).
Proof. cbn [gr_prob p_labels]. unfold ru_lgf. rewrite in_closeInc. unfold ru_lb. destruct (_ <? _); lia. Qed.
Lemma gr_step n s l s' : ru_stf n s l = Some s' -> ru_illegal s l = false /\ (r_k s = n - 1 /\ s' = ru_target n \/ r_k s <> n - 1 /\ s' = ru_next s l).
Proof.
  unfold ru_stf. destruct (ru_illegal s l); [discriminate|]. destruct (Z.eqb_spec (r_k s) (n - 1)); intros [= <-]; auto.
Qed.

Definition rrank (s : ruler) : nat := Z.to_nat (r_k s).

(** ** the diagrams; [M] bounds the labels *)
Section Diagrams.
Variables (n : Z) (opt : Z -> Z).
Hypothesis Hn : 2 <= n.
Variable ub : Z -> Z.
Variable M : Z.
Hypothesis HM : 0 <= M < 2147483647.
Hypothesis Hub : forall k, 1 <= k < n -> ub k <= M.

(** the states of exact paths *)
Definition ex_live (s : ruler) : Prop := exists xs, rep s xs /\ r_k s < n /\ rlen xs <= M.
Definition ex_inv (s : ruler) : Prop := ex_live s \/ s = ru_target n.
Lemma rep_k s xs : rep s xs -> 1 <= r_k s.
Proof. intros (_ & _ & _ & K & _). lia. Qed.

Section Any.
Variable eqb : ruler -> ruler -> bool.
Notation P := (gr_prob n opt ub eqb).
Lemma ex_step s l s' : ex_live s -> In l (p_labels P s) -> p_stf P s l = Some s' -> ex_inv s'.
Proof.
  intros (xs & R & K & B) Hl S. apply gr_step in S as [IL [[Ks ->]|[Ks ->]]]; [now right|left].
  pose proof (gr_label _ _ _ _ s l Hl) as [L1 L2]. pose proof (rep_k s xs R) as K1. pose proof R as (G & _ & _ & _ & E). rewrite E in L1.
  apply (rep_legal s xs) in IL; auto; [|lia]. exists (xs ++ [l]). split; [now apply rep_next|]. split; [cbn; lia|].
  unfold rlen. rewrite last_app. cbn [last]. specialize (Hub (r_k s) ltac:(lia)). lia.
Qed.
Lemma ex_init : ex_live ru_init.
Proof. exists []. split; [apply rep_init|]. change (1 < n /\ 0 <= M). lia. Qed.
Lemma init_ne : p_init P <> p_target P.
Proof. apply (live_target n); change (1 < n); lia. Qed.
Lemma gr_acyclic : acyclic P ex_inv rrank.
Proof.
  intros s l s' Is N Hl S. destruct Is as [(xs & R & K & _)| ->]; [|now elim N]. pose proof (rep_k s xs R).
  apply gr_step in S as [_ [[_ ->]|[Ks ->]]]; unfold rrank; cbn; lia.
Qed.
(** the values telescope *)
Lemma gr_value s ls v t : path P s ls v t -> v = last ls (r_e s) - r_e s.
Proof.
  induction 1 as [|s l s' ls v t N Hl S Hp IH]; [cbn; lia|]. rewrite last_cons. cbn [gr_prob p_cost]. unfold ru_scf.
  apply gr_step in S as [_ [[_ ->]|[_ ->]]]; [|cbn [ru_next r_e] in IH; lia].
  inversion Hp; subst; [cbn; lia|]. exfalso. match goal with H : ru_target n <> _ |- _ => now apply H end.
Qed.
Lemma gr_labels_le s ls v t : path P s ls v t -> (s <> ru_target n -> 1 <= r_k s < n) -> forall l, In l ls -> l <= M.
Proof.
  induction 1 as [|s l s' ls v t N Hl S Hp IH]; intros K x Hx; [destruct Hx|]. specialize (K N). destruct Hx as [<-|Hx].
  - apply gr_label in Hl. specialize (Hub _ K). lia.
  - apply IH; auto. intros N'. apply gr_step in S as [_ [[_ ->]|[Ks ->]]]; [now elim N'|]. cbn. lia.
Qed.
Lemma gr_range : in_range P ru_init 0.
Proof.
  intros ls v s H. pose proof (gr_value _ _ _ _ H) as ->. unfold bt, val, sentinel. cbn [gr_prob p_min r_e ru_init].
  destruct (last_in ls 0) as [<-|Hi]; [cbn; lia|]. pose proof (gr_labels_le _ _ _ _ H) as B. specialize (B ltac:(cbn; lia) _ Hi). lia.
Qed.
End Any.

(** the equality of the code is right about states of exact paths *)
Lemma gr_closed : closed (gr_prob n opt ub ruler_eqb) ex_inv.
Proof.
  assert (Z0 : forall s xs, rep s xs -> r_m s <> 0%N).
  { intros s xs (_ & Mm & _) E. specialize (Mm 0). rewrite E, imem_0 in Mm. assert (false = true) by (apply Mm; now left). discriminate. }
  assert (EQ : forall a c, ruler_eqb a c = true -> r_m a = r_m c) by (intros a c; unfold ruler_eqb; rewrite !andb_true_iff, N.eqb_eq; tauto).
  assert (RF : forall a, ruler_eqb a a = true) by (intros a; unfold ruler_eqb; now rewrite !Z.eqb_refl, N.eqb_refl).
  constructor; cbn [gr_prob p_eqb p_eqs p_target].
  - intros a c Ia Ic. split; [|intros ->; auto]. intros E. apply EQ in E.
    destruct Ia as [(xs & Ra & _)| ->], Ic as [(ys & Rc & _)| ->]; auto.
    + eapply rep_uniq; eauto.
    + now apply Z0 in Ra.
    + symmetry in E. now apply Z0 in Rc.
  - intros s [(xs & R & K & _)| ->]; unfold ru_eqs; [|cbn; rewrite Z.eqb_refl; tauto]. split; [lia|]. intros ->. cbn in K. lia.
  - now right.
  - intros s l s' [Is| ->] N; [|now elim N]. now apply ex_step.
Qed.

(** exact diagrams *)
Definition ru_state (m : N) : ruler := fold_left ru_next (tl (members m)) ru_init.
Definition ru_states : list ruler := ru_target n :: map ru_state (masks (Z.to_nat (M + 1))).
Lemma rep_fold ls : forall s xs, rep s xs -> golomb (xs ++ ls) -> rep (fold_left ru_next ls s) (xs ++ ls).
Proof.
  induction ls as [|l ls IH]; intros s xs R G; [now rewrite app_nil_r|]. cbn [fold_left].
  replace (xs ++ l :: ls) with ((xs ++ [l]) ++ ls) in * by (now rewrite <- app_assoc). apply IH; auto. apply rep_next; auto. now apply golomb_pre in G.
Qed.
Lemma in_ru_states s : ex_inv s -> In s ru_states.
Proof.
  intros [(xs & R & _ & B)| ->]; [right|now left]. pose proof R as (G & Mm & _). apply in_map_iff. exists (r_m s). split.
  - assert (E : members (r_m s) = 0 :: xs) by (apply inc_eq; [apply inc_members|apply G|]; intros x; rewrite in_members; apply Mm).
    unfold ru_state. rewrite E. cbn [tl]. pose proof (rep_fold xs ru_init [] rep_init G) as R2. cbn [app] in R2.
    apply (rep_uniq _ _ xs xs R2 R). apply imem_ext. intros v. destruct R2 as (_ & M2 & _). rewrite M2, Mm. tauto.
  - apply in_masks. intros v Hv. assert (imem (r_m s) (Z.of_nat v) = true) as Hi by (apply imem_bmem; rewrite Nat2Z.id; split; [lia|auto]).
    apply Mm in Hi. pose proof (golomb_le _ _ G Hi). lia.
Qed.
Lemma gr_exact fuel primal : (2 ^ Z.to_nat (M + 1) + 1 <= fuel)%nat -> (exists ls, ruler_of n ls /\ within n opt ub 1 ls) ->
  exists d nd, ex_compute (gr_prob n opt ub ruler_eqb) fuel (initDefault (gr_prob n opt ub ruler_eqb) (dd_empty (gr_prob n opt ub ruler_eqb) true)) primal = Ok d /\
    trg_node d = Ok nd /\ ruler_of n (n_lab nd) /\ within n opt ub 1 (n_lab nd) /\ n_bound nd = rlen (n_lab nd) /\
    (forall ls, ruler_of n ls -> within n opt ub 1 ls -> n_bound nd <= rlen ls).
Proof.
  intros F (ls & R & W). destruct (exact_best (gr_prob n opt ub ruler_eqb) ex_inv rrank ru_states fuel primal) as (d & nd & E & T & S & B).
  - apply gr_closed.
  - reflexivity.
  - apply gr_acyclic.
  - left. apply ex_init.
  - apply init_ne.
  - apply gr_range.
  - intros s Hs _. now apply in_ru_states.
  - now left.
  - unfold ru_states. cbn [length]. rewrite map_length, masks_length. lia.
  - exists ls, (rlen ls). apply gr_solutions; auto.
  - exists d, nd. apply gr_solutions in S as (R1 & W1 & E1); auto. csplit; auto. intros ls' R' W'.
    assert (H : path (gr_prob n opt ub ruler_eqb) ru_init ls' (rlen ls') (ru_target n)) by (apply gr_solutions; auto). apply B in H. exact H.
Qed.

End Diagrams.

(** ** merging, with an equality that compares all fields *)
Section Merging.
Variables (n : Z) (opt : Z -> Z) (ub : Z -> Z).
Lemma gr_layered (I : ruler -> Prop) : (forall s, I s -> s <> ru_target n -> 1 <= r_k s) -> layered (gr_prob n opt ub ruler_eqb2) I rrank.
Proof.
  intros HI s l s' Is N Hl S N'. apply gr_step in S as [_ [[_ ->]|[Ks ->]]]; [now elim N'|]. specialize (HI s Is N). unfold rrank. cbn. lia.
Qed.
Notation P2 := (gr_prob n opt ub ruler_eqb2).
Definition rl_inv (s : ruler) : Prop := 1 <= r_k s < n \/ s = ru_target n.
(** c allows at least what a allows *)
Definition looser (c a : ruler) : Prop :=
  r_k c = r_k a /\ r_e c = r_e a /\ (forall v, imem (r_m c) v = true -> imem (r_m a) v = true) /\ (forall v, imem (r_d c) v = true -> imem (r_d a) v = true).
Lemma refl_mono l s s' v : (forall v, imem s v = true -> imem s' v = true) -> imem (refl l s) v = true -> imem (refl l s') v = true.
Proof.
  intros H. unfold refl, setOf. rewrite !setOf_gen, imem_0. intros [?|(A & w & Hw & E)]; [discriminate|]. right. split; auto. exists w. split; auto.
  apply in_map_iff in Hw as (i & <- & Hi). apply in_map_iff. exists i. split; auto. apply in_members. apply H. now apply in_members.
Qed.
Lemma looser_legal c a l : looser c a -> ru_illegal a l = false -> ru_illegal c l = false.
Proof.
  intros (_ & _ & H1 & H2) N. apply not_true_iff_false. intros C. apply illegal_spec in C as (i & A & B).
  assert (ru_illegal a l = true) by (apply illegal_spec; eauto). congruence.
Qed.
Lemma looser_next c a l : looser c a -> looser (ru_next c l) (ru_next a l).
Proof.
  intros (K & E & H1 & H2). unfold looser, ru_next. cbn [r_k r_e r_m r_d]. csplit; auto; [lia| |]; intros v; rewrite !imem_or; intros [H|H]; auto.
  left. eapply refl_mono; eauto.
Qed.
Lemma looser_paths eqb a ls v : path (gr_prob n opt ub eqb) a ls v (ru_target n) -> rl_inv a -> a <> ru_target n -> forall c, looser c a ->
  path (gr_prob n opt ub eqb) c ls v (ru_target n).
Proof.
  intros H. remember (ru_target n) as t eqn:Et. induction H as [s|s l s' ls v t N Hl S Hp IH]; intros Is Nt c LO; [congruence|subst t].
  destruct Is as [Is| ->]; [|congruence]. pose proof LO as (K & E & _ & _).
  assert (Ec : forall x, p_cost (gr_prob n opt ub eqb) s x = p_cost (gr_prob n opt ub eqb) c x) by (intros x; cbn; unfold ru_scf; lia).
  rewrite Ec. apply gr_step in S as [IL [[Ks ->]|[Ks ->]]].
  - eapply path_cons with (s' := ru_target n).
    + apply (live_target n); lia.
    + cbn [gr_prob p_labels] in *. unfold ru_lgf in *. now rewrite K, E.
    + cbn [gr_prob p_stf]. unfold ru_stf. rewrite (looser_legal _ _ _ LO IL). rewrite K, Ks, Z.eqb_refl. reflexivity.
    + exact Hp.
  - eapply path_cons with (s' := ru_next c l).
    + apply (live_target n); lia.
    + cbn [gr_prob p_labels] in *. unfold ru_lgf in *. now rewrite K, E.
    + cbn [gr_prob p_stf]. unfold ru_stf. rewrite (looser_legal _ _ _ LO IL). rewrite K. destruct (Z.eqb_spec (r_k s) (n - 1)); [congruence|reflexivity].
    + apply IH; auto using looser_next.
      * left. cbn. lia.
      * apply (live_target n); cbn; lia.
Qed.
Lemma merge_looser a c m : ru_smf a c = Some m -> looser m a /\ looser m c /\ r_k m = r_k a.
Proof.
  unfold ru_smf. destruct (_ && _) eqn:E; [|discriminate]. intros [= <-]. apply andb_true_iff in E as [E1 E2]. unfold looser. cbn [r_k r_e r_m r_d].
  csplit; try lia; intros v; rewrite imem_and; tauto.
Qed.
Lemma gr_valid : valid_model P2 rl_inv rrank (Z.to_nat n).
Proof.
  constructor.
  - constructor.
    + intros a c _ _. apply ruler_eqb2_eq.
    + intros s [H| ->]; cbn [gr_prob p_eqs p_target]; unfold ru_eqs; [|cbn; rewrite Z.eqb_refl; tauto]. split; [lia|]. intros ->. cbn in H. lia.
    + now right.
    + intros s l s' [H| ->] N; [|now elim N]. intros Hl S. apply gr_step in S as [_ [[_ ->]|[Ks ->]]]; [now right|left; cbn; lia].
  - apply gr_layered. intros s [H| ->] N; [lia|now elim N].
  - intros s [H| ->] N; [unfold rrank; lia|now elim N].
  - intros a c m [Ha| ->] Hc Na Nc E S; [|now elim Na]. cbn [gr_prob p_smf] in S. apply merge_looser in S as (_ & _ & K).
    csplit; [left; lia|apply (live_target n); lia|unfold rrank; lia].
  - intros a c m Ha Hc Na Nc E S. cbn [gr_prob p_smf] in S. apply merge_looser in S as (L1 & L2 & _).
    split; intros v (ls & Hp); exists v; (split; [|apply be_refl]); exists ls; eapply looser_paths; eauto.
  - intros sdom a c H. discriminate.
  - intros sdom a s l H. discriminate.
  - intros local s ctx v H. discriminate.
Qed.
End Merging.
