(** The four TSP examples as instances. *)
From Verif Require Import Base DDModel DDSpec DDFrame DDMerge DDExact DDWide SearchModel SearchProofs TspModel TspSpec TspProofs TourModel TourSpec TourBound TourProofs.

(** ** sizes of sets of cities *)
Section Sizes.
Variable nv : nat.
Lemma bl_incl a b : (forall c, c < nv -> bmem a c = true -> bmem b c = true) -> length (blist nv a) <= length (blist nv b).
Proof. intros H. apply NoDup_incl_length; [apply nodup_blist|]. intros c Hc. apply in_blist in Hc as [? ?]. apply in_blist. auto. Qed.
Lemma bl_add a c : length (blist nv (badd a c)) <= S (length (blist nv a)).
Proof.
  change (S (length (blist nv a))) with (length (c :: blist nv a)). apply NoDup_incl_length; [apply nodup_blist|]. intros x Hx. apply in_blist in Hx as [H1 H2].
  rewrite bmem_add in H2. destruct (Nat.eqb_spec c x); [now left|right]. apply in_blist. auto.
Qed.
Lemma bl_new a c : c < nv -> bmem a c = false -> length (blist nv (badd a c)) = S (length (blist nv a)).
Proof.
  intros L H. apply Nat.le_antisymm; [apply bl_add|]. change (S (length (blist nv a))) with (length (c :: blist nv a)). apply NoDup_incl_length.
  - constructor; [|apply nodup_blist]. rewrite in_blist. intros [_ Q]. congruence.
  - intros x Hx. apply in_blist. rewrite bmem_add. destruct (Nat.eqb_spec c x) as [<-|N]; [auto|]. destruct Hx as [->|Hx]; [congruence|]. apply in_blist in Hx. tauto.
Qed.
Lemma bl_eq a b : (forall c, bmem a c = true -> bmem b c = true) -> (forall c, bmem b c = true -> c < nv) -> length (blist nv b) <= length (blist nv a) -> a = b.
Proof.
  intros H1 H2 L. apply bmem_ext. intros c. destruct (bmem a c) eqn:A; [symmetry; auto|]. destruct (bmem b c) eqn:B; auto.
  assert (incl (blist nv b) (blist nv a)) as I1.
  { apply NoDup_length_incl; auto; [apply nodup_blist|]. intros x Hx. apply in_blist in Hx as [? ?]. apply in_blist. auto. }
  assert (In c (blist nv a)) as Q by (apply I1, in_blist; auto). apply in_blist in Q. destruct Q. congruence.
Qed.
Lemma bl_sing : length (blist nv (badd 0 0)) <= 1.
Proof. pose proof (bl_add 0 0). assert (blist nv 0 = []) as E. { unfold blist. induction (seq 0 nv) as [|x l IH]; cbn [filter]; [auto|]. now rewrite bmem_0. } rewrite E in H. exact H. Qed.
End Sizes.

Lemma here_step nv A e h c : here nv A e h -> h < nv - 1 -> c < nv -> bmem A c = false -> here nv (badd A c) c (S h).
Proof.
  intros [H1 H2 H3 H4 H5 H6] T C F. assert (c <> 0) by (intros ->; congruence). constructor.
  - intros x. rewrite bmem_add. destruct (Nat.eqb_spec c x); [subst; auto|apply H1].
  - rewrite bmem_add, H2. apply orb_true_r.
  - rewrite bmem_add, Nat.eqb_refl. auto.
  - lia.
  - lia.
  - pose proof (bl_add nv A c). lia.
Qed.
Lemma here_init nv : 1 <= nv -> here nv (badd 0 0) 0 0.
Proof.
  intros H. constructor; auto; try lia.
  - intros c. rewrite bmem_add, bmem_0. destruct (Nat.eqb_spec 0 c); [lia|discriminate].
  - pose proof (bl_sing nv). lia.
Qed.
Lemma here_meet nv A B e h : here nv A e h -> here nv B e h -> here nv (N.land A B) e h.
Proof.
  intros [H1 H2 H3 H4 H5 H6] [G1 G2 G3 G4 G5 G6]. constructor; auto.
  - intros c. rewrite bmem_and, andb_true_iff. intros [? _]. auto.
  - now rewrite bmem_and, H2, G2.
  - now rewrite bmem_and, H3, G3.
  - eapply Nat.le_trans; [|exact H6]. apply bl_incl. intros c _. rewrite bmem_and, andb_true_iff. tauto.
Qed.
Lemma in_free nv s c : In c (blist nv (N.ldiff (bfull nv) s)) <-> c < nv /\ bmem s c = false.
Proof.
  rewrite in_blist, bmem_diff, bmem_full. split; intros [H1 H2]; split; auto.
  - apply andb_true_iff in H2 as [_ H2]. now apply negb_true_iff in H2.
  - rewrite H2. cbn. rewrite andb_true_r. now apply Nat.ltb_lt.
Qed.

(** ** tsp_test2.cpp, tsp_test4.cpp, tsptw.cpp *)
Section Tz.
Variables (nv : nat) (d : nat -> nat -> Z) (mc : tsp -> tsp -> bool) (lb : N -> nat -> nat -> res Z) (junk : Z).
Hypothesis Hnv : 1 <= nv.
Definition tz_live (s : tsp) : Prop := here nv (t_s s) (t_e s) (t_h s).
Definition tz_sup (m s : tsp) : Prop := t_e m = t_e s /\ t_h m = t_h s /\ forall c, bmem (t_s m) c = true -> bmem (t_s s) c = true.
Definition tz_fr (s : tsp) (c : nat) : Prop := bmem (t_s s) c = false.
Definition tz_stp (s : tsp) (c : nat) : tsp := mkTsp (badd (t_s s) c) c (S (t_h s)).
Definition tz_all : list tsp := map (fun x => mkTsp (fst (fst x)) (snd (fst x)) (snd x)) (list_prod (list_prod (masks nv) (seq 0 nv)) (seq 0 nv)).
Lemma tz_shape : tshape nv d (tz_prob nv d mc (Some (fun s _ => or_junk junk (lb (t_s s) (t_e s) (t_h s))))) tz_live (fun _ => True) tz_sup t_s t_e t_h tz_fr tz_stp lb junk tz_all.
Proof.
  constructor; try reflexivity.
  - apply tsp_eqb_eq.
  - intros s [_ _ _ H _ _]. cbn [tz_prob p_eqs]. unfold tz_eqs. destruct (Nat.eqb_spec (t_h s) nv); [lia|apply andb_false_r].
  - cbn. now rewrite Nat.eqb_refl.
  - auto.
  - now apply here_init.
  - intros c N. unfold tz_fr. cbn [tz_prob p_init tz_init t_s]. rewrite bmem_add, bmem_0. destruct (Nat.eqb_spec 0 c); [congruence|auto].
  - intros s l L. cbn [tz_prob p_labels]. unfold tz_lgf. pose proof (hr_h _ _ _ _ L) as Hh. destruct (Z.leb_spec (Z.of_nat nv - 1) (Z.of_nat (t_h s))).
    + cbn. split; [intros [<-|[]]; left; lia|]. intros [[_ ->]|[? _]]; [auto|lia].
    + rewrite in_map_iff. split.
      * intros (c & <- & Hc). apply in_free in Hc as [? ?]. right. split; [lia|]. exists c. auto.
      * intros [[? _]|(_ & c & -> & C1 & C2)]; [lia|]. exists c. split; auto. apply in_free. auto.
  - intros s c _ F. exact F.
  - intros s c N. cbn [tz_prob p_stf]. unfold tz_stf. destruct (Z.eqb_spec (Z.of_nat c) 0); [lia|]. rewrite Nat2Z.id. reflexivity.
  - intros s c L T C F. csplit; auto; [exact (here_step nv _ _ _ c L T C F)|]. intros x. unfold tz_fr, tz_stp. cbn [t_s]. rewrite bmem_add. intros Q. apply orb_false_iff in Q as [Q1 Q2].
    apply Nat.eqb_neq in Q1. auto.
  - intros s c _ L T C F. split; auto. intros x. unfold tz_fr, tz_stp. cbn [t_s]. rewrite bmem_add. intros -> N. destruct (Nat.eqb_spec c x); [congruence|auto].
  - intros m s Lm Ls (E1 & E2 & S). csplit; auto. intros c T C F. unfold tz_fr in *. assert (F' : bmem (t_s m) c = false) by (destruct (bmem (t_s m) c) eqn:B; auto; apply S in B; congruence).
    split; auto. unfold tz_sup, tz_stp. cbn [t_e t_h t_s]. csplit; auto. intros x. rewrite !bmem_add. destruct (c =? x); cbn; auto.
  - intros a b m La Lb E. cbn [tz_prob p_smf] in E. unfold tz_smf in E. destruct (Nat.eqb_spec (t_e a) (t_e b)) as [E1|]; [|discriminate].
    destruct (Nat.eqb_spec (t_h a) (t_h b)) as [E2|]; [|discriminate]. destruct (mc a b); [|discriminate]. injection E as <-. unfold tz_live, tz_sup in *. cbn [t_s t_e t_h]. csplit; auto.
    + apply here_meet; auto. now rewrite E1, E2.
    + intros c. rewrite bmem_and, andb_true_iff. tauto.
    + intros c. rewrite bmem_and, andb_true_iff. tauto.
  - intros s [H1 H2 H3 H4 H5 H6]. apply in_map_iff. exists (t_s s, t_e s, t_h s). split; [now destruct s|].
    apply in_prod; [apply in_prod|]; [now apply in_masks|apply in_seq; apply H1 in H3; lia|apply in_seq; lia].
Qed.
Lemma tz_all_len : length tz_all = 2 ^ nv * nv * nv.
Proof. unfold tz_all. now rewrite map_length, !prodlen, masks_length, !seq_length. Qed.
End Tz.

(** ** tsp_test3.cpp *)
Section T3.
Variables (nv : nat) (d : nat -> nat -> Z) (lb : N -> nat -> nat -> res Z) (junk : Z).
Hypothesis Hnv : 1 <= nv.
Record t3_live (s : tsp3) : Prop := {
  l3_here : here nv (u_A s) (u_e s) (u_h s);
  l3_sub : forall c, bmem (u_A s) c = true -> bmem (u_S s) c = true;
  l3_S : forall c, bmem (u_S s) c = true -> c < nv;
  l3_sz : u_h s + 1 <= length (blist nv (u_S s)) }.
Definition t3_exact (s : tsp3) : Prop := u_A s = u_S s /\ length (blist nv (u_S s)) = u_h s + 1.
Definition t3_sup (m s : tsp3) : Prop :=
  u_e m = u_e s /\ u_h m = u_h s /\ (forall c, bmem (u_A m) c = true -> bmem (u_A s) c = true) /\ (forall c, bmem (u_S s) c = true -> bmem (u_S m) c = true).
Definition t3_fr (s : tsp3) (c : nat) : Prop := bmem (if length (blist nv (u_S s)) =? u_h s + 1 then u_S s else u_A s) c = false.
Definition t3_stp (s : tsp3) (c : nat) : tsp3 := mkTsp3 (badd (u_A s) c) (badd (u_S s) c) c (S (u_h s)).
Definition t3_all : list tsp3 := map (fun x => mkTsp3 (fst (fst (fst x))) (snd (fst (fst x))) (snd (fst x)) (snd x)) (list_prod (list_prod (list_prod (masks nv) (masks nv)) (seq 0 nv)) (seq 0 nv)).
Lemma tsp3_eqb_eq a b : tsp3_eqb a b = true <-> a = b.
Proof.
  unfold tsp3_eqb. rewrite !andb_true_iff, !Nat.eqb_eq, !N.eqb_eq. destruct a, b; cbn. split; [intros [[[? ?] ?] ?]; congruence|intros [= ? ? ? ?]; auto].
Qed.
Lemma fr_A s c : t3_live s -> t3_fr s c -> bmem (u_A s) c = false.
Proof.
  intros L. unfold t3_fr. destruct (_ =? _); auto. intros F. destruct (bmem (u_A s) c) eqn:B; auto. apply (l3_sub _ L) in B. congruence.
Qed.
Lemma t3_shape : tshape nv d (t3_prob nv d (Some (fun s _ => or_junk junk (lb (u_A s) (u_e s) (u_h s))))) t3_live t3_exact t3_sup u_A u_e u_h t3_fr t3_stp lb junk t3_all.
Proof.
  constructor; try reflexivity.
  - apply tsp3_eqb_eq.
  - intros s [[_ _ _ H _ _] _ _ _]. cbn [t3_prob p_eqs]. unfold t3_eqs. destruct (Nat.eqb_spec (u_h s) nv); [lia|apply andb_false_r].
  - cbn. now rewrite Nat.eqb_refl.
  - intros s L. apply (l3_here _ L).
  - pose proof (here_init nv Hnv) as H. constructor; cbn [t3_prob p_init t3_init u_A u_S u_e u_h]; auto.
    + apply (hr_A _ _ _ _ H).
    + assert (In 0 (blist nv (badd 0 0))) as Q by (apply in_blist; split; auto). destruct (blist nv (badd 0 0)); [destruct Q|cbn; lia].
  - split; auto. cbn [t3_prob p_init t3_init u_S u_h]. assert (In 0 (blist nv (badd 0 0))) as Q by (apply in_blist; split; auto). pose proof (bl_sing nv).
    destruct (blist nv (badd 0 0)); [destruct Q|cbn in *; lia].
  - intros c N. unfold t3_fr. cbn [t3_prob p_init t3_init u_S u_A u_h]. destruct (_ =? _); rewrite bmem_add, bmem_0; (destruct (Nat.eqb_spec 0 c); [congruence|auto]).
  - intros s l L. cbn [t3_prob p_labels]. unfold t3_lgf, t3_fr. pose proof (hr_h _ _ _ _ (l3_here _ L)) as Hh. destruct (Z.leb_spec (Z.of_nat nv - 1) (Z.of_nat (u_h s))).
    + cbn. split; [intros [<-|[]]; left; lia|]. intros [[_ ->]|[? _]]; [auto|lia].
    + destruct (length (blist nv (u_S s)) =? u_h s + 1); rewrite in_map_iff; split;
       try (intros (c & <- & Hc); apply in_free in Hc as [? ?]; right; split; [lia|]; exists c; auto; fail);
       (intros [[? _]|(_ & c & -> & C1 & C2)]; [lia|]; exists c; split; auto; apply in_free; auto).
  - apply fr_A.
  - intros s c N. cbn [t3_prob p_stf]. unfold t3_stf. destruct (Z.eqb_spec (Z.of_nat c) 0); [lia|]. rewrite Nat2Z.id. reflexivity.
  - intros s c L T C F. pose proof (fr_A s c L F) as FA. destruct L as [L1 L2 L3 L4].
    assert (Sz : u_h s + 2 <= length (blist nv (badd (u_S s) c))).
    { unfold t3_fr in F. destruct (Nat.eqb_spec (length (blist nv (u_S s))) (u_h s + 1)) as [E|E].
      - rewrite bl_new by auto. lia.
      - assert (length (blist nv (u_S s)) <= length (blist nv (badd (u_S s) c))); [|lia]. apply bl_incl. intros x _ Q. rewrite bmem_add, Q. apply orb_true_r. }
    csplit; auto.
    + constructor; unfold t3_stp; cbn [u_A u_S u_e u_h].
      * exact (here_step nv _ _ _ c L1 T C FA).
      * intros x. rewrite !bmem_add. destruct (c =? x); cbn; auto.
      * intros x. rewrite bmem_add. destruct (Nat.eqb_spec c x); [subst; auto|apply L3].
      * lia.
    + intros x. unfold t3_fr, t3_stp in *. cbn [u_A u_S u_e u_h]. destruct (Nat.eqb_spec (length (blist nv (u_S s))) (u_h s + 1)) as [E|E].
      * rewrite bl_new by auto. replace (S (length (blist nv (u_S s))) =? S (u_h s) + 1) with true by lia. rewrite bmem_add. intros Q. apply orb_false_iff in Q as [Q1 Q2].
        apply Nat.eqb_neq in Q1. auto.
      * destruct (_ =? _); rewrite bmem_add; intros Q; apply orb_false_iff in Q as [Q1 Q2]; apply Nat.eqb_neq in Q1; split; auto.
        destruct (bmem (u_A s) x) eqn:B; auto. apply L2 in B. congruence.
  - intros s c [X1 X2] L T C F. unfold t3_fr, t3_exact, t3_stp in *. cbn [u_A u_S u_e u_h]. rewrite X2, Nat.eqb_refl in F. rewrite bl_new by auto. csplit.
    + now rewrite X1.
    + lia.
    + intros x. rewrite X2, Nat.eqb_refl. replace (S (u_h s + 1) =? S (u_h s) + 1) with true by lia. rewrite bmem_add. intros -> N. destruct (Nat.eqb_spec c x); [congruence|auto].
  - intros m s Lm Ls (E1 & E2 & S1 & S2). csplit; auto. intros c T C F. pose proof (fr_A s c Ls F) as FA. split.
    + unfold t3_fr in *. destruct (Nat.eqb_spec (length (blist nv (u_S m))) (u_h m + 1)) as [E|E].
      * assert (Eq : u_S s = u_S m). { apply (bl_eq nv); auto; [apply (l3_S _ Lm)|]. pose proof (l3_sz _ Ls). lia. }
        rewrite Eq, E2 in *. rewrite E, Nat.eqb_refl in F. exact F.
      * destruct (bmem (u_A m) c) eqn:B; auto. apply S1 in B. congruence.
    + unfold t3_sup, t3_stp. cbn [u_A u_S u_e u_h]. csplit; auto; intros x; rewrite !bmem_add; destruct (c =? x); cbn; auto.
  - intros a b m La Lb E. cbn [t3_prob p_smf] in E. unfold t3_smf in E. destruct (Nat.eqb_spec (u_e a) (u_e b)) as [E1|]; [|discriminate].
    destruct (Nat.eqb_spec (u_h a) (u_h b)) as [E2|]; [|discriminate]. injection E as <-. destruct La as [A1 A2 A3 A4], Lb as [B1 B2 B3 B4]. csplit; auto.
    + constructor; cbn [u_A u_S u_e u_h].
      * apply here_meet; auto. now rewrite E1, E2.
      * intros c. rewrite bmem_and, bmem_or, andb_true_iff. intros [Q _]. now rewrite A2.
      * intros c. rewrite bmem_or, orb_true_iff. intros [Q|Q]; auto.
      * eapply Nat.le_trans; [exact A4|]. apply bl_incl. intros c _ Q. now rewrite bmem_or, Q.
    + unfold t3_sup. cbn [u_A u_S u_e u_h]. csplit; auto; intros c; rewrite ?bmem_and, ?bmem_or, ?andb_true_iff; [tauto|]. now intros ->.
    + unfold t3_sup. cbn [u_A u_S u_e u_h]. csplit; auto; intros c; rewrite ?bmem_and, ?bmem_or, ?andb_true_iff; [tauto|]. intros ->. apply orb_true_r.
  - intros s [[H1 H2 H3 H4 H5 H6] L2 L3 L4]. apply in_map_iff. exists (u_A s, u_S s, u_e s, u_h s). split; [now destruct s|].
    apply in_prod; [apply in_prod; [apply in_prod|]|]; [now apply in_masks|now apply in_masks|apply in_seq; apply H1 in H3; lia|apply in_seq; lia].
Qed.
Lemma t3_all_len : length t3_all = 2 ^ nv * 2 ^ nv * nv * nv.
Proof. unfold t3_all. now rewrite map_length, !prodlen, masks_length, !seq_length. Qed.
End T3.

(** ** the bounds *)
Section Lbs.
Variables (nv : nat) (d : nat -> nat -> Z).
Hypothesis Hnv : 1 <= nv.
Hypothesis Small : (Z.of_nat nv <= 2147483647)%Z.
Definition lb4 (A : N) (e h : nat) : res Z := do a <- mst nv d true A e h ; do b <- greedy nv d imax A e h ; Ok (Z.max a b).
Lemma lb_mst : lbound nv d (mst nv d false).
Proof.
  constructor.
  - intros A e. exists UB. now apply mst_root.
  - intros A e. apply mst_home.
  - intros A e h. now apply mst_ok.
Qed.
Lemma lb_greedy inf : lbound nv d (greedy nv d inf).
Proof.
  constructor.
  - intros A e. exists UB. now apply greedy_root.
  - intros A e. apply greedy_home.
  - intros A e h. now apply greedy_ok.
Qed.
Lemma lb_both : lbound nv d lb4.
Proof.
  constructor; unfold lb4.
  - intros A e. exists UB. destruct (mst_root_guard nv d Hnv Small A e) as [v ->]. cbn [bind]. now rewrite greedy_root.
  - intros A e. now rewrite mst_home, greedy_home.
  - intros A e h H Hh. destruct (mst_ok nv d Hnv Small true A e h H Hh) as (a & -> & Ba). destruct (greedy_ok nv d Hnv imax A e h H Hh) as (b & -> & Bb). cbn [bind].
    exists (Z.max a b). split; auto. intros post HM. specialize (Ba post HM). specialize (Bb post HM). lia.
Qed.
End Lbs.

(** ** the four programs *)
Inductive tprogram (nv : nat) (d : nat -> nat -> Z) (junk : Z) : forall {St}, prob St -> nat -> Prop :=
| tp_2 : tprogram nv d junk (t2_prob nv d junk) (2 ^ nv * nv * nv)
| tp_3 : tprogram nv d junk (t3_probj nv d junk) (2 ^ nv * 2 ^ nv * nv * nv)
| tp_4 : tprogram nv d junk (t4_prob nv d junk) (2 ^ nv * nv * nv)
| tp_w : tprogram nv d junk (tw_prob nv d junk) (2 ^ nv * nv * nv).
Lemma tp_shape nv d junk {St} (P : prob St) n : 1 <= nv -> (Z.of_nat nv <= 2147483647)%Z -> tprogram nv d junk P n ->
  exists live exact sup av ev hv fr stp lb all, tshape nv d P live exact sup av ev hv fr stp lb junk all /\ lbound nv d lb /\ length all = n.
Proof.
  intros H1 H2 [].
  - exists (tz_live nv), (fun _ => True), tz_sup, t_s, t_e, t_h, tz_fr, tz_stp, (mst nv d false), (tz_all nv).
    csplit; [exact (tz_shape nv d (fun _ _ => true) (mst nv d false) junk H1)|now apply lb_mst|apply tz_all_len].
  - exists (t3_live nv), (t3_exact nv), t3_sup, u_A, u_e, u_h, (t3_fr nv), t3_stp, (greedy nv d dmax), (t3_all nv).
    csplit; [exact (t3_shape nv d (greedy nv d dmax) junk H1)|now apply lb_greedy|apply t3_all_len].
  - exists (tz_live nv), (fun _ => True), tz_sup, t_s, t_e, t_h, tz_fr, tz_stp, (lb4 nv d), (tz_all nv).
    csplit; [exact (tz_shape nv d (near5 nv) (lb4 nv d) junk H1)|now apply lb_both|apply tz_all_len].
  - exists (tz_live nv), (fun _ => True), tz_sup, t_s, t_e, t_h, tz_fr, tz_stp, (greedy nv d imax), (tz_all nv).
    csplit; [exact (tz_shape nv d (fun _ _ => true) (greedy nv d imax) junk H1)|now apply lb_greedy|apply tz_all_len].
Qed.
