(** The TSP example: its closures are valid and its solutions are the tours. *)
From Verif Require Import Base DDModel DDSpec DDFrame DDRestricted DDExact SearchModel SearchProofs TspModel TspSpec.
From Coq Require Import NArith Nnat.

(** ** bit masks *)
Lemma bmem_add s v w : bmem (badd s v) w = (v =? w) || bmem s w.
Proof.
  unfold bmem, badd. rewrite N.setbit_eqb. f_equal. destruct (N.eqb_spec (N.of_nat v) (N.of_nat w)), (Nat.eqb_spec v w); auto; lia.
Qed.
Lemma bmem_del s v w : bmem (bdel s v) w = bmem s w && negb (v =? w).
Proof.
  unfold bmem, bdel. rewrite N.clearbit_eqb. do 2 f_equal. destruct (N.eqb_spec (N.of_nat v) (N.of_nat w)), (Nat.eqb_spec v w); auto; lia.
Qed.
Lemma bmem_full n v : bmem (bfull n) v = (v <? n).
Proof.
  unfold bmem, bfull. destruct (Nat.ltb_spec v n).
  - apply N.ones_spec_low. lia.
  - apply N.ones_spec_high. lia.
Qed.
Lemma bmem_0 v : bmem 0 v = false.
Proof. apply N.bits_0. Qed.
Lemma bmem_or a b v : bmem (N.lor a b) v = bmem a v || bmem b v.
Proof. apply N.lor_spec. Qed.
Lemma bmem_and a b v : bmem (N.land a b) v = bmem a v && bmem b v.
Proof. apply N.land_spec. Qed.
Lemma bmem_diff a b v : bmem (N.ldiff a b) v = bmem a v && negb (bmem b v).
Proof. apply N.ldiff_spec. Qed.
Lemma bmem_ext a b : (forall v, bmem a v = bmem b v) -> a = b.
Proof.
  intros H. apply N.bits_inj. intros k. specialize (H (N.to_nat k)). unfold bmem in H. now rewrite N2Nat.id in H.
Qed.
Lemma in_blist n s v : In v (blist n s) <-> v < n /\ bmem s v = true.
Proof. unfold blist. rewrite filter_In, in_seq. intuition lia. Qed.

(** masks below n *)
Definition masks (n : nat) : list N := map N.of_nat (seq 0 (2 ^ n)).
Lemma in_masks n s : (forall v, bmem s v = true -> v < n) -> In s (masks n).
Proof.
  intros H. unfold masks. apply in_map_iff. exists (N.to_nat s). split; [apply N2Nat.id|]. apply in_seq. split; [lia|]. cbn [plus].
  assert (s = N.land s (N.ones (N.of_nat n))) as E.
  { apply bmem_ext. intros v. rewrite bmem_and. change (N.ones (N.of_nat n)) with (bfull n). rewrite bmem_full.
    destruct (bmem s v) eqn:B; auto. apply H in B. symmetry. cbn. now apply Nat.ltb_lt. }
  rewrite N.land_ones in E.
  assert (s < 2 ^ N.of_nat n)%N. { rewrite E. apply N.mod_lt. apply N.pow_nonzero. lia. }
  assert (N.to_nat (2 ^ N.of_nat n)%N = 2 ^ n) as <-; [|lia]. rewrite N2Nat.inj_pow. now rewrite Nat2N.id.
Qed.
Lemma masks_length n : length (masks n) = 2 ^ n.
Proof. unfold masks. now rewrite map_length, seq_length. Qed.

(** ** exact diagrams in terms of solutions only *)
Lemma exact_best {St} (P : prob St) (I : St -> Prop) m (L : list St) fuel primal :
  closed P I -> p_local P = None -> acyclic P I m -> I (p_init P) -> p_init P <> p_target P -> in_range P (p_init P) 0 ->
  (forall s, I s -> (exists ls v, path P (p_init P) ls v s) -> In s L) -> In (p_target P) L -> length L <= fuel ->
  (exists ls v, path P (p_init P) ls v (p_target P)) ->
  exists d n, ex_compute P fuel (initDefault P (dd_empty P true)) primal = Ok d /\ trg_node d = Ok n /\
    path P (p_init P) (n_lab n) (n_bound n) (p_target P) /\ (forall ls v, path P (p_init P) ls v (p_target P) -> be P (n_bound n) v).
Proof.
  intros CL NL AC Ii Ni Rg HL HT F X. pose proof (started_default P true) as ST.
  assert (Ipath : forall s ls v t, path P s ls v t -> I s -> I t).
  { intros s ls v t Hp. induction Hp; intros; auto. apply IHHp. eapply cl_step; eauto. }
  destruct (exact_terminates P I CL NL m AC (p_init P) 0 [] Ni Ii _ fuel primal L ST) as [d E]; auto.
  { intros ls v s Hp. apply HL; eauto. }
  destruct (exact_ok P I CL NL m AC (p_init P) 0 [] Ni Ii Rg _ fuel primal d ST E) as (T & A & B & C & D & _).
  assert (X' : exists V, solution P (p_init P) 0 V).
  { destruct X as (ls & v & Hp). exists v, v. split; [exists ls; auto|lia]. }
  exists d, (d_nd d 1). split; auto. split; [unfold trg_node; now rewrite T|].
  destruct (D X') as (ls & v & El & Ev & Pt). cbn in El. subst ls. rewrite Ev. cbn [Z.add]. split; auto.
  intros ls w Hw. assert (Q : solution P (p_init P) 0 w) by (exists w; split; [exists ls; auto|lia]).
  apply C in Q. now rewrite Ev in Q.
Qed.

(** ** the example *)
Lemma tsp_eqb_eq a b : tsp_eqb a b = true <-> a = b.
Proof.
  unfold tsp_eqb. rewrite !andb_true_iff, !Nat.eqb_eq, N.eqb_eq. destruct a, b; cbn. split; [intros [[? ?] ?]; congruence|intros [= ? ? ?]; auto].
Qed.

Section T.
Variables (nv : nat) (d : nat -> nat -> Z).
Hypothesis Hnv : 2 <= nv.
Notation P := (tsp_prob nv d).

(** reachable states and their merges *)
Definition tsp_live (s : tsp) : Prop :=
  t_h s < nv /\ t_e s < nv /\ (forall c, bmem (t_s s) c = true -> c < nv /\ c <> 1) /\ (t_e s <> 1 -> bmem (t_s s) (t_e s) = true).
Definition tsp_inv (s : tsp) : Prop := tsp_live s \/ s = tsp_target nv.

Lemma tsp_split s : tsp_inv s -> s <> p_target P -> tsp_live s.
Proof. cbn. intros [?|?]; tauto. Qed.
Lemma live_ne s : tsp_live s -> s <> p_target P.
Proof. intros [H _] ->. cbn in H. lia. Qed.

Lemma tsp_labels s l : tsp_live s -> (In l (p_labels P s) <->
  (t_h s = nv - 1 /\ l = 1%Z) \/ (t_h s < nv - 1 /\ exists c, l = Z.of_nat c /\ c < nv /\ c <> 1 /\ bmem (t_s s) c = false)).
Proof.
  intros (L1 & L2 & L3 & L4). cbn [tsp_prob p_labels]. unfold tsp_lgf. destruct (Z.leb_spec (Z.of_nat nv - 1) (Z.of_nat (t_h s))).
  - cbn. split; [intros [<-|[]]; left; lia|]. intros [[_ ->]|[? _]]; [auto|lia].
  - rewrite in_map_iff. split.
    + intros (c & <- & Hc). apply in_blist in Hc as [Hc1 Hc2]. right. split; [lia|]. exists c.
      rewrite !bmem_del, bmem_diff in Hc2. rewrite !andb_true_iff, !negb_true_iff in Hc2. destruct Hc2 as [[[_ Q1] Q2] Q3].
      apply Nat.eqb_neq in Q2, Q3. auto.
    + intros [[? _]|[_ (c & -> & C1 & C2 & C3)]]; [lia|]. exists c. split; auto. apply in_blist. split; auto.
      unfold tsp_C. rewrite !bmem_del, bmem_diff, bmem_full, C3. rewrite !andb_true_iff, !negb_true_iff, Nat.ltb_lt, !Nat.eqb_neq. csplit; auto.
      intros E. assert (t_e s <> 1) as N by congruence. specialize (L4 N). congruence.
Qed.

Lemma tsp_step s c : tsp_live s -> c < nv -> c <> 1 -> t_h s < nv - 1 -> tsp_live (mkTsp (badd (t_s s) c) c (S (t_h s))).
Proof.
  intros (L1 & L2 & L3 & L4) C1 C2 C3. unfold tsp_live. cbn [t_s t_e t_h]. csplit; auto; try lia.
  - intros x. rewrite bmem_add. destruct (Nat.eqb_spec c x) as [<-|N]; cbn; auto.
  - intros _. rewrite bmem_add, Nat.eqb_refl. auto.
Qed.

Lemma tsp_stf_cases s l s' : tsp_live s -> In l (p_labels P s) -> p_stf P s l = Some s' ->
  (t_h s = nv - 1 /\ l = 1%Z /\ s' = p_target P) \/
  (t_h s < nv - 1 /\ exists c, l = Z.of_nat c /\ c < nv /\ c <> 1 /\ bmem (t_s s) c = false /\ s' = mkTsp (badd (t_s s) c) c (S (t_h s))).
Proof.
  intros L Hl E. apply tsp_labels in Hl; auto. cbn [tsp_prob p_stf] in E. unfold tsp_stf in E.
  destruct Hl as [[H ->]|[H (c & -> & C1 & C2 & C3)]].
  - left. cbn in E. injection E as <-. auto.
  - right. split; auto. destruct (Z.eqb_spec (Z.of_nat c) 1) as [E1|_]; [lia|]. rewrite Nat2Z.id in E. injection E as <-. exists c. auto.
Qed.
Lemma tsp_stf_last s : p_stf P s 1 = Some (p_target P).
Proof. reflexivity. Qed.
Lemma tsp_stf_city s c : c <> 1 -> p_stf P s (Z.of_nat c) = Some (mkTsp (badd (t_s s) c) c (S (t_h s))).
Proof. intros H. cbn [tsp_prob p_stf]. unfold tsp_stf. destruct (Z.eqb_spec (Z.of_nat c) 1); [lia|]. now rewrite Nat2Z.id. Qed.

Lemma tsp_closed : closed P tsp_inv.
Proof.
  constructor.
  - intros a b _ _. apply tsp_eqb_eq.
  - intros s Hs. cbn [tsp_prob p_eqs p_target]. unfold tsp_eqs. rewrite andb_true_iff, !Nat.eqb_eq. split.
    + intros [_ E]. destruct Hs as [(L & _)|?]; auto. lia.
    + intros ->. auto.
  - now right.
  - intros s l s' Hs Nt Hl E. apply tsp_split in Hs; auto.
    destruct (tsp_stf_cases s l s' Hs Hl E) as [(_ & _ & ->)|(H & c & _ & C1 & C2 & _ & ->)]; [now right|left]. now apply tsp_step.
Qed.
Lemma tsp_layered : layered P tsp_inv t_h.
Proof.
  intros s l s' Hs Nt Hl E Nt'. apply tsp_split in Hs; auto.
  destruct (tsp_stf_cases s l s' Hs Hl E) as [(_ & _ & ->)|(H & c & _ & C1 & C2 & _ & ->)]; [congruence|auto].
Qed.
Lemma tsp_depth : depth_le P tsp_inv t_h (nv - 1).
Proof. intros s Hs Nt. apply tsp_split in Hs; auto. destruct Hs. lia. Qed.
Lemma tsp_acyclic : acyclic P tsp_inv t_h.
Proof.
  intros s l s' Hs Nt Hl E. apply tsp_split in Hs; auto. pose proof Hs as (L & _).
  destruct (tsp_stf_cases s l s' Hs Hl E) as [(_ & _ & ->)|(H & c & _ & C1 & C2 & _ & ->)]; cbn; lia.
Qed.

(** fewer visited cities, the same continuations *)
Lemma tsp_mono : forall ls s v, path P s ls v (p_target P) -> tsp_live s -> forall s', tsp_live s' -> t_e s' = t_e s -> t_h s' = t_h s ->
  (forall c, bmem (t_s s') c = true -> bmem (t_s s) c = true) -> path P s' ls v (p_target P).
Proof.
  induction ls as [|l ls IH]; intros s v H Hs s' Hs' E1 E2 Sub; inversion H as [|s0 l0 s1 ls0 v0 t0 HN HL HS HP]; subst.
  - exfalso. exact (live_ne _ Hs eq_refl).
  - assert (EC : p_cost P s l = p_cost P s' l) by (cbn [tsp_prob p_cost]; unfold tsp_scf; now rewrite E1). rewrite EC.
    destruct (tsp_stf_cases s l s1 Hs HL HS) as [(T1 & -> & ->)|(T1 & c & -> & C1 & C2 & C3 & ->)].
    + eapply path_cons; [now apply live_ne| |apply tsp_stf_last|exact HP]. apply tsp_labels; auto. left. split; auto. lia.
    + assert (C3' : bmem (t_s s') c = false) by (destruct (bmem (t_s s') c) eqn:B; auto; apply Sub in B; congruence).
      eapply path_cons; [now apply live_ne| |apply tsp_stf_city; auto|].
      * apply tsp_labels; auto. right. split; [lia|]. exists c. auto.
      * eapply IH; [exact HP|now apply tsp_step|apply tsp_step; auto; lia|auto|cbn; lia|].
        cbn [t_s]. intros x. rewrite !bmem_add. destruct (c =? x); cbn; auto.
Qed.

Lemma tsp_merge_live a b m : tsp_live a -> tsp_live b -> p_smf P a b = Some m ->
  tsp_live m /\ t_e a = t_e b /\ t_h a = t_h b /\ m = mkTsp (N.land (t_s a) (t_s b)) (t_e a) (t_h a).
Proof.
  intros Ha Hb E. cbn [tsp_prob p_smf] in E. unfold tsp_smf in E. destruct (Nat.eqb_spec (t_e a) (t_e b)) as [E1|]; [|discriminate].
  destruct (Nat.eqb_spec (t_h a) (t_h b)) as [E2|]; [|discriminate]. injection E as <-. csplit; auto.
  destruct Ha as (A1 & A2 & A3 & A4), Hb as (B1 & B2 & B3 & B4). unfold tsp_live. cbn [t_s t_e t_h]. csplit; auto.
  - intros c. rewrite bmem_and, andb_true_iff. intros [? _]. auto.
  - intros N. rewrite bmem_and, A4 by auto. rewrite E1. apply B4. congruence.
Qed.
Lemma tsp_merge_layered : merge_layered P tsp_inv t_h.
Proof.
  intros a b m Ha Hb Na Nb R M. apply tsp_split in Ha, Hb; auto. destruct (tsp_merge_live a b m Ha Hb M) as (L & _ & _ & ->).
  csplit; auto. { now left. } now apply live_ne.
Qed.
Lemma tsp_valid_merge : valid_merge P tsp_inv t_h.
Proof.
  intros a b m Ha Hb Na Nb R M. apply tsp_split in Ha, Hb; auto. destruct (tsp_merge_live a b m Ha Hb M) as (L & E1 & E2 & ->).
  split; intros v [ls H]; exists v; (split; [|apply be_refl]); exists ls.
  - eapply tsp_mono; [exact H|auto|auto|auto|auto|]. cbn. intros c. rewrite bmem_and, andb_true_iff. tauto.
  - eapply tsp_mono; [exact H|auto|auto|auto|auto|]. cbn. intros c. rewrite bmem_and, andb_true_iff. tauto.
Qed.

Lemma tsp_valid : valid_model P tsp_inv t_h (nv - 1).
Proof.
  constructor.
  - apply tsp_closed.
  - apply tsp_layered.
  - apply tsp_depth.
  - apply tsp_merge_layered.
  - apply tsp_valid_merge.
  - intros sdom a b [=].
  - intros sdom a s l [=].
  - intros local s ctx v [=].
Qed.

(** continuations of a live state *)
Lemma tsp_paths : forall k s ls v, tsp_live s -> nv - 1 - t_h s = k ->
  (path P s ls v (p_target P) <-> exists t, ls = map Z.of_nat (t ++ [1]) /\ length t = k /\ NoDup t /\
     (forall c, In c t -> c < nv /\ c <> 1 /\ bmem (t_s s) c = false) /\ v = walk d (t_e s) (t ++ [1])).
Proof.
  induction k as [|k IH]; intros s ls v Hs Ek; split.
  - intros H. inversion H as [|s0 l0 s1 ls0 v0 t0 HN HL HS HP]; subst; [now apply live_ne in Hs|].
    destruct (tsp_stf_cases s l0 s1 Hs HL HS) as [(T1 & -> & ->)|(T1 & _)]; [|lia].
    apply path_target in HP as (-> & -> & _). exists []. csplit; auto; [constructor|intros c []].
  - intros (t & -> & Ht & _ & _ & ->). destruct t; [|discriminate]. cbn [app map walk].
    change (d (t_e s) 1) with (p_cost P s (Z.of_nat 1)). eapply path_cons; [now apply live_ne| |apply tsp_stf_last|constructor].
    apply tsp_labels; auto. left. destruct Hs. split; auto. lia.
  - intros H. inversion H as [|s0 l0 s1 ls0 v0 t0 HN HL HS HP]; subst; [now apply live_ne in Hs|].
    destruct (tsp_stf_cases s l0 s1 Hs HL HS) as [(T1 & _)|(T1 & c & -> & C1 & C2 & C3 & ->)]; [lia|].
    assert (L1 : tsp_live (mkTsp (badd (t_s s) c) c (S (t_h s)))) by (apply tsp_step; auto).
    apply IH in HP; [|auto|cbn; lia]. destruct HP as (t & -> & Ht & ND & A & ->). cbn [t_s t_e] in *. exists (c :: t). csplit.
    + reflexivity.
    + cbn. lia.
    + constructor; auto. intros Q. apply A in Q as (_ & _ & Q). rewrite bmem_add, Nat.eqb_refl in Q. discriminate.
    + intros x [<-|Hx]; auto. apply A in Hx as (X1 & X2 & X3). rewrite bmem_add in X3. apply orb_false_iff in X3. tauto.
    + cbn [app walk tsp_prob p_cost]. unfold tsp_scf. now rewrite Nat2Z.id.
  - intros (t & -> & Ht & ND & A & ->). destruct t as [|c t]; [discriminate|]. cbn [app map walk].
    destruct (A c (or_introl eq_refl)) as (C1 & C2 & C3). inversion ND as [|? ? N1 N2]; subst.
    replace (d (t_e s) c) with (p_cost P s (Z.of_nat c)) by (cbn [tsp_prob p_cost]; unfold tsp_scf; now rewrite Nat2Z.id).
    eapply path_cons; [now apply live_ne| |apply tsp_stf_city; auto|].
    + apply tsp_labels; auto. right. split; [lia|]. exists c. auto.
    + apply IH; [apply tsp_step; auto; lia|cbn; lia|]. exists t. cbn [t_s t_e]. cbn in Ht. csplit; auto; try lia.
      intros x Hx. destruct (A x (or_intror Hx)) as (X1 & X2 & X3). csplit; auto. rewrite bmem_add, X3.
      destruct (Nat.eqb_spec c x); subst; [contradiction|auto].
Qed.

Lemma tsp_init_live : tsp_live (p_init P).
Proof. unfold tsp_live. cbn [tsp_prob p_init tsp_init t_s t_e t_h]. csplit; try lia; intros c; rewrite bmem_0; discriminate. Qed.

(** the solutions are the tours *)
Lemma tsp_solutions ls v : path P (p_init P) ls v (p_target P) <-> exists l, tour nv l /\ ls = map Z.of_nat l /\ v = walk d 1 l.
Proof.
  rewrite (tsp_paths (nv - 1)); [|apply tsp_init_live|cbn; lia]. cbn [tsp_prob p_init tsp_init t_s t_e].
  assert (OT : NoDup (0 :: seq 2 (nv - 2)) /\ forall c, In c (0 :: seq 2 (nv - 2)) <-> c < nv /\ c <> 1).
  { split; [constructor; [rewrite in_seq; lia|apply seq_NoDup]|]. intros c. cbn [In]. rewrite in_seq. lia. }
  destruct OT as [O1 O2]. split.
  - intros (t & -> & Ht & ND & A & ->). exists (t ++ [1]). csplit; auto. exists t. csplit; auto. intros c. split.
    + intros Hc. apply A in Hc. tauto.
    + intros Hc. assert (incl (0 :: seq 2 (nv - 2)) t) as IC; [|apply IC, O2; auto].
      apply NoDup_length_incl; auto.
      * cbn [length]. rewrite seq_length. lia.
      * intros x Hx. apply O2. apply A in Hx. tauto.
  - intros (l & (t & -> & ND & A) & -> & ->). exists t. csplit; auto.
    + assert (L1 : length t <= length (0 :: seq 2 (nv - 2))) by (apply NoDup_incl_length; auto; intros x Hx; apply O2, A; auto).
      assert (L2 : length (0 :: seq 2 (nv - 2)) <= length t) by (apply NoDup_incl_length; auto; intros x Hx; apply A, O2; auto).
      cbn [length] in *. rewrite seq_length in *. lia.
    + intros c Hc. apply A in Hc. rewrite bmem_0. tauto.
Qed.
Lemma tour_exists : exists l, tour nv l.
Proof.
  exists ((0 :: seq 2 (nv - 2)) ++ [1]). exists (0 :: seq 2 (nv - 2)). csplit; auto.
  - constructor; [rewrite in_seq; lia|apply seq_NoDup].
  - intros c. cbn [In]. rewrite in_seq. lia.
Qed.

(** all distances read are inside the matrix *)
Lemma tsp_indices s l : tsp_inv s -> s <> p_target P -> In l (p_labels P s) -> t_e s < nv /\ (0 <= l < Z.of_nat nv)%Z.
Proof.
  intros Hs Nt Hl. apply tsp_split in Hs; auto. apply tsp_labels in Hl; auto. split; [exact (proj1 (proj2 Hs))|].
  destruct Hl as [[_ ->]|(_ & c & -> & ? & _)]; lia.
Qed.

(** ** the exact diagram *)
Definition tsp_states : list tsp :=
  tsp_target nv :: map (fun x => mkTsp (fst (fst x)) (snd (fst x)) (snd x)) (list_prod (list_prod (masks nv) (seq 0 nv)) (seq 0 nv)).
Lemma in_tsp_states s : tsp_inv s -> In s tsp_states.
Proof.
  intros [(L1 & L2 & L3 & L4)| ->]; [right|now left]. apply in_map_iff. exists (t_s s, t_e s, t_h s). split; [now destruct s|].
  apply in_prod; [apply in_prod|]; [|apply in_seq; lia|apply in_seq; lia]. apply in_masks. intros v Hv. apply L3 in Hv. tauto.
Qed.
Lemma prodlen {A B} (a : list A) (b : list B) : length (list_prod a b) = length a * length b.
Proof. apply prod_length. Qed.

(** every walk of at most nv steps inside the matrix stays below the largest int *)
Definition fits : Prop := forall a l, a < nv -> Forall (fun c => c < nv) l -> length l <= nv -> (walk d a l < 2147483647)%Z.
Lemma tsp_walk s ls v t : path P s ls v t -> tsp_inv s -> exists l, v = walk d (t_e s) l /\ Forall (fun c => c < nv) l /\
  (s <> p_target P -> length l <= nv - t_h s) /\ (s = p_target P -> l = []).
Proof.
  intros H. induction H as [s|s l s' ls v t N L HS H IH]; intros Is.
  - exists []. csplit; auto. intros. cbn. lia.
  - assert (Is' : tsp_inv s') by (eapply (cl_step _ _ tsp_closed); eauto). destruct (IH Is') as (w & -> & F & L1 & L2).
    pose proof (tsp_indices s l Is N L) as [_ IX]. pose proof (tsp_split s Is N) as LV.
    exists (Z.to_nat l :: w). csplit.
    + cbn [walk tsp_prob p_cost]. unfold tsp_scf. f_equal. f_equal.
      destruct (tsp_stf_cases s l s' LV L HS) as [(T1 & -> & ->)|(T1 & c & -> & C1 & C2 & C3 & ->)]; cbn; auto. now rewrite Nat2Z.id.
    + constructor; auto. lia.
    + intros _. destruct (tsp_stf_cases s l s' LV L HS) as [(T1 & -> & ->)|(T1 & c & -> & C1 & C2 & C3 & ->)].
      * rewrite L2 by auto. cbn. lia.
      * assert (L3 : length w <= nv - S (t_h s)). { apply L1. apply live_ne. now apply tsp_step. } cbn [length]. lia.
    + intros ->. congruence.
Qed.
Lemma tsp_range : fits -> in_range P (p_init P) 0.
Proof.
  intros FT ls v s H. destruct (tsp_walk _ _ _ _ H (or_introl tsp_init_live)) as (l & -> & F1 & F2 & _).
  unfold bt, val, sentinel. cbn [tsp_prob p_min]. apply FT; auto. assert (L := F2 (live_ne _ tsp_init_live)). cbn in L. lia.
Qed.
Lemma tsp_exact fuel primal : fits -> 2 ^ nv * nv * nv + 1 <= fuel ->
  exists dd n l, ex_compute P fuel (initDefault P (dd_empty P true)) primal = Ok dd /\ trg_node dd = Ok n /\
    tour nv l /\ n_lab n = map Z.of_nat l /\ n_bound n = walk d 1 l /\ (forall l', tour nv l' -> (n_bound n <= walk d 1 l')%Z).
Proof.
  intros FT F. destruct (exact_best P tsp_inv t_h tsp_states fuel primal) as (dd & n & E & T & S & B).
  - apply tsp_closed.
  - reflexivity.
  - apply tsp_acyclic.
  - left. apply tsp_init_live.
  - apply live_ne, tsp_init_live.
  - now apply tsp_range.
  - intros s Hs _. now apply in_tsp_states.
  - apply in_tsp_states. now right.
  - unfold tsp_states. cbn [length]. rewrite map_length, !prodlen, masks_length, !seq_length. lia.
  - destruct tour_exists as [l Hl]. exists (map Z.of_nat l), (walk d 1 l). apply tsp_solutions. eauto.
  - apply tsp_solutions in S as (l & T1 & T2 & T3). exists dd, n, l. csplit; auto. intros l' Hl'.
    specialize (B (map Z.of_nat l') (walk d 1 l')). unfold be, val in B. cbn [tsp_prob p_min] in B. apply B. apply tsp_solutions. eauto.
Qed.

(** ** branch and bound *)
Lemma tsp_setting srt dfuel mxw : fits -> (forall dd l, Permutation (srt dd l) l) -> nv < dfuel -> (N.of_nat mxw < 4294967296)%N ->
  setting P tsp_inv t_h (nv - 1) srt dfuel mxw.
Proof.
  intros FT PS DF MW. constructor; auto; try lia.
  - apply tsp_valid.
  - apply live_ne, tsp_init_live.
  - left. apply tsp_init_live.
  - apply tsp_range; auto.
Qed.
Lemma tsp_search srt dfuel mxw lim fuel : fits -> (forall dd l, Permutation (srt dd l) l) -> nv < dfuel -> (N.of_nat mxw < 4294967296)%N ->
  2 ^ nv * nv * nv + 1 <= fuel ->
  exists s e, search P srt dfuel lim fuel mxw None = Ok (s, e) /\
    (forall lab, In lab (b_log (s_b s)) -> exists l, tour nv l /\ lab = map Z.of_nat l) /\
    (b_primal (s_b s) <> 2147483647%Z -> exists l, tour nv l /\ b_inc (s_b s) = map Z.of_nat l /\ b_primal (s_b s) = walk d 1 l).
Proof.
  intros FT PS DF MW F. pose proof (tsp_setting srt dfuel mxw FT PS DF MW) as SE.
  assert (B0 : be P (sentinel P) (sentinel P)) by (unfold be; lia).
  destruct (search_total P tsp_inv t_h (nv - 1) srt dfuel mxw SE lim None B0 tsp_states) with (fuel := fuel) as (s & e & E).
  { intros x _ (ls & v & H). apply in_tsp_states. eapply path_closed; [apply tsp_closed|left; apply tsp_init_live|exact H]. }
  { unfold tsp_states. cbn [length]. rewrite map_length, !prodlen, masks_length, !seq_length. lia. }
  exists s, e. split; auto. destruct (search_genuine P tsp_inv t_h (nv - 1) srt dfuel mxw SE lim None B0 fuel s e E) as [G1 G2]. split.
  - intros lab Hl. destruct (G2 lab Hl) as (v & (ls & w & -> & _ & H) & _). apply tsp_solutions in H as (l & T & -> & _). eauto.
  - intros N. destruct (G1 N) as (ls & w & E1 & E2 & H). apply tsp_solutions in H as (l & T & E3 & E4).
    exists l. csplit; auto; [now rewrite E1, E3|now rewrite E2, E4].
Qed.
End T.

(** a single city: the depot is not one of the cities and the distance read is outside the 1x1 matrix *)
Lemma tsp_one d : In 1%Z (p_labels (tsp_prob 1 d) (p_init (tsp_prob 1 d))) /\ p_init (tsp_prob 1 d) <> p_target (tsp_prob 1 d).
Proof. split; [now left|]. intros [=]. Qed.
