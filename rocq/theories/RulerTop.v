(** Golomb rulers: a checker for the table of lower bounds, the code's 4-word sets against the mask model, and the statements about diagrams
    in terms of rulers. *)
From Verif Require Import Base BitModel SetModel SetProofs SubModel SubProofs DDModel DDSpec DDFrame DDRestricted DDRestricted2 DDExact SearchEx TspModel TspProofs.
From Verif Require Import RulerModel RulerSpec RulerProofs RulerEnd RulerLb.
From Coq Require Import Sorting.Sorted.
Local Open Scope Z_scope.

(** ** is there a ruler: depth first search over all the next marks *)
Fixpoint exb (j : nat) (hi : Z) (s : ruler) : bool :=
  match j with O => true | S j' => existsb (fun l => negb (ru_illegal s l) && exb j' hi (ru_next s l)) (closeInc (r_e s + 1) hi) end.
Lemma in_closeInc lb ub v : In v (closeInc lb ub) <-> lb <= v <= ub.
Proof.
  unfold closeInc. rewrite in_map_iff. split.
  - intros (i & <- & H). apply in_seq in H. lia.
  - intros H. exists (Z.to_nat (v - lb)). split; [lia|]. apply in_seq. lia.
Qed.
Lemma last_mem (xs : list Z) a : In (last xs a) (a :: xs).
Proof.
  destruct xs as [|x xs]; [now left|right].
  assert (X : forall (l : list Z) y, In (last (y :: l) a) (y :: l)) by (induction l as [|z l IHl]; intros y; [now left|right; apply IHl]). apply X.
Qed.
Lemma mark_gt xs l : golomb (xs ++ [l]) -> rlen xs < l.
Proof. intros [S _]. change (0 :: xs ++ [l]) with ((0 :: xs) ++ [l]) in S. apply inc_app in S as (_ & _ & S). apply S; [apply last_mem|now left]. Qed.
Lemma exb_ok hi : forall j ls s xs, rep s xs -> golomb (xs ++ ls) -> length ls = j -> (forall x, In x ls -> x <= hi) -> exb j hi s = true.
Proof.
  induction j as [|j IH]; intros ls s xs R G E B; [reflexivity|]. destruct ls as [|l ls]; [discriminate|]. cbn [exb]. apply existsb_exists.
  replace (xs ++ l :: ls) with ((xs ++ [l]) ++ ls) in G by (rewrite <- app_assoc; reflexivity).
  pose proof (golomb_pre _ _ G) as G1.
  assert (Lt : rlen xs < l) by now apply mark_gt.
  exists l. split.
  - apply in_closeInc. destruct R as (_ & _ & _ & _ & ->). specialize (B l (or_introl eq_refl)). lia.
  - rewrite (proj2 (rep_legal s xs l R Lt) G1). cbn [negb andb]. apply (IH ls _ (xs ++ [l])); [now apply rep_next|exact G|cbn in E; lia|intros x Hx; apply B; now right].
Qed.

(** the table is checked for k = 2 .. n by looking for a shorter ruler *)
Definition opt_chk (opt : Z -> Z) (n : nat) : bool :=
  forallb (fun k => (0 <=? opt (Z.of_nat k))) (seq 0 (S n)) && (opt 1 <=? 0) &&
  forallb (fun k => negb (exb (k - 1) (opt (Z.of_nat k) - 1) ru_init)) (seq 2 (n - 1)).
Lemma opt_chk_ok opt n : opt_chk opt n = true -> opt_valid opt (Z.of_nat n).
Proof.
  unfold opt_chk. intros H. apply andb_prop in H as [H C]. apply andb_prop in H as [A B]. rewrite forallb_forall in A, C. split.
  - intros k Hk. specialize (A (Z.to_nat k)). rewrite Z2Nat.id in A by lia. rewrite in_seq in A. specialize (A ltac:(lia)). lia.
  - intros k xs Hk [G E]. destruct (Z.eq_dec k 1) as [->|N].
    { destruct xs; [|cbn [length] in E; lia]. cbn. lia. }
    specialize (C (Z.to_nat k)). rewrite Z2Nat.id, in_seq in C by lia. specialize (C ltac:(lia)).
    destruct (Z.le_gt_cases (opt k) (rlen xs)); auto. exfalso.
    rewrite (exb_ok (opt k - 1) (Z.to_nat k - 1) xs ru_init [] rep_init) in C; [discriminate|exact G|lia|].
    intros x Hx. pose proof (golomb_le xs x G (or_intror Hx)). lia.
Qed.
Lemma OPT_6 : opt_valid OPT 6.
Proof. apply (opt_chk_ok OPT 6). vm_compute. reflexivity. Qed.

(** ** the 4-word sets of the code *)
(** the words hold the same sets, last mark and number of marks *)
Definition wsame (w : rulerW) (s : ruler) : Prop :=
  length (w_m w) = 4%nat /\ length (w_d w) = 4%nat /\ wok (w_m w) /\ wok (w_d w) /\
  (forall v, mem (w_m w) v = imem (r_m s) v) /\ (forall v, mem (w_d w) v = imem (r_d s) v) /\ w_k w = r_k s /\ w_e w = r_e s.
Lemma bool_eq (a c : bool) : (a = true <-> c = true) -> a = c.
Proof. destruct a, c; intuition congruence. Qed.
Lemma ofList_one l : 0 <= l < 256 -> exists t, ns_ofList 4 [l] = Ok t /\ length t = 4%nat /\ wok t /\ forall v, mem t v = true <-> v = l.
Proof.
  intros H. destruct (ns_ofList 4 [l]) as [t|] eqn:E.
  - exists t. split; auto. destruct (nat_built_ok 4 t _ (SetSpec.nb_list 4 [l] t E)) as (A & B & C). csplit; auto. intros v. rewrite C. cbn. intuition.
  - exfalso. unfold ns_ofList in E. cbn [ns_inserts] in E. destruct (or_ok (w_zero 4) l) as [t T]; [apply zero_wok|rewrite zero_len; lia|]. unfold ns_insert in E; rewrite T in E; cbn in E. discriminate.
Qed.
Lemma wsame_init : exists w, wr_init = Ok w /\ wsame w ru_init.
Proof.
  destruct (ofList_one 0 ltac:(lia)) as (t & E & A & B & C). exists (mkRW t (ns_new 4) 1 0). unfold wr_init. rewrite E. split; [reflexivity|].
  unfold wsame, ru_init. cbn [w_m w_d w_k w_e r_m r_d r_k r_e]. csplit; auto using zero_len, zero_wok.
  - intros v. apply bool_eq. rewrite C, imem_one by lia. reflexivity.
  - intros v. unfold ns_new. rewrite mem_zero, imem_0. reflexivity.
Qed.
Lemma wr_illegal_ok d l : wok d -> length d = 4%nat -> forall ms, (forall i, In i ms -> 0 <= l - i < 256) -> wr_illegal d l ms = Ok (existsb (fun i => mem d (l - i)) ms).
Proof.
  intros W Ln. induction ms as [|i ms IH]; intros H; [reflexivity|]. cbn [wr_illegal existsb]. rewrite contains_bits by (auto; rewrite Ln; apply H; now left).
  cbn [bind]. destruct (mem d (l - i)); [reflexivity|]. cbn [orb]. apply IH. intros x Hx. apply H. now right.
Qed.
Lemma wsame_stf n w s xs l : wsame w s -> rep s xs -> rlen xs < l < 256 -> l - rlen xs < 64 ->
  (ru_stf n s l = None /\ wr_stf n w l = Ok None) \/
  (exists s' w', ru_stf n s l = Some s' /\ wr_stf n w l = Ok (Some w') /\ (s' = ru_target n \/ s' = ru_next s l) /\ wsame w' s').
Proof.
  intros (L1 & L2 & W1 & W2 & M & D & K & E) R Hl Hg. pose proof R as (G & Rm & Rd & Rk & Re).
  assert (Bd : forall v, mem (w_m w) v = true <-> In v (0 :: xs)) by (intros v; rewrite M; apply Rm).
  assert (Bv : forall v, mem (w_m w) v = true -> 0 <= v <= rlen xs) by (intros v Hv; apply Bd in Hv; now apply golomb_le).
  unfold wr_stf. rewrite ns_list_ok by (auto; rewrite L1; lia). cbn [bind].
  assert (Em : map to_short (els 0 (w_m w)) = els 0 (w_m w)).
  { rewrite <- (map_id (els 0 (w_m w))) at 2. apply map_ext_in. intros v Hv. apply in_els in Hv; auto. destruct Hv as [_ Hv]. replace (v - 64 * 0) with v in Hv by lia. apply to_short_id. specialize (Bv v Hv). lia. }
  assert (Ie : forall v, In v (els 0 (w_m w)) <-> mem (w_m w) v = true).
  { intros v. rewrite in_els by auto. replace (v - 64 * 0) with v by lia. split; [tauto|]. intros H. specialize (Bv v H). split; [lia|auto]. }
  rewrite Em, wr_illegal_ok; auto.
  2: { intros i Hi. apply Ie, Bv in Hi. lia. }
  assert (Il : existsb (fun i => mem (w_d w) (l - i)) (els 0 (w_m w)) = ru_illegal s l).
  { apply bool_eq. unfold ru_illegal. rewrite !existsb_exists. split; intros (i & A & B); exists i.
    - split; [apply in_members; rewrite <- M; now apply Ie|now rewrite <- D].
    - split; [apply Ie; rewrite M; now apply in_members|now rewrite D]. }
  rewrite Il. cbn [bind]. unfold ru_stf. rewrite K. destruct (ru_illegal s l); [left; auto|right].
  destruct (r_k s =? n - 1) eqn:Hk.
  { exists (ru_target n). eexists. csplit; [reflexivity|reflexivity|now left|]. unfold wsame, ru_target. cbn [w_m w_d w_k w_e r_m r_d r_k r_e].
    csplit; auto using zero_len, zero_wok; intros v; unfold ns_new; now rewrite mem_zero, imem_0. }
  assert (X0 : 0 <= rlen xs) by (apply golomb_le with (x := rlen xs) in G; [lia|apply last_mem]).
  destruct (ofList_one l ltac:(lia)) as (one & -> & O1 & O2 & O3). cbn [bind].
  destruct (ns_sub_ok (w_m w) l W1) as (r & -> & S1 & S2 & S3).
  { intros v Hv. specialize (Bv v Hv). rewrite L1. lia. }
  { intros lv A B. right. assert (lv = rlen xs). { assert (rlen xs <= lv) by (apply B, Bd, last_mem). specialize (Bv lv A). lia. } subst lv.
    rewrite (Z.mod_small (l - rlen xs)) by lia. split; [lia|intros; lia]. }
  cbn [bind]. exists (ru_next s l). eexists. csplit; [reflexivity|reflexivity|now right|]. unfold wsame, ru_next. cbn [w_m w_d w_k w_e r_m r_d r_k r_e].
  assert (Un : forall t u q, wok t -> wok u -> length t = 4%nat -> length u = 4%nat -> length (ns_union t u) = 4%nat /\ wok (ns_union t u) /\ mem (ns_union t u) q = mem t q || mem u q).
  { intros t u q Ht Hu Lt Lu. csplit; [unfold ns_union; rewrite zip_length; congruence|apply zip_wok; auto using lor_lt|]. unfold mem, ns_union. rewrite zip_nth by (auto; congruence). rewrite N.lor_spec. destruct (0 <=? q); reflexivity. }
  destruct (Un (w_m w) one 0 W1 O2 L1 O1) as (U1 & U2 & _). destruct (Un r (w_d w) 0 S2 W2 ltac:(congruence) L2) as (V1 & V2 & _). csplit; auto.
  - intros v. destruct (Un (w_m w) one v W1 O2 L1 O1) as (_ & _ & ->). apply bool_eq. rewrite orb_true_iff, imem_or, imem_one, M, O3 by lia. reflexivity.
  - intros v. destruct (Un r (w_d w) v S2 W2 ltac:(congruence) L2) as (_ & _ & ->). apply bool_eq. rewrite orb_true_iff, imem_or, imem_refl, D, S3.
    + rewrite M. split; (intros [H|H]; [left|now right]).
      * exists (l - v). split; [auto|lia].
      * destruct H as (i & Hi & ->). now replace (l - (l - i)) with i by lia.
    + intros x Hx. rewrite <- M in Hx. specialize (Bv x Hx). lia.
Qed.
Lemma golomb_inc xs : golomb xs -> inc (0 :: xs).
Proof. now intros [S _]. Qed.
(** the code's words along a sequence of increasing marks with gaps below 64 *)
Fixpoint near (a : Z) (ls : list Z) : Prop := match ls with [] => True | l :: r => a < l < a + 64 /\ near l r end.
Lemma wr_run_gen n : forall ls w s xs, wsame w s -> rep s xs -> near (rlen xs) ls -> (forall x, In x ls -> x < 256) -> Z.of_nat (length xs + length ls) <= n - 1 ->
  (golomb (xs ++ ls) -> exists w', wr_run n w ls = Ok (Some w')) /\ (~ golomb (xs ++ ls) -> wr_run n w ls = Ok None).
Proof.
  induction ls as [|l ls IH]; intros w s xs Sm R Nr B Ln.
  - rewrite app_nil_r. split; [intros _; exists w; reflexivity|]. intros N. elim N. apply R.
  - destruct Nr as [Hl Nr]. cbn [wr_run]. replace (xs ++ l :: ls) with ((xs ++ [l]) ++ ls) by (rewrite <- app_assoc; reflexivity).
    assert (Hr : rlen xs < l < 256) by (split; [lia|apply B; now left]).
    destruct (wsame_stf n w s xs l Sm R Hr ltac:(lia)) as [[E1 E2]|(s' & w' & E1 & E2 & T & S2)]; rewrite E2; cbn [bind].
    + assert (Il : ru_illegal s l = true) by (unfold ru_stf in E1; destruct (ru_illegal s l); auto; destruct (r_k s =? n - 1); discriminate).
      split; [|reflexivity]. intros G. apply golomb_pre in G. apply (rep_legal s xs l R) in G; [congruence|lia].
    + assert (Il : ru_illegal s l = false) by (unfold ru_stf in E1; destruct (ru_illegal s l); auto; discriminate).
      assert (G1 : golomb (xs ++ [l])) by (apply (rep_legal s xs l R); [lia|auto]).
      destruct ls as [|l2 ls].
      { rewrite app_nil_r. cbn [wr_run]. split; [eauto|]. intros N. now elim N. }
      assert (Ks : r_k s <> n - 1) by (destruct R as (_ & _ & _ & -> & _); cbn [length] in Ln; lia).
      assert (s' = ru_next s l). { unfold ru_stf in E1. rewrite Il in E1. destruct (Z.eqb_spec (r_k s) (n - 1)); [tauto|congruence]. } subst s'.
      apply (IH w' (ru_next s l) (xs ++ [l])); auto using rep_next.
      * unfold rlen. rewrite last_last. exact Nr.
      * intros x Hx. apply B. now right.
      * rewrite app_length. cbn [length] in *. lia.
Qed.
Lemma wr_run_ok n ls : near 0 ls -> (forall x, In x ls -> x < 256) -> Z.of_nat (length ls) <= n - 1 ->
  exists w0, wr_init = Ok w0 /\ (golomb ls -> exists w, wr_run n w0 ls = Ok (Some w)) /\ (~ golomb ls -> wr_run n w0 ls = Ok None).
Proof.
  intros H1 H2 H3. destruct wsame_init as (w0 & E & S). exists w0. split; auto. apply (wr_run_gen n ls w0 ru_init []); auto using rep_init.
Qed.
(** a gap of 64 from a multiple of 64, and the mark 256 *)
Definition from_init (n : Z) (ls : list Z) : res (option rulerW) := do w <- wr_init ; wr_run n w ls.
Lemma wr_gap64 : from_init 5 [1; 128; 192] = Err UB.
Proof. vm_compute. reflexivity. Qed.
Lemma wr_256 : from_init 3 [1; 256] = Err UB.
Proof. vm_compute. reflexivity. Qed.

Lemma wr_equal_differs : exists s1 s2 s3 a c, from_init 5 [1; 7] = Ok (Some s1) /\ from_init 5 [2; 7] = Ok (Some s2) /\ from_init 5 [6; 7] = Ok (Some s3) /\
  wr_smf s1 s2 = Some a /\ wr_smf s1 s3 = Some c /\ wr_eqb a c = true /\ wr_hash a <> wr_hash c /\
  (exists t, wr_stf 5 a 8 = Ok (Some t)) /\ wr_stf 5 c 8 = Ok None.
Proof.
  do 5 eexists. csplit; [vm_compute; reflexivity|vm_compute; reflexivity|vm_compute; reflexivity|vm_compute; reflexivity|vm_compute; reflexivity|vm_compute; reflexivity|vm_compute; discriminate| |vm_compute; reflexivity].
  eexists. vm_compute. reflexivity.
Qed.

(** ** rulers and diagrams *)
(** the rest of a path after a prefix *)
Lemma path_rest {St} (P : prob St) s xs v t : path P s xs v t -> forall ls V u, path P s (xs ++ ls) V u -> path P t ls (V - v) u.
Proof.
  induction 1 as [|s l s' xs v t N Hl S Hp IH]; intros ls V u H.
  - cbn in H. now replace (V - 0) with V by lia.
  - cbn [app] in H. inversion H as [|? ? s2 ? v2 ? ? ? S2 H2]; subst. rewrite S in S2. injection S2 as <-. apply IH in H2.
    now replace (p_cost P s l + v2 - (p_cost P s l + v)) with (v2 - v) by lia.
Qed.
Section Top.
Variables (n L : Z) (opt : Z -> Z) (b : Z).
Hypothesis Hn : 2 <= n.
Hypothesis Ho : opt_valid opt n.
Hypothesis HL : 0 <= L + 1 < 2147483647.

Lemma opt_nn k : 1 <= k < n -> 0 <= opt (n - k).
Proof. intros H. apply Ho. lia. Qed.
Lemma ru_ub_le k : 1 <= k < n -> ru_ub n L opt b k <= L + 1.
Proof. intros H. pose proof (opt_nn k H). unfold ru_ub. lia. Qed.
Lemma mid_ub_le k : 1 <= k < n -> mid_ub n L opt b k <= L + 1.
Proof.
  intros H. pose proof (opt_nn k H). unfold mid_ub. destruct (Z.ltb_spec k (n / 2)); [|lia].
  assert (0 <= opt (n / 2 - k)). { apply Ho. pose proof (Z.div_le_upper_bound n 2 n). lia. }
  pose proof (Z.div_le_upper_bound (L + 1) 2 (L + 1)). lia.
Qed.
(** a ruler within both limits *)
Definition short (ls : list Z) : Prop := ruler_of n ls /\ rlen ls <= b - 1 /\ rlen ls <= L + 1.
Lemma ru_short ls : short ls <-> ruler_of n ls /\ within n opt (ru_ub n L opt b) 1 ls.
Proof.
  pose proof (ru_solutions n L opt b Hn Ho ls (rlen ls)) as A. unfold ru_prob in A. rewrite gr_solutions in A by auto. unfold short. tauto.
Qed.
Lemma ru_top fuel primal : (2 ^ Z.to_nat (L + 1 + 1) + 1 <= fuel)%nat -> (exists ls, short ls) ->
  exists d nd, ex_compute (ru_prob n L opt b) fuel (initDefault (ru_prob n L opt b) (dd_empty (ru_prob n L opt b) true)) primal = Ok d /\ trg_node d = Ok nd /\
    short (n_lab nd) /\ n_bound nd = rlen (n_lab nd) /\ (forall ls, ruler_of n ls -> n_bound nd <= rlen ls).
Proof.
  intros F X. destruct (gr_exact n opt Hn (ru_ub n L opt b) (L + 1) HL ru_ub_le fuel primal F) as (d & nd & E & T & A & B & C & D).
  { destruct X as (ls & X). exists ls. now apply ru_short. }
  exists d, nd. csplit; auto. { apply ru_short; auto. }
  intros ls R. destruct (Z.le_gt_cases (n_bound nd) (rlen ls)); auto. apply D; auto.
  assert (S : short (n_lab nd)) by (apply ru_short; auto). destruct S as (_ & S1 & S2). apply (proj1 (ru_short ls)). unfold short. csplit; auto; lia.
Qed.
Lemma short_mid zs : short zs -> exists ls, path (mid_prob n L opt b) ru_init ls (rlen zs) (ru_target n).
Proof. intros (R & A & B). destruct (mid_complete n L opt b Hn Ho zs R A B); eauto. Qed.
Lemma mid_top fuel primal : (2 ^ Z.to_nat (L + 1 + 1) + 1 <= fuel)%nat -> (exists ls, short ls) ->
  exists d nd, ex_compute (mid_prob n L opt b) fuel (initDefault (mid_prob n L opt b) (dd_empty (mid_prob n L opt b) true)) primal = Ok d /\ trg_node d = Ok nd /\
    short (n_lab nd) /\ n_bound nd = rlen (n_lab nd) /\ (forall ls, ruler_of n ls -> n_bound nd <= rlen ls).
Proof.
  intros F X. destruct (gr_exact n opt Hn (mid_ub n L opt b) (L + 1) HL mid_ub_le fuel primal F) as (d & nd & E & T & A & B & C & D).
  { destruct X as (ls & X). destruct (short_mid ls X) as (zs & H). unfold mid_prob in H. apply gr_solutions in H as (H1 & H2 & _); auto. eauto. }
  assert (S : short (n_lab nd)).
  { destruct (mid_sound n L opt b Hn Ho (n_lab nd) (rlen (n_lab nd))) as (S1 & _ & S2 & S3); [unfold mid_prob; apply gr_solutions; auto|]. unfold short. auto. }
  exists d, nd. csplit; auto. intros ls R. destruct (Z.le_gt_cases (n_bound nd) (rlen ls)); auto. destruct S as (_ & S1 & S2).
  destruct (short_mid ls) as (zs & H0); [unfold short; csplit; auto; lia|]. unfold mid_prob in H0. apply gr_solutions in H0 as (H1 & H2 & H3); auto. rewrite H3. now apply D.
Qed.
Lemma ml_top fuel primal : (2 ^ Z.to_nat (L + 1 + 1) + 1 <= fuel)%nat -> (exists ls, short ls) ->
  exists d nd, ex_compute (ml_prob n L opt b) fuel (initDefault (ml_prob n L opt b) (dd_empty (ml_prob n L opt b) true)) primal = Ok d /\ trg_node d = Ok nd /\
    short (n_lab nd) /\ n_bound nd = rlen (n_lab nd) /\ (forall ls, ruler_of n ls -> n_bound nd <= rlen ls).
Proof.
  intros F X.
  assert (Eq : forall ls v, path (ml_prob n L opt b) (p_init (ml_prob n L opt b)) ls v (p_target (ml_prob n L opt b)) <-> path (mid_prob n L opt b) ru_init ls v (ru_target n)).
  { intros ls v. apply (ml_solutions n L opt b Hn ruler_eqb rulerL_eqb ls v). }
  destruct (mx_exact n L opt b Hn (L + 1) HL mid_ub_le fuel primal F) as (d & nd & E & T & A & D).
  { destruct X as (ls & X). destruct (short_mid ls X) as (zs & H). exists zs, (rlen ls). now apply Eq. }
  apply Eq in A. destruct (mid_sound n L opt b Hn Ho _ _ A) as (S1 & S2 & S3 & S4).
  exists d, nd. csplit; auto. { unfold short; auto. }
  intros ls R. destruct (Z.le_gt_cases (n_bound nd) (rlen ls)); auto.
  destruct (short_mid ls) as (zs & H0); [unfold short; csplit; auto; lia|]. apply Eq in H0. apply D in H0. exact H0.
Qed.

(** ** restricted diagrams, with the code's equality of states, from the root or from the state of some marks *)
Lemma rep_k1 s xs : rep s xs -> 1 <= r_k s.
Proof. intros (_ & _ & _ & K & _). lia. Qed.
Lemma ru_layered : layered (ru_prob n L opt b) (ex_inv n (L + 1)) rrank.
Proof.
  intros s l s' Is N Hl S N'. destruct Is as [(xs & R & K & _)| ->]; [|now elim N]. pose proof (rep_k1 s xs R).
  apply gr_step in S as [_ [[_ ->]|[Ks ->]]]; [now elim N'|]. unfold rrank; cbn; lia.
Qed.
Lemma ru_depth : depth_le (ru_prob n L opt b) (ex_inv n (L + 1)) rrank (Z.to_nat n - 1).
Proof. intros s Is N. destruct Is as [(xs & R & K & _)| ->]; [|now elim N]. pose proof (rep_k1 s xs R). unfold rrank. lia. Qed.
Lemma ru_prefix xs s v : path (ru_prob n L opt b) ru_init xs v s -> ex_inv n (L + 1) s.
Proof.
  intros H. apply (path_closed (ru_prob n L opt b) (ex_inv n (L + 1)) _ _ _ _ (gr_closed n opt (ru_ub n L opt b) (L + 1) HL ru_ub_le)) in H; auto.
  left. apply (ex_init n opt Hn (ru_ub n L opt b) (L + 1) HL ru_ub_le).
Qed.
Lemma ru_restricted xs v s d primal w fuel : path (ru_prob n L opt b) ru_init xs v s -> s <> ru_target n -> started d s v xs ->
  (N.of_nat w < 4294967296)%N -> (Z.to_nat n < fuel)%nat ->
  exists d' nd, rs_compute (ru_prob n L opt b) fuel d primal w = Ok d' /\ trg_node d' = Ok nd /\
    (n_bound nd < 2147483647 -> exists ls, n_lab nd = xs ++ ls /\ short (xs ++ ls) /\ n_bound nd = rlen (xs ++ ls)) /\
    (d_exact d' = true -> forall ls, short (xs ++ ls) -> rlen (xs ++ ls) < primal -> n_bound nd <= rlen (xs ++ ls)).
Proof.
  intros Hp Ns St W F. set (P := ru_prob n L opt b) in *.
  pose proof (gr_closed n opt (ru_ub n L opt b) (L + 1) HL ru_ub_le) as CL. pose proof (ru_prefix xs s v Hp) as Is.
  assert (Rg : in_range P s v).
  { intros ls v' t Ht. pose proof (gr_range n opt Hn (ru_ub n L opt b) (L + 1) HL ru_ub_le ruler_eqb) as Rg. specialize (Rg (xs ++ ls) (v + v') t (path_app _ _ _ _ _ _ _ _ Hp Ht)). exact Rg. }
  destruct (restricted_unmerged P (ex_inv n (L + 1)) rrank (Z.to_nat n - 1) CL ru_layered ru_depth) with (rs := s) (rb := v) (rl := xs) (fuel := fuel) (d := d) (primal := primal) (w := w)
    as (d' & E & _ & X); auto; try (intros ? ? ? [=]; fail); try (intros ? ? ? ? [=]; fail); try (intros ? ? ? ? ? [=]; fail).
  { destruct Is as [(ys & R & _)| ->]; [|now elim Ns]. pose proof (rep_k1 s ys R). unfold rrank. lia. }
  destruct (restricted_genuine P (ex_inv n (L + 1)) CL s v xs Ns Is Rg fuel d primal w d' St E) as (nd & T & _ & G).
  exists d', nd. csplit; auto.
  - intros Hb. destruct (G Hb) as (ls & v' & E1 & E2 & Hq). exists ls. split; auto.
    pose proof (path_app P _ _ _ _ _ _ _ Hp Hq) as Hall. apply (ru_solutions n L opt b Hn Ho) in Hall as (A & B & C & D). unfold short. csplit; auto. lia.
  - intros Ex ls S1 Hp1. destruct (X Ex) as (nd' & T' & Y). rewrite T in T'. injection T' as <-. apply Y; auto.
    destruct S1 as (R & B1 & B2). assert (Hall : path P ru_init (xs ++ ls) (rlen (xs ++ ls)) (ru_target n)) by (apply (ru_solutions n L opt b Hn Ho); auto).
    exists (rlen (xs ++ ls) - v). split; [exists ls; exact (path_rest P _ _ _ _ Hp _ _ _ Hall)|lia].
Qed.
End Top.

(** ** small cases *)
(** the marks 1 3 follow 0; and the shortest ruler with 4 marks *)
Lemma incb_ok : forall l, (fix go (a : Z) (l : list Z) := match l with [] => true | x :: r => (a <? x) && go x r end) (-1) l = true -> inc l.
Proof.
  assert (G : forall l a, (fix go (a : Z) (l : list Z) := match l with [] => true | x :: r => (a <? x) && go x r end) a l = true -> inc (a :: l)).
  { induction l as [|x r IH]; intros a H; [repeat constructor|]. apply andb_prop in H as [H1 H2]. apply IH in H2. constructor; auto. constructor; [lia|].
    apply StronglySorted_inv in H2 as [_ F]. eapply Forall_impl; [|exact F]. intros; lia. }
  intros l H. apply G in H. now apply StronglySorted_inv in H.
Qed.
Definition golombb (xs : list Z) : bool :=
  let ms := 0 :: xs in forallb (fun a => forallb (fun b => forallb (fun c => forallb (fun d => negb ((a <? b) && (c <? d) && (b - a =? d - c)) || ((a =? c) && (b =? d))) ms) ms) ms) ms.
Lemma golombb_ok xs : inc (0 :: xs) -> golombb xs = true -> golomb xs.
Proof.
  intros I H. split; [exact I|]. intros a b c d Ha Hb Hc Hd L1 L2 E. unfold golombb in H. rewrite forallb_forall in H. specialize (H a Ha).
  rewrite forallb_forall in H. specialize (H b Hb). rewrite forallb_forall in H. specialize (H c Hc). rewrite forallb_forall in H. specialize (H d Hd). lia.
Qed.
Lemma ruler_3 : ruler_of 3 [1; 3].
Proof. split; [|reflexivity]. apply golombb_ok; [apply incb_ok|]; reflexivity. Qed.
Lemma ruler_4 : ruler_of 4 [1; 4; 6].
Proof. split; [|reflexivity]. apply golombb_ok; [apply incb_ok|]; reflexivity. Qed.
Lemma ruler_64 : golomb [1; 128; 192].
Proof. apply golombb_ok; [apply incb_ok|]; reflexivity. Qed.
Lemma ruler_256 : golomb [1; 256].
Proof. apply golombb_ok; [apply incb_ok|]; reflexivity. Qed.
Lemma not_golomb : ~ golomb [1; 2].
Proof. intros [_ G]. destruct (G 0 1 1 2); cbn; try lia; auto. Qed.
Lemma OPT_3 : opt_valid OPT 3.
Proof. destruct OPT_6 as [A B]. split; intros; [apply A; lia|eapply B; eauto; lia]. Qed.
Lemma OPT_4 : opt_valid OPT 4.
Proof. destruct OPT_6 as [A B]. split; intros; [apply A; lia|eapply B; eauto; lia]. Qed.
Lemma OPT_5 : opt_valid OPT 5.
Proof. destruct OPT_6 as [A B]. split; intros; [apply A; lia|eapply B; eauto; lia]. Qed.
(** the length limit is exceeded by one *)
Lemma limit_exceeded : path (ru_prob 3 2 OPT 2147483647) ru_init [1; 3] 3 (ru_target 3).
Proof. apply ru_solutions; [lia|apply OPT_3|]. csplit; [apply ruler_3|reflexivity|vm_compute; discriminate|vm_compute; discriminate]. Qed.
(** the marks of the overflowing cases are labels the code tries *)
Lemma overflow_labels : exists s1 s2, path (ru_prob 5 250 OPT 2147483647) ru_init [1; 128] 128 s2 /\ s2 <> ru_target 5 /\ In 192 (p_labels (ru_prob 5 250 OPT 2147483647) s2) /\
  path (ru_prob 3 255 OPT 2147483647) ru_init [1] 1 s1 /\ s1 <> ru_target 3 /\ In 256 (p_labels (ru_prob 3 255 OPT 2147483647) s1).
Proof.
  exists (ru_next ru_init 1), (ru_next (ru_next ru_init 1) 128). csplit.
  - apply (path_cons (ru_prob 5 250 OPT 2147483647)) with (s' := ru_next ru_init 1) (v := 127); [discriminate| |reflexivity|].
    { apply in_closeInc. vm_compute. split; discriminate. }
    apply (path_cons (ru_prob 5 250 OPT 2147483647)) with (s' := ru_next (ru_next ru_init 1) 128) (v := 0); [discriminate| |reflexivity|constructor].
    apply in_closeInc. vm_compute. split; discriminate.
  - discriminate.
  - apply in_closeInc. vm_compute. split; discriminate.
  - apply (path_cons (ru_prob 3 255 OPT 2147483647)) with (s' := ru_next ru_init 1) (v := 0); [discriminate| |reflexivity|constructor]. apply in_closeInc. vm_compute. split; discriminate.
  - discriminate.
  - apply in_closeInc. vm_compute. split; discriminate.
Qed.
