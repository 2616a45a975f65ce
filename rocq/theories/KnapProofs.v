(** The knapsack examples: their closures are valid, their solutions are the feasible 0/1 selections. *)
From Verif Require Import Base DDModel DDSpec DDFrame DDExpand KnapModel.

Lemma sks_eqb_eq a b : sks_eqb a b = true <-> a = b.
Proof.
  unfold sks_eqb. destruct a as [n c], b as [m e]; cbn. rewrite andb_true_iff, Nat.eqb_eq, Z.eqb_eq.
  split; [intros [-> ->]; auto|intros [= -> ->]; auto].
Qed.

Section Knap.
Variables (weight profit : list Z) (capa : Z).
Notation NI := (kn_I weight).
Notation wt := (wt weight).
Notation pf := (pf profit).
Hypothesis Hn : 1 <= NI.
Hypothesis Hcap : (0 <= capa)%Z.
Hypothesis Hw : Forall (fun w => (0 <= w)%Z) weight.

(** total weight and profit of a selection that starts at item n *)
Fixpoint tot (f : nat -> Z) (n : nat) (ls : list Z) : Z :=
  match ls with [] => 0%Z | l :: r => (l * f n + tot f (S n) r)%Z end.
Definition selection (ls : list Z) : Prop := Forall (fun l => l = 0%Z \/ l = 1%Z) ls.

Lemma wt_nonneg n : (0 <= wt n)%Z.
Proof.
  unfold KnapModel.wt. destruct (Nat.lt_ge_cases n (length weight)) as [H|H].
  - rewrite Forall_forall in Hw. apply Hw. now apply nth_In.
  - rewrite nth_overflow; auto. lia.
Qed.
Lemma tot_nonneg n ls : selection ls -> (0 <= tot wt n ls)%Z.
Proof.
  intros H. revert n. induction H as [|l ls Hl H IH]; intros n; cbn [tot]; [lia|].
  specialize (IH (S n)). pose proof (wt_nonneg n). destruct Hl as [->| ->]; lia.
Qed.

(** what both examples have in common *)
Record knap_like (P : prob sks) : Prop := {
  k_init : p_init P = (0, capa);
  k_target : p_target P = (NI, 0%Z);
  k_labels : forall s l, In l (p_labels P s) <-> l = 0%Z \/ (l = 1%Z /\ (wt (fst s) <= snd s)%Z);
  k_stf : forall s l, l = 0%Z \/ l = 1%Z -> p_stf P s l =
     if (S (fst s) <? NI) then Some (S (fst s), (snd s - l * wt (fst s))%Z) else Some (NI, 0%Z);
  k_cost : forall s l, p_cost P s l = (pf (fst s) * l)%Z;
  k_min : p_min P = false;
  k_smf : forall a b m, p_smf P a b = Some m -> m = (Nat.max (fst a) (fst b), Z.max (snd a) (snd b));
  k_eqs : forall s, p_eqs P s = (fst s =? NI);
  k_eqb : p_eqb P = sks_eqb }.

Lemma knapsack_like : knap_like (knapsack weight profit capa).
Proof.
  constructor; cbn [knapsack p_init p_target p_labels p_stf p_cost p_min p_smf p_eqs p_eqb]; auto.
  - intros s l. unfold kn_lgf. destruct (Z.leb_spec (wt (fst s)) (snd s)); cbn; intuition lia.
  - intros s l Hl. unfold kn_stf. destruct (Nat.ltb_spec (S (fst s)) NI) as [H|H];
      destruct (Z.ltb_spec (Z.of_nat (fst s)) (Z.of_nat NI - 1)); try lia; auto.
    destruct Hl as [->| ->]; cbn [Z.eqb]; do 2 f_equal; lia.
  - intros a b m. unfold kn_smf. destruct (_ <=? _)%Z; [|discriminate]. intros [= <-]. auto.
Qed.
Lemma knapsack2_like frac : knap_like (knapsack2 weight profit capa frac).
Proof.
  constructor; cbn [knapsack2 p_init p_target p_labels p_stf p_cost p_min p_smf p_eqs p_eqb]; auto.
  - intros s l. unfold kn2_lgf. destruct (Z.leb_spec (wt (fst s)) (snd s)); cbn; intuition lia.
  - intros s l Hl. unfold kn2_stf. destruct (Nat.ltb_spec (S (fst s)) NI) as [H|H];
      destruct (Z.ltb_spec (Z.of_nat (fst s)) (Z.of_nat NI - 1)); try lia; auto.
  - intros a b m. unfold kn2_smf. destruct (_ <=? _)%Z; [|discriminate]. intros [= <-]. auto.
Qed.

(** reachable states and their merges *)
Definition kn_inv (s : sks) : Prop := (fst s < NI /\ (0 <= snd s)%Z) \/ s = (NI, 0%Z).

Section Like.
Variable P : prob sks.
Hypothesis HP : knap_like P.

Lemma kn_target s : kn_inv s -> s <> p_target P -> fst s < NI /\ (0 <= snd s)%Z.
Proof. rewrite (k_target _ HP). intros [?|?]; tauto. Qed.

Lemma kn_closed : closed P kn_inv.
Proof.
  constructor.
  - intros a b _ _. rewrite (k_eqb _ HP). apply sks_eqb_eq.
  - intros s Hs. rewrite (k_eqs _ HP), Nat.eqb_eq, (k_target _ HP). split.
    + intros E. destruct Hs as [[? _]|?]; auto. lia.
    + intros ->. auto.
  - rewrite (k_target _ HP). now right.
  - intros s l s' Hs Nt Hl E. apply (k_labels _ HP) in Hl.
    rewrite (k_stf _ HP) in E by tauto.
    destruct (kn_target s Hs Nt) as [H1 H2].
    destruct (Nat.ltb_spec (S (fst s)) NI); injection E as <-; [left|now right].
    cbn. split; auto. destruct Hl as [->|[-> ?]]; lia.
Qed.

Lemma kn_layered : layered P kn_inv fst.
Proof.
  intros s l s' Hs Nt Hl E Nt'. apply (k_labels _ HP) in Hl. rewrite (k_stf _ HP) in E by tauto.
  destruct (Nat.ltb_spec (S (fst s)) NI); injection E as <-; auto. exfalso. apply Nt'. now rewrite (k_target _ HP).
Qed.
Lemma kn_depth : depth_le P kn_inv fst NI.
Proof. intros s Hs Nt. apply kn_target in Nt; auto. lia. Qed.

Lemma kn_merge_layered : merge_layered P kn_inv fst.
Proof.
  intros a b m Ha Hb Na Nb E M. apply (k_smf _ HP) in M. subst m.
  destruct (kn_target a Ha Na), (kn_target b Hb Nb).
  cbn [fst]. rewrite E, Nat.max_id, (k_target _ HP). csplit; auto.
  - left. cbn. lia.
  - intros [= ? ?]. lia.
Qed.

(** more capacity, more completions *)
Lemma kn_mono : forall ls n c v, path P (n, c) ls v (p_target P) -> forall c', (c <= c')%Z -> n < NI ->
  path P (n, c') ls v (p_target P).
Proof.
  induction ls as [|l ls IH]; intros n c v H c' Hc Hlt; inversion H; subst.
  - rewrite (k_target _ HP) in *. match goal with E : _ = (NI, 0%Z) |- _ => injection E; lia end.
  - match goal with E : p_stf P _ _ = Some ?x, Q : path P ?x ls _ _, L : In l _ |- _ =>
      rename E into ES; rename Q into HQ; rename L into HL end.
    apply (k_labels _ HP) in HL. cbn [fst snd] in HL.
    rewrite (k_stf _ HP) in ES by tauto. cbn [fst snd] in ES.
    rewrite (k_cost _ HP). cbn [fst].
    replace (pf n * l)%Z with (p_cost P (n, c') l) by (rewrite (k_cost _ HP); auto).
    eapply (path_cons P _ _ (if S n <? NI then (S n, (c' - l * wt n)%Z) else (NI, 0%Z))).
    + rewrite (k_target _ HP). intros [= ? ?]. lia.
    + apply (k_labels _ HP). cbn. destruct HL as [->|[-> ?]]; auto. right. split; auto. lia.
    + rewrite (k_stf _ HP) by tauto. cbn [fst snd]. destruct (S n <? NI); auto.
    + destruct (Nat.ltb_spec (S n) NI); injection ES as <-; auto. eapply IH; eauto. lia.
Qed.
Lemma kn_relaxes n c c' : n < NI -> (c <= c')%Z -> relaxes P (n, c') (n, c).
Proof.
  intros Hlt Hc v [ls H]. exists v. split; [|apply be_refl]. exists ls. eapply kn_mono; eauto.
Qed.
Lemma kn_valid_merge : valid_merge P kn_inv fst.
Proof.
  intros a b m Ha Hb Na Nb E M. apply (k_smf _ HP) in M. subst m.
  destruct (kn_target a Ha Na), (kn_target b Hb Nb). destruct a as [n c], b as [n' c']; cbn [fst snd] in *. subst n'.
  rewrite Nat.max_id. split; apply kn_relaxes; auto; lia.
Qed.

(** the solutions of the model are exactly the feasible selections *)
Lemma kn_paths : forall k n c ls v, NI - n = k -> n < NI -> (0 <= c)%Z ->
  (path P (n, c) ls v (p_target P) <->
   selection ls /\ length ls = NI - n /\ (tot wt n ls <= c)%Z /\ v = tot pf n ls).
Proof.
  induction k as [|k IH]; intros n c ls v Ek Hlt Hc; [lia|].
  assert (NT : (n, c) <> p_target P). { rewrite (k_target _ HP). intros [= ? ?]. lia. }
  split.
  - intros H. inversion H; subst; [congruence|].
    match goal with E : p_stf P _ _ = Some ?x, Q : path P ?x _ _ _, L : In l _ |- _ =>
      rename E into ES; rename Q into HQ; rename L into HL end.
    apply (k_labels _ HP) in HL. cbn [fst snd] in HL. rewrite (k_stf _ HP) in ES by tauto. cbn [fst snd] in ES.
    rewrite (k_cost _ HP). cbn [fst tot length].
    destruct (Nat.ltb_spec (S n) NI) as [L1|L1]; injection ES as <-.
    + apply IH in HQ; try lia.
      destruct HQ as (S1 & S2 & S3 & ->). csplit; try lia. constructor; auto. tauto.
    + rewrite <- (k_target _ HP) in HQ. apply path_target in HQ as (-> & -> & _). cbn. csplit; try lia.
        constructor; [tauto|constructor].
  - intros (S1 & S2 & S3 & ->). destruct ls as [|l ls]; [cbn in S2; lia|].
    inversion S1; subst. cbn [tot length] in *. pose proof (tot_nonneg (S n) ls H2). pose proof (wt_nonneg n).
    replace (l * pf n)%Z with (p_cost P (n, c) l) by (rewrite (k_cost _ HP); cbn; lia).
    eapply (path_cons P _ _ (if S n <? NI then (S n, (c - l * wt n)%Z) else (NI, 0%Z))); auto.
    + apply (k_labels _ HP). cbn. destruct H1 as [->| ->]; auto. right. split; auto. lia.
    + rewrite (k_stf _ HP) by tauto. cbn [fst snd]. destruct (S n <? NI); auto.
    + destruct (Nat.ltb_spec (S n) NI) as [L1|L1].
      * apply IH; try lia. csplit; auto; try lia.
      * destruct ls; [|cbn in S2; lia]. rewrite (k_target _ HP). constructor.
Qed.
Lemma kn_solutions ls v : path P (p_init P) ls v (p_target P) <->
  selection ls /\ length ls = NI /\ (tot wt 0 ls <= capa)%Z /\ v = tot pf 0 ls.
Proof. rewrite (k_init _ HP). rewrite (kn_paths NI 0) by lia. now rewrite Nat.sub_0_r. Qed.
Lemma kn_value_nonneg : Forall (fun p => (0 <= p)%Z) profit -> forall s ls v s', path P s ls v s' -> (0 <= v)%Z.
Proof.
  intros Hp s ls v s' H. induction H as [|s l s1 ls v s' N L S H IH]; [lia|].
  rewrite (k_cost _ HP). apply (k_labels _ HP) in L.
  assert (0 <= pf (fst s))%Z.
  { unfold KnapModel.pf. destruct (Nat.lt_ge_cases (fst s) (length profit)) as [G|G].
    - rewrite Forall_forall in Hp. apply Hp. now apply nth_In.
    - rewrite nth_overflow; auto. lia. }
  destruct L as [->|[-> _]]; lia.
Qed.
Lemma kn_in_range s b : Forall (fun p => (0 <= p)%Z) profit -> (0 <= b)%Z -> in_range P s b.
Proof.
  intros Hp Hb ls v s' H. apply kn_value_nonneg in H; auto. unfold bt, val, sentinel. rewrite (k_min _ HP). lia.
Qed.
Lemma kn_init_inv : kn_inv (p_init P) /\ p_init P <> p_target P.
Proof.
  rewrite (k_init _ HP), (k_target _ HP). split; [left; cbn; lia|]. intros [= ? ?]. lia.
Qed.
End Like.

(** the dominance of knapsack2 *)
Lemma kn2_valid_dom frac : valid_dom (knapsack2 weight profit capa frac) kn_inv fst.
Proof.
  intros sdom a b [= <-] Ha Hb Na Nb E D.
  pose proof (knapsack2_like frac) as HP.
  destruct (kn_target _ HP a Ha Na), (kn_target _ HP b Hb Nb). destruct a as [n c], b as [n' c']; cbn [fst snd] in *. subst n'.
  unfold kn2_dom in D. cbn [fst snd] in D. apply kn_relaxes; auto. lia.
Qed.
Lemma kn2_dom_target frac : dom_avoids_target (knapsack2 weight profit capa frac) kn_inv fst.
Proof.
  intros sdom a s l [= <-] Ha Na Hs Ns Hl E R. exfalso.
  pose proof (knapsack2_like frac) as HP. destruct (kn_target _ HP a Ha Na). destruct (kn_target _ HP s Hs Ns).
  apply (k_labels _ HP) in Hl. rewrite (k_stf _ HP) in E by tauto.
  destruct (Nat.ltb_spec (S (fst s)) NI); [|lia]. rewrite (k_target _ HP) in E. injection E as ?. lia.
Qed.

(** the fractional bound in exact arithmetic, items sorted by decreasing profit/weight *)
Definition ratio_ge (a b : Z * Z) : Prop := (snd b * fst a <= snd a * fst b)%Z.
Fixpoint sorted_ratio (l : list (Z * Z)) : Prop :=
  match l with [] => True | a :: r => Forall (ratio_ge a) r /\ sorted_ratio r end.
Fixpoint seltot (f : Z * Z -> Z) (items : list (Z * Z)) (ls : list Z) : Z :=
  match items, ls with i :: r, l :: q => (l * f i + seltot f r q)%Z | _, _ => 0%Z end.

Lemma seltot_ratio pk wk : forall items ls, selection ls -> Forall (ratio_ge (wk, pk)) items ->
  (wk * seltot snd items ls <= pk * seltot fst items ls)%Z.
Proof.
  induction items as [|[w p] items IH]; intros ls S F; cbn [seltot]; [lia|].
  destruct ls as [|l ls]; [lia|]. inversion S; subst. inversion F; subst. specialize (IH ls H2 H4).
  unfold ratio_ge in H3. cbn [fst snd] in *. destruct H1 as [->| ->]; lia.
Qed.

Lemma greedy_dual : forall items rc ls, sorted_ratio items -> Forall (fun i => 0 < fst i /\ 0 <= snd i)%Z items -> selection ls ->
  (seltot snd items ls <= greedy frac_exact items rc)%Z \/
  (exists B wk pk r', In (wk, pk) items /\ (0 < wk)%Z /\ greedy frac_exact items rc = (B + frac_exact r' wk pk)%Z /\
     (wk * (seltot snd items ls - B) <= pk * (seltot fst items ls - (rc - r')))%Z).
Proof.
  induction items as [|[w p] items IH]; intros rc ls SR F S; cbn [greedy].
  - left. cbn. lia.
  - inversion F as [|? ? [W0 P0] F']; subst. destruct SR as [SR1 SR2]. cbn [fst snd] in *.
    destruct (Z.leb_spec w rc).
    + destruct ls as [|l ls].
      { destruct (IH (rc - w)%Z [] SR2 F' S) as [H1|(B & wk & pk & r' & H1 & H2 & H3 & H4)].
        - left. destruct items; cbn [seltot] in *; lia.
        - right. exists (p + B)%Z, wk, pk, r'. csplit; auto; [now right|lia|].
          rewrite Forall_forall in SR1. specialize (SR1 _ H1). unfold ratio_ge in SR1. cbn [fst snd] in SR1.
          destruct items as [|i0 items]; [destruct H1|]. cbn [seltot] in *. lia. }
      inversion S; subst. destruct (IH (rc - w)%Z ls SR2 F' H3) as [H1|(B & wk & pk & r' & H1 & H4 & H5 & H6)].
      * left. cbn [seltot fst snd]. destruct H2 as [->| ->]; lia.
      * right. exists (p + B)%Z, wk, pk, r'. csplit; auto; [now right|lia|].
        rewrite Forall_forall in SR1. specialize (SR1 _ H1). unfold ratio_ge in SR1. cbn [fst snd] in SR1.
        cbn [seltot fst snd]. destruct H2 as [->| ->]; lia.
    + right. exists 0%Z, w, p, rc. csplit; auto; [now left|].
      pose proof (seltot_ratio p w ((w, p) :: items) ls S) as R. rewrite !Z.sub_0_r.
      replace (rc - rc)%Z with 0%Z by lia. rewrite Z.sub_0_r. apply R. constructor; auto. unfold ratio_ge. cbn. lia.
Qed.
Lemma greedy_bound items rc ls : sorted_ratio items -> Forall (fun i => 0 < fst i /\ 0 <= snd i)%Z items -> selection ls ->
  (seltot fst items ls <= rc)%Z -> (seltot snd items ls <= greedy frac_exact items rc)%Z.
Proof.
  intros SR F S W. destruct (greedy_dual items rc ls SR F S) as [?|(B & wk & pk & r' & H1 & H2 & -> & H4)]; auto.
  unfold frac_exact. enough (seltot snd items ls - B <= r' * pk / wk)%Z by lia.
  apply Z.div_le_lower_bound; auto.
  rewrite Forall_forall in F. apply F in H1 as [_ H1]. cbn [snd] in H1. nia.
Qed.

Lemma skipn_cons {A} : forall n (l : list A) a r (d : A), skipn n l = a :: r -> r = skipn (S n) l /\ a = nth n l d.
Proof.
  induction n as [|n IH]; intros [|x l] a r d E; try discriminate.
  - cbn in *. injection E as -> ->. auto.
  - cbn [skipn nth] in *. now apply IH.
Qed.
Lemma seltot_tot f g : (forall i, nth i (map f (combine weight profit)) 0%Z = g i \/ length (combine weight profit) <= i) ->
  forall ls n, length ls + n <= length (combine weight profit) -> seltot f (skipn n (combine weight profit)) ls = tot g n ls.
Proof.
  intros H. induction ls as [|l ls IH]; intros n Hl; cbn [tot].
  - destruct (skipn n _); auto.
  - cbn [length] in Hl. destruct (skipn n (combine weight profit)) as [|a r] eqn:E.
    + assert (length (skipn n (combine weight profit)) = 0) by (now rewrite E). rewrite skipn_length in H0. lia.
    + cbn [seltot]. assert (r = skipn (S n) (combine weight profit)) as ->.
      { apply (skipn_cons _ _ _ _ (0%Z, 0%Z) E). }
      rewrite IH by lia. f_equal. f_equal. destruct (H n) as [<-|]; [|lia].
      rewrite (nth_indep _ 0%Z (f a)) by (rewrite map_length; lia). rewrite map_nth. f_equal.
      apply (skipn_cons _ _ _ _ a E).
Qed.

Hypothesis Hlen : length profit = length weight.
Hypothesis Hsorted : sorted_ratio (combine weight profit).
Hypothesis Hpos : Forall (fun i => 0 < fst i /\ 0 <= snd i)%Z (combine weight profit).

Lemma kn2_valid_local : valid_local (knapsack2 weight profit capa frac_exact) kn_inv.
Proof.
  intros local s ctx v [= <-] Hs [ls H]. pose proof (knapsack2_like frac_exact) as HP.
  set (P := knapsack2 weight profit capa frac_exact) in *.
  assert (LC : length (combine weight profit) = NI) by (rewrite combine_length, Hlen; apply Nat.min_id).
  unfold be, val. rewrite (k_min _ HP).
  destruct Hs as [[H1 H2]| ->].
  - destruct s as [n c]. cbn [fst snd] in *.
    apply (kn_paths P HP (NI - n) n) in H; auto. destruct H as (S1 & S2 & S3 & ->).
    unfold kn2_local. cbn [fst snd].
    rewrite <- (seltot_tot fst (KnapModel.wt weight)) in S3.
    3: { rewrite LC; lia. }
    2: { intros i. destruct (Nat.lt_ge_cases i NI) as [Hi|Hi]; [left|right; lia]. unfold KnapModel.wt.
         rewrite (nth_indep _ 0%Z (fst (0%Z, 0%Z))) by (rewrite map_length, LC; auto). rewrite map_nth, combine_nth; auto. }
    rewrite <- (seltot_tot snd (KnapModel.pf profit)).
    3: { rewrite LC; lia. }
    2: { intros i. destruct (Nat.lt_ge_cases i NI) as [Hi|Hi]; [left|right; lia]. unfold KnapModel.pf.
         rewrite (nth_indep _ 0%Z (snd (0%Z, 0%Z))) by (rewrite map_length, LC; auto). rewrite map_nth, combine_nth; auto. }
    assert (G : forall l n, sorted_ratio l -> sorted_ratio (skipn n l)).
    { clear. induction l as [|a l IH]; intros [|n] H; cbn; auto. apply IH. apply H. }
    enough (seltot snd (skipn n (combine weight profit)) ls <= greedy frac_exact (skipn n (combine weight profit)) c)%Z by lia.
    apply greedy_bound; auto.
    clear - Hpos. revert n. induction Hpos as [|a l Ha Hl IH]; intros [|n]; cbn; auto.
  - rewrite <- (k_target _ HP) in H. apply path_target in H as (_ & -> & _).
    unfold kn2_local. cbn [fst snd]. rewrite skipn_all2 by lia. cbn. lia.
Qed.

Lemma knapsack2_valid : valid_model (knapsack2 weight profit capa frac_exact) kn_inv fst NI.
Proof.
  pose proof (knapsack2_like frac_exact) as HP. constructor.
  - now apply kn_closed.
  - now apply kn_layered.
  - now apply kn_depth.
  - now apply kn_merge_layered.
  - now apply kn_valid_merge.
  - apply kn2_valid_dom.
  - apply kn2_dom_target.
  - apply kn2_valid_local.
Qed.
End Knap.
Lemma knapsack_valid weight profit capa : 1 <= kn_I weight -> (0 <= capa)%Z -> Forall (fun w => (0 <= w)%Z) weight ->
  valid_model (knapsack weight profit capa) (kn_inv weight) fst (kn_I weight).
Proof.
  intros H1 H2 H3. pose proof (knapsack_like weight profit capa H1) as HP. constructor.
  - now apply (kn_closed weight profit capa).
  - now apply (kn_layered weight profit capa).
  - now apply (kn_depth weight profit capa).
  - now apply (kn_merge_layered weight profit capa).
  - now apply (kn_valid_merge weight profit capa).
  - intros sdom a b E. discriminate.
  - intros sdom a s l E. discriminate.
  - intros local s ctx v E. discriminate.
Qed.
