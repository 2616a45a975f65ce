From Verif Require Import Base ListModel ListSpec.

Definition links (nx pv : nat -> option nat) (c : list nat) : Prop :=
  forall c1 n c2, c = c1 ++ n :: c2 -> nx n = first c2 /\ pv n = first (rev c1).
Record linv (s : lst) (E : cont) : Prop := {
  k_head : forall a, l_head s a = first (E a);
  k_tail : forall a, l_tail s a = first (rev (E a));
  k_links : forall a, links (l_next s) (l_prev s) (E a);
  k_nd : forall a, NoDup (E a);
  k_sep : forall a b n, In n (E a) -> In n (E b) -> a = b }.

Lemma first_app l m : first (l ++ m) = match l with [] => first m | x :: _ => Some x end.
Proof. destruct l; reflexivity. Qed.
Lemma first_rev_snoc l (x : nat) : first (rev (l ++ [x])) = Some x.
Proof. rewrite rev_app_distr. reflexivity. Qed.
Lemma first_rev_in l x : first (rev l) = Some x -> exists m, l = m ++ [x].
Proof.
  destruct l as [|a l] using rev_ind; [discriminate|]. rewrite first_rev_snoc. intros [= ->]. eauto.
Qed.
Lemma links_frame nx pv nx' pv' c : links nx pv c -> (forall n, In n c -> nx' n = nx n) -> (forall n, In n c -> pv' n = pv n) -> links nx' pv' c.
Proof.
  intros H H1 H2 c1 n c2 E. rewrite H1, H2 by (subst; apply in_elt). exact (H c1 n c2 E).
Qed.
(** two splits of the same list at the same element *)
Lemma split_mid {A} (l1 l2 m1 m2 : list A) x : l1 ++ l2 = m1 ++ x :: m2 -> (exists t, l1 = m1 ++ x :: t /\ m2 = t ++ l2) \/ (exists t, l2 = t ++ x :: m2 /\ m1 = l1 ++ t).
Proof.
  revert m1. induction l1 as [|a l1 IH]; intros m1 E; cbn in E.
  - right. exists m1. auto.
  - destruct m1 as [|b m1]; cbn in E.
    + injection E as -> <-. left. exists l1. auto.
    + injection E as -> E. destruct (IH m1 E) as [[t [-> ->]]|[t [-> ->]]]; [left; exists t; auto | right; exists t; auto].
Qed.
Lemma NoDup_mid {A} (l1 l2 : list A) x : NoDup (l1 ++ x :: l2) -> ~ In x l1 /\ ~ In x l2.
Proof. intros H. apply NoDup_remove_2 in H. rewrite in_app_iff in H. tauto. Qed.

Lemma push_links nx pv c n : links nx pv c -> NoDup c -> ~ In n c ->
  links (match first (rev c) with Some t => fupd (fupd nx n None) t (Some n) | None => fupd nx n None end) (fupd pv n (first (rev c))) (c ++ [n]).
Proof.
  intros H Hnd Hn c1 m c2 E. apply split_mid in E as [[t [-> ->]]|[t [Et ->]]].
  - destruct (H c1 m t eq_refl) as [A B]. assert (Hm : m <> n) by (intros ->; apply Hn, in_elt).
    rewrite (fupd_diff pv) by auto. split; [|exact B]. destruct t as [|y t] using rev_ind.
    + rewrite first_rev_snoc. rewrite fupd_same. reflexivity.
    + clear IHt. rewrite app_comm_cons, app_assoc, first_rev_snoc. 
      assert (m <> y). { intros ->. apply NoDup_mid in Hnd as [_ Hnd]. apply Hnd, in_elt. }
      rewrite !fupd_diff by auto. rewrite A. destruct t; reflexivity.
  - destruct t as [|y t]; [|destruct t; discriminate]. injection Et as <- <-. rewrite app_nil_r. rewrite fupd_same. split; [|reflexivity].
    destruct (first (rev c)) as [y|] eqn:Ey; [|apply fupd_same]. apply first_rev_in in Ey as [m ->].
    rewrite fupd_diff; [apply fupd_same|]. intros ->. apply Hn, in_elt.
Qed.
Lemma remove_links nx pv nx' pv' c1 n c2 : links nx pv (c1 ++ n :: c2) -> NoDup (c1 ++ n :: c2) ->
  (forall m, In m c1 \/ In m c2 -> nx' m = if match first (rev c1) with Some p => m =? p | None => false end then nx n else nx m) ->
  (forall m, In m c1 \/ In m c2 -> pv' m = if match first c2 with Some p => m =? p | None => false end then pv n else pv m) ->
  links nx' pv' (c1 ++ c2).
Proof.
  intros H Hnd Hx Hp d1 m d2 E. destruct (H c1 n c2 eq_refl) as [Hn1 Hn2].
  assert (Hin : In m c1 \/ In m c2) by (apply in_app_iff; rewrite E; apply in_elt).
  rewrite Hx, Hp by exact Hin. clear Hx Hp. apply split_mid in E as [[t [-> ->]]|[t [-> ->]]].
  - rewrite <- app_assoc in H, Hnd. cbn in H, Hnd. destruct (H d1 m (t ++ n :: c2) eq_refl) as [A B].
    assert (Hnd1 := NoDup_mid _ _ _ Hnd). rewrite in_app_iff in Hnd1. split.
    + destruct t as [|y t] using rev_ind.
      * rewrite first_rev_snoc, Nat.eqb_refl. rewrite Hn1. reflexivity.
      * clear IHt. rewrite app_comm_cons, app_assoc, first_rev_snoc. assert (m <> y). { intros ->. apply Hnd1. left. apply in_elt. }
        apply Nat.eqb_neq in H0. rewrite H0, A. rewrite !first_app. destruct t; reflexivity.
    + destruct (first c2) as [y|] eqn:Ey; [|exact B]. destruct c2 as [|y' c2]; [discriminate|]. injection Ey as ->.
      assert (m <> y). { intros ->. apply Hnd1. right. right; left; reflexivity. }
      apply Nat.eqb_neq in H0. rewrite H0. exact B.
  - assert (E2 : c1 ++ n :: t ++ m :: d2 = (c1 ++ n :: t) ++ m :: d2) by (rewrite <- app_assoc; reflexivity).
    destruct (H _ m d2 E2) as [A B]. rewrite E2 in Hnd. assert (Hnd1 := NoDup_mid _ _ _ Hnd). rewrite in_app_iff in Hnd1. split.
    + destruct (first (rev c1)) as [y|] eqn:Ey; [|exact A]. apply first_rev_in in Ey as [z ->].
      assert (m <> y). { intros ->. apply (proj1 Hnd1). left. apply in_elt. }
      apply Nat.eqb_neq in H0. rewrite H0. exact A.
    + destruct t as [|y t].
      * cbn [app first]. rewrite Nat.eqb_refl, Hn2, app_nil_r. reflexivity.
      * cbn [app first]. assert (m <> y). { intros ->. apply (proj1 Hnd1). right. right; left; reflexivity. }
        apply Nat.eqb_neq in H0. rewrite H0, B. rewrite !rev_app_distr. cbn [rev]. rewrite <- ?app_assoc. cbn [app].
        rewrite !first_app. destruct (rev t); reflexivity.
Qed.

Lemma from_ok s c : links (l_next s) (l_prev s) c -> forall c2 c1 f, c = c1 ++ c2 -> length c2 <= f -> l_from f s (first c2) = Ok c2.
Proof.
  intros H. induction c2 as [|n c2 IH]; intros c1 f E Hf; [destruct f; reflexivity|]. destruct f as [|f]; [cbn in Hf; lia|]. cbn [l_from first].
  destruct (H c1 n c2 E) as [A _]. rewrite A. rewrite (IH (c1 ++ [n])); [reflexivity | rewrite <- app_assoc; exact E | cbn in Hf; lia].
Qed.
Lemma back_ok s c : links (l_next s) (l_prev s) c -> forall c1 c2 f, c = c1 ++ c2 -> length c1 <= f -> l_back f s (first (rev c1)) = Ok (rev c1).
Proof.
  intros H. induction c1 as [|n c1 IH] using rev_ind; intros c2 f E Hf; [destruct f; reflexivity|]. rewrite app_length in Hf. cbn in Hf. destruct f as [|f]; [lia|].
  rewrite <- app_assoc in E. destruct (H c1 n c2 E) as [_ B]. rewrite rev_app_distr. cbn [rev app first l_back].
  rewrite B. rewrite (IH (n :: c2)); [reflexivity | exact E | lia].
Qed.
Lemma member_ok s c n : links (l_next s) (l_prev s) c -> forall c2 c1 f, c = c1 ++ c2 -> length c2 <= f -> exists b, l_member f s (first c2) n = Ok b /\ (b = true <-> In n c2).
Proof.
  intros H. induction c2 as [|m c2 IH]; intros c1 f E Hf.
  - exists false. split; [destruct f; reflexivity|]. split; [discriminate | intros []].
  - cbn [first]. destruct f as [|f]; [cbn in Hf; lia|]. cbn [l_member].
    destruct (Nat.eqb_spec m n) as [->|Hm]; [exists true; split; [reflexivity|]; split; [left; reflexivity | reflexivity]|].
    destruct (H c1 m c2 E) as [A _]. rewrite A. destruct (IH (c1 ++ [m]) f) as [b [E1 E2]]; [rewrite <- app_assoc; exact E | cbn in Hf; lia|].
    exists b. split; [exact E1|]. rewrite E2. cbn. split; [auto | intros [?|?]; [contradiction | assumption]].
Qed.

Lemma linv_upd s s1 E a c : linv s E -> NoDup c -> (forall n, In n c -> In n (E a) \/ forall b, ~ In n (E b)) ->
  l_head s1 a = first c -> l_tail s1 a = first (rev c) -> links (l_next s1) (l_prev s1) c ->
  (forall b, b <> a -> l_head s1 b = l_head s b /\ l_tail s1 b = l_tail s b /\ forall n, In n (E b) -> l_next s1 n = l_next s n /\ l_prev s1 n = l_prev s n) ->
  linv s1 (fupd E a c).
Proof.
  intros H Hnd Hin Hh Ht Hl Ho. constructor.
  - intros b. rewrite fupd_eq. destruct (Nat.eqb_spec b a) as [->|Hb]; [exact Hh|]. rewrite (proj1 (Ho b Hb)). apply (k_head _ _ H).
  - intros b. rewrite fupd_eq. destruct (Nat.eqb_spec b a) as [->|Hb]; [exact Ht|]. rewrite (proj1 (proj2 (Ho b Hb))). apply (k_tail _ _ H).
  - intros b. rewrite fupd_eq. destruct (Nat.eqb_spec b a) as [->|Hb]; [exact Hl|].
    eapply links_frame; [apply (k_links _ _ H b) | |]; intros n Hn; apply (Ho b Hb), Hn.
  - intros b. rewrite fupd_eq. destruct (Nat.eqb_spec b a) as [->|Hb]; [exact Hnd | apply (k_nd _ _ H)].
  - intros b b' n. rewrite !fupd_eq. destruct (Nat.eqb_spec b a) as [->|Hb], (Nat.eqb_spec b' a) as [->|Hb']; auto.
    + intros Hc Hb0. destruct (Hin n Hc) as [Hi|Hi]; [apply (k_sep _ _ H a b' n Hi Hb0) | destruct (Hi b' Hb0)].
    + intros Hb0 Hc. destruct (Hin n Hc) as [Hi|Hi]; [apply (k_sep _ _ H b a n Hb0 Hi) | destruct (Hi b Hb0)].
    + apply (k_sep _ _ H).
Qed.

Lemma first_in l n : first l = Some n -> In n l.
Proof. destruct l; [discriminate | intros [= ->]; left; reflexivity]. Qed.
Lemma push_ok s E a n : linv s E -> (forall b, ~ In n (E b)) -> exists s1, l_push false s a n = Ok s1 /\ linv s1 (fupd E a (E a ++ [n])).
Proof.
  intros H Hn. unfold l_push. cbn [andb]. eexists. split; [reflexivity|].
  assert (Hpl := push_links _ _ _ n (k_links _ _ H a) (k_nd _ _ H a) (Hn a)).
  assert (Hot : forall b m, b <> a -> In m (E b) -> m <> n /\ (forall t, first (rev (E a)) = Some t -> m <> t)).
  { intros b m Hb Hm. split; [intros ->; exact (Hn b Hm)|]. intros t Et ->. apply first_in in Et. apply in_rev in Et. apply Hb. eapply (k_sep _ _ H); eauto. }
  rewrite (k_head _ _ H). destruct (E a) as [|x l] eqn:Ea.
  - cbn [first]. rewrite <- Ea. apply (linv_upd s _ E a); auto.
    + rewrite Ea. repeat constructor. intros [].
    + rewrite Ea. intros m [<-|[]]. right. exact Hn.
    + cbn. rewrite Ea, fupd_same. reflexivity.
    + cbn. rewrite Ea, fupd_same. reflexivity.
    + cbn in *. rewrite Ea. exact Hpl.
    + intros b Hb. cbn. rewrite !fupd_diff by auto. split; [reflexivity|]. split; [reflexivity|]. intros m Hm. destruct (Hot b m Hb Hm) as [A _]. rewrite !fupd_diff by auto. auto.
  - cbn [first]. rewrite <- Ea in *.
    assert (Ht : exists t, first (rev (E a)) = Some t) by (rewrite Ea; cbn; destruct (rev l); cbn; eauto). destruct Ht as [t Ht].
    cbn [set_next set_prev l_tail]. rewrite (k_tail _ _ H), Ht. rewrite Ht in Hpl. apply (linv_upd s _ E a); auto.
    + apply (Permutation_NoDup (l := n :: E a)); [apply Permutation_cons_append|]. constructor; [apply Hn | apply (k_nd _ _ H)].
    + intros m Hm. apply in_app_iff in Hm as [Hm|[<-|[]]]; [left; exact Hm | right; exact Hn].
    + cbn. rewrite (k_head _ _ H), Ea. reflexivity.
    + cbn. rewrite fupd_same, first_rev_snoc. reflexivity.
    + intros b Hb. cbn. rewrite !fupd_diff by auto. split; [reflexivity|]. split; [reflexivity|]. intros m Hm. destruct (Hot b m Hb Hm) as [A B].
      rewrite !fupd_diff by (auto; apply B; exact Ht). auto.
Qed.

Lemma remove_ok s E a l1 n l2 : linv s E -> E a = l1 ++ n :: l2 -> linv (l_remove s a n) (fupd E a (l1 ++ l2)).
Proof.
  intros H Ea. assert (Hl := k_links _ _ H a). assert (Hnd := k_nd _ _ H a). rewrite Ea in Hl, Hnd.
  destruct (Hl l1 n l2 eq_refl) as [Hn Hp]. assert (Hno := NoDup_mid _ _ _ Hnd).
  assert (Hh := k_head _ _ H a). assert (Ht := k_tail _ _ H a). rewrite Ea in Hh, Ht. rewrite rev_app_distr in Ht. cbn [rev] in Ht. rewrite <- app_assoc in Ht.
  assert (Hot : forall b m, b <> a -> In m (E b) -> m <> n /\ (forall t, first (rev l1) = Some t -> m <> t) /\ (forall t, first l2 = Some t -> m <> t)).
  { intros b m Hb Hm. split; [|split].
    - intros ->. apply Hb. eapply (k_sep _ _ H); eauto. rewrite Ea. apply in_elt.
    - intros t Et ->. apply first_in, in_rev in Et. apply Hb. eapply (k_sep _ _ H); eauto. rewrite Ea. apply in_app_iff. auto.
    - intros t Et ->. apply first_in in Et. apply Hb. eapply (k_sep _ _ H); eauto. rewrite Ea. apply in_app_iff. right; right; auto. }
  unfold l_remove. rewrite Hn, Hp. apply (linv_upd s _ E a); auto.
  - apply (NoDup_remove_1 _ _ _ Hnd).
  - intros m Hm. left. rewrite Ea. apply in_app_iff in Hm. apply in_app_iff. destruct Hm; [left; auto | right; right; auto].
  - rewrite first_app in *. destruct l1 as [|x l1] using rev_ind.
    + cbn. destruct l2; cbn; rewrite ?fupd_same; reflexivity.
    + clear IHl1. rewrite first_rev_snoc. destruct l2; cbn; rewrite Hh; destruct l1; reflexivity.
  - rewrite rev_app_distr, first_app in *. destruct l2 as [|x l2].
    + cbn. rewrite fupd_same. reflexivity.
    + cbn in Ht |- *. destruct (rev l2 ++ [x]) eqn:Er; [destruct (rev l2); discriminate|].
      destruct (first (rev l1)); cbn; rewrite Ht; destruct (rev l2); cbn in *; congruence.
  - apply (remove_links (l_next s) (l_prev s) _ _ l1 n l2 Hl Hnd).
    + intros m Hm. assert (Hmn : m <> n) by (intros ->; tauto). destruct (first (rev l1)) as [p|], (first l2) as [q|]; cbn; rewrite (fupd_diff _ n) by auto; rewrite ?fupd_eq; try rewrite <- Hn; reflexivity.
    + intros m Hm. assert (Hmn : m <> n) by (intros ->; tauto). destruct (first (rev l1)) as [p|], (first l2) as [q|]; cbn; rewrite (fupd_diff _ n) by auto; rewrite ?fupd_eq; try rewrite <- Hp; reflexivity.
  - intros b Hb. split; [|split].
    + destruct (first (rev l1)) as [p|], (first l2) as [q|]; cbn; rewrite ?fupd_diff by auto; reflexivity.
    + destruct (first (rev l1)) as [p|], (first l2) as [q|]; cbn; rewrite ?fupd_diff by auto; reflexivity.
    + intros m Hm. destruct (Hot b m Hb Hm) as [A [B C]].
      destruct (first (rev l1)) as [p|], (first l2) as [q|]; cbn; rewrite ?(fupd_diff _ n) by auto; rewrite ?(fupd_diff _ p) by (apply B; reflexivity); rewrite ?(fupd_diff _ q) by (apply C; reflexivity); auto.
Qed.

Lemma pop_remove s E a l n : linv s E -> E a = l ++ [n] -> l_pop s a = Ok (set_prev (set_next (l_remove s a n) n None) n None) \/
  exists s1, l_pop s a = Ok s1 /\ (forall k, l_next s1 k = l_next (l_remove s a n) k) /\ (forall k, l_prev s1 k = l_prev (l_remove s a n) k) /\
    (forall k, l_head s1 k = l_head (l_remove s a n) k) /\ (forall k, l_tail s1 k = l_tail (l_remove s a n) k).
Proof.
  intros H Ea. right. assert (Ht := k_tail _ _ H a). rewrite Ea, first_rev_snoc in Ht. unfold l_pop. rewrite Ht.
  destruct (k_links _ _ H a l n [] Ea) as [Hn Hp]. cbn in Hn. unfold l_remove. rewrite Hn, Hp.
  eexists. split; [reflexivity|]. cbn [l_tail set_tail]. rewrite fupd_same. destruct (first (rev l)) as [p|]; cbn; repeat split; intros k; rewrite ?fupd_eq; destruct (k =? n), (k =? a); reflexivity.
Qed.
Lemma pop_ok s E a l n : linv s E -> E a = l ++ [n] -> exists s1, l_pop s a = Ok s1 /\ linv s1 (fupd E a l).
Proof.
  intros H Ea. assert (Hr := remove_ok s E a l n [] H Ea). rewrite app_nil_r in Hr.
  destruct (pop_remove s E a l n H Ea) as [E1|[s1 [E1 [A [B [C D]]]]]].
  - eexists. split; [exact E1|]. destruct Hr as [K1 K2 K3 K4 K5]. constructor; auto.
    intros b. eapply links_frame; [apply K3 | |]; intros m Hm; cbn; rewrite fupd_eq; (destruct (Nat.eqb_spec m n); [subst|reflexivity]); unfold l_remove; cbn; rewrite ?fupd_same; try reflexivity.
  - exists s1. split; [exact E1|]. destruct Hr as [K1 K2 K3 K4 K5]. constructor; auto.
    + intros b. rewrite C. apply K1.
    + intros b. rewrite D. apply K2.
    + intros b. eapply links_frame; [apply K3 | |]; intros m Hm; auto.
Qed.

Lemma clear_ok s E a : linv s E -> linv (l_clear s a) (fupd E a []).
Proof.
  intros H. apply (linv_upd s _ E a).
  - exact H.
  - constructor.
  - intros n [].
  - cbn. apply fupd_same.
  - cbn. apply fupd_same.
  - intros [|x c1] m c2; discriminate.
  - intros b Hb. cbn. rewrite !fupd_diff by auto. auto.
Qed.

Definition shorter (E : cont) (k : nat) : Prop := forall a, length (E a) <= k.
Lemma do_ok fuel s E o E1 k : linv s E -> may E o E1 -> shorter E k -> k <= fuel ->
  exists r s1, l_do false fuel s o = Ok (r, s1) /\ ls_step E o r E1 /\ linv s1 E1 /\ shorter E1 (match o with LPush _ _ => S k | _ => k end).
Proof.
  intros H Hm Hk Hf. inversion Hm as [a n Hn|a l n Ea|a l1 n l2 Ea|a|o' Ho]; subst; cbn [l_do].
  - destruct (push_ok s E a n H Hn) as [s1 [E2 H1]]. rewrite E2. cbn [bind]. do 2 eexists. split; [reflexivity|]. split; [constructor; exact Hn|]. split; [exact H1|].
    intros b. rewrite fupd_eq. destruct (b =? a); [rewrite app_length; specialize (Hk a); cbn; lia | specialize (Hk b); lia].
  - destruct (pop_ok s E a l n H Ea) as [s1 [E2 H1]]. rewrite E2. cbn [bind]. do 2 eexists. split; [reflexivity|]. split; [econstructor; exact Ea|]. split; [exact H1|].
    intros b. rewrite fupd_eq. destruct (b =? a); [specialize (Hk a); rewrite Ea, app_length in Hk; lia | apply Hk].
  - do 2 eexists. split; [reflexivity|]. split; [constructor; exact Ea|]. split; [apply remove_ok; assumption|].
    intros b. rewrite fupd_eq. destruct (b =? a); [specialize (Hk a); rewrite Ea, app_length in Hk; rewrite app_length; cbn in *; lia | apply Hk].
  - do 2 eexists. split; [reflexivity|]. split; [constructor|]. split; [apply clear_ok; assumption|].
    intros b. rewrite fupd_eq. destruct (b =? a); [cbn; lia | apply Hk].
  - assert (Hfr : forall a, l_from fuel s (l_head s a) = Ok (E1 a)) by (intros a; rewrite (k_head _ _ H); apply (from_ok s (E1 a) (k_links _ _ H a) (E1 a) []); [reflexivity | specialize (Hk a); lia]).
    destruct o as [| | | |a|a|a|a|a|a n]; try destruct Ho; cbn [l_do].
    + unfold l_size. rewrite Hfr. cbn [bind]. do 2 eexists. split; [reflexivity|]. split; [constructor | auto].
    + rewrite Hfr. cbn [bind]. do 2 eexists. split; [reflexivity|]. split; [constructor | auto].
    + rewrite (k_tail _ _ H), (back_ok s (E1 a) (k_links _ _ H a) (E1 a) []); [|rewrite app_nil_r; reflexivity | specialize (Hk a); lia].
      cbn [bind]. do 2 eexists. split; [reflexivity|]. split; [constructor | auto].
    + do 2 eexists. split; [reflexivity|]. split; [rewrite (k_head _ _ H); constructor | auto].
    + do 2 eexists. split; [reflexivity|]. split; [rewrite (k_tail _ _ H); constructor | auto].
    + rewrite (k_head _ _ H). destruct (member_ok s (E1 a) n (k_links _ _ H a) (E1 a) [] fuel) as [b [E2 Hb]]; [reflexivity | specialize (Hk a); lia|].
      rewrite E2. cbn [bind]. do 2 eexists. split; [reflexivity|]. split; [constructor; exact Hb | auto].
Qed.
Lemma lrun_ok fuel os : forall s E k, linv s E -> may_run E os -> shorter E k -> k + pushes os <= fuel ->
  exists rs s1 E1, l_run false fuel s os = Ok (rs, s1) /\ ls_run E os rs E1 /\ linv s1 E1.
Proof.
  induction os as [|o os IH]; intros s E k H Hm Hk Hf; cbn [l_run].
  - exists [], s, E. split; [reflexivity|]. split; [constructor | exact H].
  - inversion Hm as [|? E1 ? Hm1 Hm2]; subst. destruct (do_ok fuel s E o E1 k H Hm1 Hk) as [r [s1 [E2 [Hs [H1 Hk1]]]]]; [lia|].
    rewrite E2. cbn [bind]. destruct (IH s1 E1 _ H1 Hm2 Hk1) as [rs [s2 [E3 [E4 [Hr H2]]]]]; [destruct o; cbn in *; lia|].
    rewrite E4. cbn [bind]. exists (r :: rs), s2, E3. split; [reflexivity|]. split; [econstructor; eauto | exact H2].
Qed.
Lemma list_sequences fuel os : may_run (fun _ => []) os -> pushes os <= fuel ->
  exists rs s E, l_run false fuel lst0 os = Ok (rs, s) /\ ls_run (fun _ => []) os rs E.
Proof.
  intros Hm Hf. destruct (lrun_ok fuel os lst0 (fun _ => []) 0) as [rs [s [E [E1 [Hr _]]]]]; auto.
  - constructor; auto; [intros a [|x c1] n c2; discriminate | intros a; apply NoDup_nil | intros a b n []].
  - intros a. cbn. lia.
  - exists rs, s, E. auto.
Qed.
