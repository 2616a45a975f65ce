From Verif Require Import Base HeapProofs MSortModel MSortProofs NdaModel NdaSpec.
From Coq Require Import Sorting.Sorted.

Section Cells.
Context {T : Type}.
Implicit Types v w : nat -> T.
Lemma cells_nil v a b : b <= a -> cells v a b = [].
Proof. intros. unfold cells. now replace (b - a) with 0 by lia. Qed.
Lemma cells_cons v a b : a < b -> cells v a b = v a :: cells v (S a) b.
Proof. intros. unfold cells. replace (b - a) with (S (b - S a)) by lia. reflexivity. Qed.
Lemma cells_app v a b c : a <= b <= c -> cells v a c = cells v a b ++ cells v b c.
Proof. intros. unfold cells. rewrite <- map_app. f_equal. replace (c - a) with ((b - a) + (c - b)) by lia. rewrite seq_app. do 2 f_equal. lia. Qed.
Lemma cells_ext v w a b : (forall i, a <= i < b -> v i = w i) -> cells v a b = cells w a b.
Proof. intros H. unfold cells. apply map_ext_in. intros i Hi. apply in_seq in Hi. apply H. lia. Qed.
End Cells.

Definition somes (l : list (option nat)) : list nat := flat_map (fun o => match o with Some x => [x] | None => [] end) l.
Definition nulls (l : list (option nat)) : nat := length (filter (fun o => match o with Some _ => false | None => true end) l).
Lemma somes_app l m : somes (l ++ m) = somes l ++ somes m.
Proof. apply flat_map_app. Qed.
Lemma nulls_app l m : nulls (l ++ m) = nulls l + nulls m.
Proof. unfold nulls. rewrite filter_app, app_length. reflexivity. Qed.
Lemma some_null_len l : length l = length (somes l) + nulls l.
Proof.
  induction l as [|o l IH]; [reflexivity|]. change (o :: l) with ([o] ++ l). rewrite somes_app, nulls_app, !app_length, IH.
  destruct o; cbn [length somes flat_map app nulls filter]; lia.
Qed.
Definition cont (t : nat -> option nat) (a b : nat) : list nat := somes (cells t a b).
Definition nul (t : nat -> option nat) (a b : nat) : nat := nulls (cells t a b).
Lemma cont_nil t a b : b <= a -> cont t a b = [].
Proof. intros H. unfold cont. rewrite cells_nil by exact H. reflexivity. Qed.
Lemma nul_nil t a b : b <= a -> nul t a b = 0.
Proof. intros H. unfold nul. rewrite cells_nil by exact H. reflexivity. Qed.
Lemma cont_cons t a b : a < b -> cont t a b = match t a with Some x => x :: cont t (S a) b | None => cont t (S a) b end.
Proof. intros H. unfold cont. rewrite cells_cons by exact H. cbn. destruct (t a); reflexivity. Qed.
Lemma nul_cons t a b : a < b -> nul t a b = match t a with Some x => nul t (S a) b | None => S (nul t (S a) b) end.
Proof. intros H. unfold nul. rewrite cells_cons by exact H. unfold nulls. cbn. destruct (t a); reflexivity. Qed.
Lemma cont_app t a b c : a <= b <= c -> cont t a c = cont t a b ++ cont t b c.
Proof. intros H. unfold cont. rewrite (cells_app t a b c H). apply somes_app. Qed.
Lemma nul_app t a b c : a <= b <= c -> nul t a c = nul t a b + nul t b c.
Proof. intros H. unfold nul. rewrite (cells_app t a b c H). apply nulls_app. Qed.
Lemma cont_ext t u a b : (forall i, a <= i < b -> t i = u i) -> cont t a b = cont u a b.
Proof. intros H. unfold cont. rewrite (cells_ext t u a b H). reflexivity. Qed.
Lemma nul_ext t u a b : (forall i, a <= i < b -> t i = u i) -> nul t a b = nul u a b.
Proof. intros H. unfold nul. rewrite (cells_ext t u a b H). reflexivity. Qed.
Lemma cont_len t a b : a <= b -> length (cont t a b) + nul t a b = b - a.
Proof. intros H. unfold cont, nul. rewrite <- some_null_len. unfold cells. rewrite map_length, seq_length. reflexivity. Qed.
Lemma nul0_some t a b i : nul t a b = 0 -> a <= i < b -> exists x, t i = Some x.
Proof.
  intros H Hi. rewrite (nul_app t a i b) in H by lia. rewrite (nul_cons t i b) in H by lia. destruct (t i) as [x|]; [eauto|]. lia.
Qed.

(** the skipping loops *)
Lemma next_ok fuel : forall t p, exists p', na_next fuel t p = p' /\ p <= p' <= p + fuel /\ (forall i, p <= i < p' -> t i = None) /\ (p' < p + fuel -> t p' <> None).
Proof.
  induction fuel as [|f IH]; intros t p; cbn [na_next].
  - exists p. split; [reflexivity|]. split; [lia|]. split; intros; lia.
  - destruct (t p) as [x|] eqn:E.
    + exists p. split; [reflexivity|]. split; [lia|]. split; [intros; lia | intros; congruence].
    + destruct (IH t (S p)) as [p' [E1 [H1 [H2 H3]]]]. exists p'. split; [exact E1|]. split; [lia|]. split; [|intros; apply H3; lia].
      intros i Hi. destruct (Nat.eq_dec i p) as [->|]; [exact E | apply H2; lia].
Qed.
Lemma skip_next fuel : forall t p h, na_skip fuel t p h = (na_next fuel t p, (h - (Z.of_nat (na_next fuel t p) - Z.of_nat p))%Z).
Proof.
  induction fuel as [|f IH]; intros t p h; cbn [na_skip na_next]; [f_equal; lia|]. destruct (t p); [f_equal; lia|]. rewrite IH. f_equal. lia.
Qed.
Lemma next_cont t p b : p <= b -> cont t p b = cont t (na_next (b - p) t p) b /\ nul t p b = (na_next (b - p) t p - p) + nul t (na_next (b - p) t p) b.
Proof.
  intros H. destruct (next_ok (b - p) t p) as [p' [-> [H1 [H2 _]]]]. rewrite (cont_app t p p' b), (nul_app t p p' b) by lia.
  assert (Hc : forall n a, a + n = p' -> p <= a -> cont t a p' = [] /\ nul t a p' = n).
  { induction n as [|n IH]; intros a Ha Hp; [rewrite cont_nil, nul_nil by lia; auto|]. rewrite cont_cons, nul_cons by lia. rewrite H2 by lia. destruct (IH (S a)) as [-> ->]; auto; lia. }
  destruct (Hc (p' - p) p) as [-> ->]; [lia | lia | auto].
Qed.

Record ninv (s : nda) (L : lseq) : Prop := {
  nv_le : na_st s <= na_sz s <= na_mx s;
  nv_mx : 0 < na_mx s;
  nv_q : cont (na_tab s) (na_st s) (na_sz s) = l_q L;
  nv_holes : na_holes s = Z.of_nat (nul (na_tab s) (na_st s) (na_sz s));
  nv_room : l_room L <= na_st s;
  nv_dense : l_dense L = true -> na_st s = 0 /\ na_holes s = 0%Z }.
Lemma ninv0 junk isz : 0 < isz -> ninv (nda0 junk isz) (mkL [] 0 true).
Proof. intros H. constructor; cbn; auto; try lia. Qed.

Lemma skipped_ok s L : ninv s L -> ninv (na_skipped s) L /\ na_tab (na_skipped s) = na_tab s /\ na_sz (na_skipped s) = na_sz s /\
  (na_st (na_skipped s) < na_sz s -> na_tab s (na_st (na_skipped s)) <> None).
Proof.
  intros H. destruct H as [H1 H2 H3 H4 H5 H6]. unfold na_skipped. rewrite skip_next. cbn [na_tab na_sz na_st].
  destruct (next_cont (na_tab s) (na_st s) (na_sz s)) as [C1 C2]; [lia|]. destruct (next_ok (na_sz s - na_st s) (na_tab s) (na_st s)) as [p' [E [P1 [P2 P3]]]]. rewrite E in *.
  split; [|split; [reflexivity|split; [reflexivity|]]].
  - constructor; cbn [na_tab na_sz na_st na_mx na_holes]; auto; try lia; try congruence.
  - intros Hlt. apply P3. lia.
Qed.
Lemma incr_ok s num : num < na_sz s -> S num <= it_incr s num <= na_sz s /\ cont (na_tab s) (S num) (na_sz s) = cont (na_tab s) (it_incr s num) (na_sz s) /\
  (it_incr s num < na_sz s -> na_tab s (it_incr s num) <> None) /\ cont (na_tab s) (S num) (it_incr s num) = [].
Proof.
  intros H. unfold it_incr. destruct (next_cont (na_tab s) (S num) (na_sz s)) as [C1 _]; [lia|].
  destruct (next_ok (na_sz s - S num) (na_tab s) (S num)) as [p' [E [P1 [P2 P3]]]]. rewrite E in *. split; [lia|]. split; [exact C1|]. split; [intros; apply P3; lia|].
  rewrite (cont_app _ (S num) p' (na_sz s)) in C1 by lia. destruct (cont (na_tab s) (S num) p') as [|x l]; [reflexivity|]. assert (Hl := f_equal (@length nat) C1). rewrite app_length in Hl. cbn in Hl. lia.
Qed.
Lemma walk_ok fuel : forall s num, na_sz s - num <= fuel -> num <= na_sz s -> (num < na_sz s -> na_tab s num <> None) -> it_walk fuel s num = map Some (cont (na_tab s) num (na_sz s)).
Proof.
  induction fuel as [|f IH]; intros s num Hf Hn Ht; cbn [it_walk].
  - rewrite cont_nil by lia. reflexivity.
  - destruct (Nat.eqb_spec num (na_sz s)) as [->|Hne]; [rewrite cont_nil by lia; reflexivity|].
    destruct (incr_ok s num) as [A [B [C _]]]; [lia|]. rewrite IH by (auto; lia). rewrite (cont_cons _ num) by lia. destruct (na_tab s num) as [x|]; [|destruct Ht; [lia | reflexivity]]. cbn [map]. rewrite B. reflexivity.
Qed.
Lemma adv_ok k : forall s num A x B, num <= na_sz s -> (num < na_sz s -> na_tab s num <> None) -> cont (na_tab s) num (na_sz s) = A ++ x :: B -> length A = k ->
  exists p, it_adv k s num = p /\ num <= p < na_sz s /\ na_tab s p = Some x /\ cont (na_tab s) num p = A /\ cont (na_tab s) (S p) (na_sz s) = B.
Proof.
  induction k as [|k IH]; intros s num A x B Hn Ht Hc HA; cbn [it_adv].
  - destruct A; [|discriminate]. cbn in Hc. assert (num < na_sz s) by (destruct (Nat.lt_ge_cases num (na_sz s)); [assumption | rewrite cont_nil in Hc by lia; discriminate]).
    rewrite cont_cons in Hc by lia. destruct (na_tab s num) as [y|] eqn:E; [|destruct (Ht H eq_refl)]. injection Hc as -> HB. exists num. split; [reflexivity|]. split; [lia|]. split; [exact E|]. split; [apply cont_nil; lia | exact HB].
  - destruct A as [|a A]; [discriminate|]. cbn in Hc. assert (num < na_sz s) by (destruct (Nat.lt_ge_cases num (na_sz s)); [assumption | rewrite cont_nil in Hc by lia; discriminate]).
    rewrite cont_cons in Hc by lia. destruct (na_tab s num) as [y|] eqn:E; [|destruct (Ht H eq_refl)]. injection Hc as -> HB.
    destruct (incr_ok s num H) as [I1 [I2 [I3 I4]]]. rewrite I2 in HB. destruct (IH s (it_incr s num) A x B) as [p [E1 [E2 [E3 [E4 E5]]]]]; [lia | exact I3 | exact HB | cbn in HA; lia|].
    exists p. split; [exact E1|]. split; [lia|]. split; [exact E3|]. split; [|exact E5]. rewrite cont_cons by lia. rewrite E. rewrite (cont_app _ (S num) (it_incr s num) p) by lia. rewrite I4, E4. reflexivity.
Qed.

Lemma upd_cont t p v a b : ~ (a <= p < b) -> cont (fupd t p v) a b = cont t a b /\ nul (fupd t p v) a b = nul t a b.
Proof. intros H. split; [apply cont_ext | apply nul_ext]; intros i Hi; apply fupd_diff; lia. Qed.

Lemma n_step cmp s L o len : SWO cmp -> ninv s L -> len = length (l_q L) -> allowed len (l_room L) (l_dense L) [o] -> (Z.of_nat len < 2 ^ 64)%Z ->
  exists s' a L', n_do cmp s o = Ok (s', a) /\ l_step cmp L o a L' /\ ninv s' L' /\ length (l_q L') <= S len /\
  forall r, allowed len (l_room L) (l_dense L) (o :: r) -> allowed (length (l_q L')) (l_room L') (l_dense L') r.
Proof.
  intros Hcmp H -> Hal Hlen. assert (Hl0 : length (l_q L) + nul (na_tab s) (na_st s) (na_sz s) = na_sz s - na_st s) by (rewrite <- (nv_q _ _ H); apply cont_len; apply H).
  destruct o as [n|n| | |k| | |k| |]; cbn [n_do].
  - destruct H as [H1 H2 H3 H4 H5 H6]. unfold na_push. set (mx := if na_sz s =? na_mx s then 2 * na_mx s else na_mx s). assert (na_sz s < mx) by (unfold mx; destruct (Nat.eqb_spec (na_sz s) (na_mx s)); lia).
    destruct (Nat.ltb_spec (na_sz s) mx); [|lia]. cbn [bind]. eexists _, _, _. split; [reflexivity|]. split; [apply ls_push|]. destruct (upd_cont (na_tab s) (na_sz s) (Some n) (na_st s) (na_sz s)) as [C1 C2]; [lia|].
    split; [|cbn [l_q l_room l_dense]; rewrite app_length; cbn [length]; split; [lia | intros r; rewrite Nat.add_1_r; auto]].
    constructor; cbn [na_tab na_sz na_st na_mx na_holes l_q l_room l_dense]; auto; try lia.
    + rewrite (cont_app _ _ (na_sz s)) by lia. rewrite C1, H3. f_equal. rewrite cont_cons, fupd_same by lia. rewrite cont_nil by lia. reflexivity.
    + rewrite (nul_app _ _ (na_sz s)) by lia. rewrite C2. rewrite (nul_cons _ (na_sz s)), fupd_same by lia. rewrite (nul_nil _ (S (na_sz s))) by lia. rewrite H4. lia.
  - destruct H as [H1 H2 H3 H4 H5 H6]. cbn [allowed] in Hal. unfold na_pushf. destruct (na_st s) as [|p] eqn:Est; [lia|]. cbn [bind]. destruct (l_room L) as [|rm] eqn:Erm; [lia|].
    eexists _, _, _. split; [reflexivity|]. split; [eapply ls_pushf; exact Erm|]. destruct (upd_cont (na_tab s) p (Some n) (S p) (na_sz s)) as [C1 C2]; [lia|].
    split; [|cbn [l_q l_room l_dense length]; split; [lia | intros r; cbn [allowed]; rewrite Nat.sub_succ, Nat.sub_0_r; tauto]].
    constructor; cbn [na_tab na_sz na_st na_mx na_holes l_q l_room l_dense]; auto; try lia; try discriminate.
    + rewrite cont_cons, fupd_same, C1, H3 by lia. reflexivity.
    + rewrite nul_cons, fupd_same, C2 by lia. exact H4.
  - destruct (skipped_ok s L H) as [Hk [Kt [Ks Kn]]]. cbn [allowed] in Hal. unfold na_popf. set (s1 := na_skipped s) in *. destruct Hk as [H1 H2 H3 H4 H5 H6].
    destruct (l_q L) as [|x q] eqn:Eq; [cbn in Hal; lia|]. assert (Hlt : na_st s1 < na_sz s1) by (destruct (Nat.lt_ge_cases (na_st s1) (na_sz s1)); [assumption | rewrite cont_nil in H3 by lia; discriminate]).
    destruct (Nat.ltb_spec (na_st s1) (na_mx s1)); [|lia]. cbn [bind]. eexists _, _, _. split; [reflexivity|]. split; [eapply ls_popf; exact Eq|].
    destruct (upd_cont (na_tab s1) (na_st s1) None (S (na_st s1)) (na_sz s1)) as [C1 C2]; [lia|]. rewrite cont_cons in H3 by lia. rewrite nul_cons in H4 by lia. rewrite Kt in *.
    destruct (na_tab s (na_st s1)) as [y|]; [|destruct Kn; [lia | reflexivity]]. injection H3 as -> H3.
    split; [|cbn [l_q l_room l_dense length]; split; [lia | intros r; cbn [allowed]; rewrite Nat.sub_succ, Nat.sub_0_r; tauto]].
    constructor; cbn [na_tab na_sz na_st na_mx na_holes l_q l_room l_dense]; auto; try lia; try discriminate; try (rewrite Kt, C1; exact H3); try (rewrite Kt, C2; exact H4); try congruence; try lia.
  - destruct (skipped_ok s L H) as [Hk [Kt [Ks Kn]]]. cbn [allowed] in Hal. unfold na_front. set (s1 := na_skipped s) in *.
    destruct (l_q L) as [|x q] eqn:Eq; [cbn in Hal; lia|]. assert (H3 := nv_q _ _ Hk). assert (H1 := nv_le _ _ Hk). rewrite Eq in H3.
    assert (Hlt : na_st s1 < na_sz s1) by (destruct (Nat.lt_ge_cases (na_st s1) (na_sz s1)); [assumption | rewrite cont_nil in H3 by lia; discriminate]).
    rewrite cont_cons in H3 by lia. rewrite Kt in *. destruct (na_tab s (na_st s1)) as [y|]; [|destruct Kn; [lia | reflexivity]]. injection H3 as -> _.
    eexists _, _, _. split; [reflexivity|]. split; [eapply ls_front; exact Eq|]. split; [exact Hk|]. rewrite Eq. split; [lia | intros r; cbn [allowed]; tauto].
  - destruct (skipped_ok s L H) as [Hk [Kt [Ks Kn]]]. cbn [allowed] in Hal. unfold na_begin. set (s1 := na_skipped s) in *. destruct Hk as [H1 H2 H3 H4 H5 H6].
    assert (Hb : na_next (na_sz s1 - na_st s1) (na_tab s1) (na_st s1) = na_st s1).
    { destruct (na_sz s1 - na_st s1) eqn:E; cbn [na_next]; [reflexivity|]. rewrite Kt. destruct (na_tab s (na_st s1)); [reflexivity | destruct Kn; [lia | reflexivity]]. }
    rewrite Hb. destruct (nth_error (l_q L) k) as [x|] eqn:Ex; [|apply nth_error_None in Ex; lia]. apply nth_error_split in Ex as [A [B [Eq HA]]].
    destruct (adv_ok k s1 (na_st s1) A x B) as [p [E1 [E2 [E3 [E4 E5]]]]]; [lia | rewrite Kt, Ks; exact Kn | congruence | exact HA|]. rewrite E1. unfold na_erase.
    set (s2 := mkNda (fupd (na_tab s1) p None) (na_mx s1) (na_sz s1) (na_st s1) (na_holes s1 + 1)%Z).
    destruct (incr_ok s2 p) as [I1 [I2 [I3 I4]]]; [cbn; lia|]. cbn [s2 na_sz na_tab] in I1, I2, I3. fold s2 in I1, I2, I3.
    destruct (upd_cont (na_tab s1) p None (S p) (na_sz s1)) as [C1 C2]; [lia|]. destruct (upd_cont (na_tab s1) p None (na_st s1) p) as [C3 C4]; [lia|].
    eexists s2, _, (mkL (A ++ B) (l_room L) false). split; [reflexivity|]. split.
    { replace (if it_incr s2 p =? na_sz s2 then None else na_tab s2 (it_incr s2 p)) with (hd_error B); [apply (ls_erase _ _ k A x B Eq HA)|].
      rewrite C1, E5 in I2. cbn [s2 na_sz na_tab]. destruct (Nat.eqb_spec (it_incr s2 p) (na_sz s1)) as [Ei|Hi].
      - rewrite Ei, cont_nil in I2 by lia. rewrite I2. reflexivity.
      - rewrite cont_cons in I2 by lia. rewrite I2. destruct (fupd (na_tab s1) p None (it_incr s2 p)); [reflexivity | destruct I3; [lia | reflexivity]]. }
    assert (HlenL : length (l_q L) = S (length (A ++ B))) by (rewrite Eq, !app_length; cbn; lia).
    split; [|cbn [l_q l_room l_dense]; split; [lia | intros r; cbn [allowed]; rewrite HlenL, Nat.sub_succ, Nat.sub_0_r; tauto]].
    constructor; cbn [s2 na_tab na_sz na_st na_mx na_holes l_q l_room l_dense]; auto; try lia; try discriminate.
    + rewrite (cont_app _ _ p) by lia. rewrite C3, E4. rewrite (cont_cons _ p), fupd_same by lia. rewrite C1, E5. reflexivity.
    + rewrite (nul_app _ _ p) by lia. rewrite C4. rewrite (nul_cons _ p), fupd_same, C2 by lia. rewrite H4. rewrite (nul_app (na_tab s1) (na_st s1) p) by lia. rewrite (nul_cons (na_tab s1) p), E3 by lia. lia.
  - destruct (skipped_ok s L H) as [Hk [Kt [Ks Kn]]]. unfold na_begin. set (s1 := na_skipped s) in *. assert (H1 := nv_le _ _ Hk).
    assert (Hb : na_next (na_sz s1 - na_st s1) (na_tab s1) (na_st s1) = na_st s1).
    { destruct (na_sz s1 - na_st s1) eqn:E; cbn [na_next]; [reflexivity|]. rewrite Kt. destruct (na_tab s (na_st s1)); [reflexivity | destruct Kn; [lia | reflexivity]]. }
    rewrite Hb, walk_ok; [|lia | lia | rewrite Kt, Ks; exact Kn]. rewrite (nv_q _ _ Hk). eexists _, _, _. split; [reflexivity|]. split; [apply ls_iter|]. split; [exact Hk|]. split; [lia|]. intros r. cbn [allowed]. tauto.
  - destruct Hal as [Hd _]. destruct (nv_dense _ _ H Hd) as [Hst Hh]. assert (Hn0 : nul (na_tab s) 0 (na_sz s) = 0) by (rewrite (nv_holes _ _ H), Hst in Hh; lia). unfold na_sort.
    destruct (Nat.leb_spec (na_sz s) 1) as [Hs|Hs].
    + cbn [bind]. exists s, NoOut, (mkL (l_q L) (l_room L) true). split; [reflexivity|]. split.
      { apply ls_sort; auto. assert (length (l_q L) <= 1) by lia. destruct (l_q L) as [|x [|y q]]; [constructor | repeat constructor | cbn in *; lia]. }
      split; [destruct H; constructor; auto|]. split; [cbn; lia|]. intros r. cbn [allowed]. rewrite Hd. cbn [l_q l_room l_dense]. tauto.
    + assert (Ha : all_some (na_tab s) (na_sz s) = true).
      { apply forallb_forall. intros i Hi. apply in_seq in Hi. destruct (nul0_some (na_tab s) 0 (na_sz s) i Hn0) as [x ->]; [lia | reflexivity]. }
      rewrite Ha. cbn [bind]. set (c := fun i => match na_tab s i with Some x => x | None => 0 end). set (v := mergeSort cmp (fun _ => 0) c (na_sz s)).
      destruct (mergeSort_swo cmp (fun _ => 0) c (na_sz s) Hcmp) as [Hso [Hpe _]]. fold v in Hso, Hpe.
      assert (Hsm : forall (f : nat -> nat) n, somes (map (fun i => Some (f i)) n) = map f n) by (intros f; induction n; cbn; [|f_equal]; auto).
      assert (Hq : l_q L = cells c 0 (na_sz s)).
      { rewrite <- (nv_q _ _ H), Hst. unfold cont. rewrite (cells_ext (na_tab s) (fun i => Some (c i)) 0 (na_sz s)); [apply Hsm|]. intros i Hi. unfold c. destruct (nul0_some (na_tab s) 0 (na_sz s) i Hn0) as [x ->]; [lia | reflexivity]. }
      set (t' := fun i => if i <? na_sz s then Some (v i) else na_tab s i).
      assert (Hq' : cont t' 0 (na_sz s) = cells v 0 (na_sz s)).
      { unfold cont. rewrite (cells_ext t' (fun i => Some (v i)) 0 (na_sz s)); [apply Hsm|]. intros i Hi. unfold t'. destruct (Nat.ltb_spec i (na_sz s)); [reflexivity | lia]. }
      eexists _, _, (mkL (cells v 0 (na_sz s)) (l_room L) true). split; [reflexivity|]. rewrite <- Hq in Hpe. split; [apply ls_sort; auto|]. cbn [l_q l_room l_dense]. apply Permutation_length in Hpe.
      split; [|split; [lia | intros r; cbn [allowed]; rewrite Hpe, Hd; tauto]]. destruct H as [H1 H2 H3 H4 H5 H6].
      assert (Hc2 := cont_len t' 0 (na_sz s) ltac:(lia)). rewrite Hq', Hpe in Hc2. rewrite Hst in *.
      constructor; cbn [na_tab na_sz na_st na_mx na_holes l_q l_room l_dense]; try rewrite Hst; auto; try lia; try exact Hq'.
  - destruct Hal as [Hd [Hk _]]. destruct (nv_dense _ _ H Hd) as [Hst Hh]. assert (Hn0 : nul (na_tab s) 0 (na_sz s) = 0) by (rewrite (nv_holes _ _ H), Hst in Hh; lia). rewrite Hst, Hn0 in Hl0.
    assert (Hnx : na_next (na_sz s - k) (na_tab s) k = k).
    { destruct (na_sz s - k) eqn:E; cbn [na_next]; [reflexivity|]. destruct (nul0_some (na_tab s) 0 (na_sz s) k Hn0) as [x ->]; [lia | reflexivity]. }
    unfold na_suffix. rewrite Hnx. eexists _, _, _. split; [reflexivity|]. split; [apply ls_suffix; auto|]. cbn [l_q l_room l_dense]. rewrite firstn_length_le by lia.
    split; [|split; [lia | intros r; cbn [allowed]; rewrite Hd; tauto]]. destruct H as [H1 H2 H3 H4 H5 H6]. rewrite Hst in *.
    rewrite (cont_app _ 0 k) in H3 by lia. rewrite (nul_app _ 0 k) in Hn0 by lia. assert (Hck := cont_len (na_tab s) 0 k ltac:(lia)).
    constructor; cbn [na_tab na_sz na_st na_mx na_holes l_q l_room l_dense]; try rewrite Hst; auto; try lia.
    rewrite <- H3, firstn_app. replace (k - length (cont (na_tab s) 0 k)) with 0 by lia. cbn [firstn]. rewrite app_nil_r, firstn_all2 by lia. reflexivity.
  - unfold na_size. eexists _, _, _. split; [reflexivity|]. assert (Hh := nv_holes _ _ H). assert (Hle := nv_le _ _ H).
    replace (Z.of_nat (na_sz s) - Z.of_nat (na_st s) - na_holes s)%Z with (Z.of_nat (length (l_q L))) by lia. rewrite Z.mod_small by lia. split; [apply ls_size|]. split; [exact H|]. split; [lia|]. intros r. cbn [allowed]. tauto.
  - eexists _, _, _. split; [reflexivity|]. split; [apply ls_clear|]. split; [|split; [cbn; lia | intros r; cbn [allowed]; tauto]]. destruct H. constructor; cbn; auto; try lia.
Qed.
Lemma allowed_one len room dense o r : allowed len room dense (o :: r) -> allowed len room dense [o].
Proof. destruct o; cbn [allowed]; tauto. Qed.
Lemma n_runs cmp os : SWO cmp -> forall s L, ninv s L -> allowed (length (l_q L)) (l_room L) (l_dense L) os -> (Z.of_nat (length (l_q L) + length os) < 2 ^ 64)%Z ->
  exists s' l L', n_run cmp s os = Ok (s', l) /\ l_run cmp L os l L' /\ ninv s' L'.
Proof.
  intros Hc. induction os as [|o os IH]; intros s L H Ha Hl; cbn [n_run]; [exists s, [], L; split; [reflexivity | split; [constructor | exact H]]|].
  destruct (n_step cmp s L o _ Hc H eq_refl (allowed_one _ _ _ _ _ Ha)) as [s1 [a [L1 [E1 [S1 [H1 [G1 A1]]]]]]]; [cbn [length] in Hl; lia|].
  rewrite E1. cbn [bind]. destruct (IH s1 L1 H1 (A1 _ Ha)) as [s2 [l [L2 [E2 [R2 H2]]]]]; [cbn [length] in Hl; lia|]. rewrite E2. cbn [bind]. exists s2, (a :: l), L2. split; [reflexivity|]. split; [econstructor; eauto | exact H2].
Qed.
