From Verif Require Import Base MatModel MatSpec.

Lemma upd_nth {A} (l : list A) k c j : k < length l -> nth_error (upd_at l k c) j = if j =? k then Some c else nth_error l j.
Proof.
  revert k j. induction l as [|x l IH]; intros k j Hk; [cbn in Hk; lia|]. destruct k as [|k]; unfold upd_at; cbn [firstn skipn app].
  - destruct j; reflexivity.
  - destruct j as [|j]; cbn [nth_error Nat.eqb]; [reflexivity|]. apply (IH k j). cbn in Hk. lia.
Qed.
Lemma upd_len {A} (l : list A) k c : k < length l -> length (upd_at l k c) = length l.
Proof. intros H. unfold upd_at. rewrite app_length, firstn_length_le by lia. cbn [length]. rewrite skipn_length. lia. Qed.
Lemma upd_app {A} (P : list A) x R c : upd_at (P ++ x :: R) (length P) c = P ++ c :: R.
Proof. induction P as [|y P IH]; unfold upd_at in *; cbn [length app firstn skipn] in *; [reflexivity|]. f_equal. exact IH. Qed.
Lemma upd_same {A} (l : list A) k c : nth_error l k = Some c -> upd_at l k c = l.
Proof. intros H. apply nth_error_split in H as [P [R [-> <-]]]. apply upd_app. Qed.

Lemma put_ok h b l k c : h_blk h b = Some l -> k < length l -> h_put h (Some b) k c = Ok (mkHeap (fupd (h_blk h) b (Some (upd_at l k c))) (h_nxt h)).
Proof. intros E Hk. unfold h_put. rewrite E. apply Nat.ltb_lt in Hk. rewrite Hk. reflexivity. Qed.
Lemma fill_ok n : forall h b P R c, h_blk h b = Some (P ++ R) -> length R = n ->
  exists h', h_fill h (Some b) (length P) n c = Ok h' /\ h_nxt h' = h_nxt h /\ forall x, h_blk h' x = fupd (h_blk h) b (Some (P ++ repeat c n)) x.
Proof.
  induction n as [|n IH]; intros h b P R c E Hn; cbn [h_fill].
  - exists h. split; [reflexivity|]. split; [reflexivity|]. intros x. rewrite fupd_eq. destruct R; [|discriminate]. destruct (Nat.eqb_spec x b) as [->|]; [exact E | reflexivity].
  - destruct R as [|y R]; [discriminate|]. rewrite (put_ok h b _ _ c E) by (rewrite app_length; cbn; lia). cbn [bind]. rewrite upd_app.
    destruct (IH (mkHeap (fupd (h_blk h) b (Some (P ++ c :: R))) (h_nxt h)) b (P ++ [c]) R c) as [h' [E1 [E2 E3]]].
    + cbn. rewrite fupd_same, <- app_assoc. reflexivity.
    + cbn in Hn. lia.
    + rewrite app_length, Nat.add_1_r in E1. exists h'. split; [exact E1|]. split; [exact E2|]. intros x. rewrite E3. cbn [h_blk]. rewrite !fupd_eq, <- app_assoc. destruct (x =? b); reflexivity.
Qed.
Lemma copy_ok n : forall h b b' P R Q, b <> b' -> h_blk h b = Some (P ++ R) -> length R = n -> h_blk h b' = Some (P ++ Q) -> length Q = n ->
  exists h', h_copy h (Some b) (Some b') (length P) n = Ok h' /\ h_nxt h' = h_nxt h /\ forall x, h_blk h' x = fupd (h_blk h) b (Some (P ++ Q)) x.
Proof.
  induction n as [|n IH]; intros h b b' P R Q Hb E Hn E' Hn'; cbn [h_copy].
  - exists h. split; [reflexivity|]. split; [reflexivity|]. intros x. rewrite fupd_eq. destruct R; [|discriminate]. destruct Q; [|discriminate]. destruct (Nat.eqb_spec x b) as [->|]; [exact E | reflexivity].
  - destruct R as [|y R]; [discriminate|]. destruct Q as [|q Q]; [discriminate|]. unfold h_cell. rewrite E'. rewrite nth_error_app2, Nat.sub_diag by lia. cbn [nth_error bind].
    rewrite (put_ok h b _ _ q E) by (rewrite app_length; cbn; lia). cbn [bind]. rewrite upd_app.
    destruct (IH (mkHeap (fupd (h_blk h) b (Some (P ++ q :: R))) (h_nxt h)) b b' (P ++ [q]) R Q Hb) as [h' [E1 [E2 E3]]].
    + cbn. rewrite fupd_same, <- app_assoc. reflexivity.
    + cbn in Hn. lia.
    + cbn. rewrite fupd_diff by auto. rewrite E', <- app_assoc. reflexivity.
    + cbn in Hn'. lia.
    + rewrite app_length, Nat.add_1_r in E1. exists h'. split; [exact E1|]. split; [exact E2|]. intros x. rewrite E3. cbn [h_blk]. rewrite !fupd_eq, <- app_assoc. destruct (x =? b); reflexivity.
Qed.
Lemma copy_self n : forall h b l k, h_blk h b = Some l -> k + n = length l ->
  exists h', h_copy h (Some b) (Some b) k n = Ok h' /\ h_nxt h' = h_nxt h /\ forall x, h_blk h' x = h_blk h x.
Proof.
  induction n as [|n IH]; intros h b l k E Hk; cbn [h_copy]; [exists h; auto|].
  unfold h_cell. rewrite E. destruct (nth_error l k) as [c|] eqn:Ec; [|apply nth_error_None in Ec; lia]. cbn [bind]. rewrite (put_ok h b l k c E) by lia. cbn [bind].
  rewrite (upd_same l k c Ec). destruct (IH (mkHeap (fupd (h_blk h) b (Some l)) (h_nxt h)) b l (S k)) as [h' [E1 [E2 E3]]]; [cbn; apply fupd_same | lia|].
  exists h'. split; [exact E1|]. split; [exact E2|]. intros x. rewrite E3. cbn [h_blk]. rewrite fupd_eq. destruct (Nat.eqb_spec x b) as [->|]; [auto | reflexivity].
Qed.
Lemma eq_loop_ok h b b' l l' : h_blk h b = Some (map Some l) -> h_blk h b' = Some (map Some l') -> length l = length l' ->
  forall R R' P P', l = P ++ R -> l' = P' ++ R' -> length P = length P' ->
  exists r, f_eq_loop h (Some b) (Some b') (length P) (length R) = Ok r /\ (r = true <-> R = R').
Proof.
  intros E E' Hl. induction R as [|x R IH]; intros R' P P' El El' Hp; cbn [f_eq_loop length].
  - exists true. split; [reflexivity|]. destruct R' as [|y R']; [tauto|]. subst. rewrite !app_length in Hl. cbn in Hl. lia.
  - destruct R' as [|y R']; [subst; rewrite !app_length in Hl; cbn in Hl; lia|].
    assert (N1 : nth_error (map Some l) (length P) = Some (Some x)) by (rewrite El, map_app, nth_error_app2, map_length, Nat.sub_diag by (rewrite map_length; lia); reflexivity).
    assert (N2 : nth_error (map Some l') (length P) = Some (Some y)) by (rewrite Hp, El', map_app, nth_error_app2, map_length, Nat.sub_diag by (rewrite map_length; lia); reflexivity).
    unfold h_cell. rewrite E, E', N1, N2. cbn [map nth_error bind]. destruct (Z.eqb_spec x y) as [->|Hxy].
    + destruct (IH R' (P ++ [y]) (P' ++ [y])) as [r [Er Hr]]; [rewrite <- app_assoc; exact El | rewrite <- app_assoc; exact El' | rewrite !app_length; lia|].
      rewrite app_length, Nat.add_1_r in Er. exists r. split; [exact Er|]. rewrite Hr. split; [intros ->; reflexivity | congruence].
    + exists false. split; [reflexivity|]. split; [discriminate | congruence].
Qed.

Definition tabof (s : fst8) (i : nat) : option nat := match fs_o s i with Some o => f_tab o | None => None end.
Record inv (s : fst8) (F : fam) : Prop := {
  iv_show : shows s F;
  iv_inj : forall i j b, tabof s i = Some b -> tabof s j = Some b -> i = j;
  iv_nxt : forall b, h_nxt (fs_h s) <= b -> h_blk (fs_h s) b = None;
  iv_own : forall b, h_blk (fs_h s) b <> None -> exists i, tabof s i = Some b }.
Lemma inv0 : inv fs0 fam0.
Proof. constructor; cbn; [intros i; reflexivity | intros i j b E; discriminate | reflexivity | congruence]. Qed.
Lemma tab_val s F i b : inv s F -> tabof s i = Some b -> exists l, F i = Val l /\ h_blk (fs_h s) b = Some l /\ b < h_nxt (fs_h s).
Proof.
  intros H E. unfold tabof in E. assert (Hs := iv_show _ _ H i). destruct (F i) as [|l|n].
  - rewrite Hs in E. discriminate.
  - destruct Hs as [o [Eo [_ Hb]]]. rewrite Eo in E. rewrite E in Hb. exists l. split; [reflexivity|]. split; [exact Hb|].
    destruct (Nat.lt_ge_cases b (h_nxt (fs_h s))) as [|Hge]; [assumption|]. rewrite (iv_nxt _ _ H b Hge) in Hb. discriminate.
  - rewrite Hs in E. discriminate.
Qed.
(** the other objects when the heap changes *)
Lemma show_other s F i h' : inv s F -> (forall j, tabof s i <> Some j -> j < h_nxt (fs_h s) -> h_blk h' j = h_blk (fs_h s) j) -> forall j, j <> i ->
  match F j with
  | Absent => fs_o s j = None
  | Val l => exists o, fs_o s j = Some o /\ f_mx o = length l /\ match f_tab o with Some b => h_blk h' b = Some l | None => l = [] end
  | Moved n => fs_o s j = Some (mkF None n)
  end.
Proof.
  intros H Hh j Hj. assert (Hs := iv_show _ _ H j). destruct (F j) as [|l|n]; auto. destruct Hs as [o [Eo [Em Hb]]]. exists o. split; [exact Eo|]. split; [exact Em|].
  destruct (f_tab o) as [b|] eqn:Et; [|exact Hb]. assert (Etb : tabof s j = Some b) by (unfold tabof; rewrite Eo; exact Et). rewrite Hh; [exact Hb | |].
  - intros Ei. apply Hj. eapply iv_inj; eauto.
  - destruct (tab_val _ _ _ _ H Etb) as [_ [_ [_ Hlt]]]. exact Hlt.
Qed.

(** object i gets a fresh block holding l; its old block, if any, is freed *)
Lemma inv_fresh s F i h' l : inv s F -> h_nxt h' = S (h_nxt (fs_h s)) ->
  (forall x, h_blk h' x = if x =? h_nxt (fs_h s) then Some l else match tabof s i with Some b => if x =? b then None else h_blk (fs_h s) x | None => h_blk (fs_h s) x end) ->
  inv (f_set s h' i (mkF (Some (h_nxt (fs_h s))) (length l))) (fupd F i (Val l)).
Proof.
  intros H Hn Hb. set (nx := h_nxt (fs_h s)) in *.
  assert (Hoth : forall j, tabof s i <> Some j -> j < nx -> h_blk h' j = h_blk (fs_h s) j).
  { intros j Hj Hlt. rewrite Hb. destruct (Nat.eqb_spec j nx); [lia|]. destruct (tabof s i) as [b|]; [|reflexivity]. destruct (Nat.eqb_spec j b); [congruence | reflexivity]. }
  assert (Ht : forall j, tabof (f_set s h' i (mkF (Some nx) (length l))) j = if j =? i then Some nx else tabof s j).
  { intros j. unfold tabof, f_set. cbn [fs_o]. rewrite fupd_eq. destruct (j =? i); reflexivity. }
  assert (Hlt : forall j b, tabof s j = Some b -> b < nx) by (intros j b E; destruct (tab_val _ _ _ _ H E) as [_ [_ [_ Hl]]]; exact Hl).
  constructor.
  - intros j. unfold f_set. cbn [fs_o fs_h]. rewrite !fupd_eq. destruct (Nat.eqb_spec j i) as [->|Hj].
    + eexists. split; [reflexivity|]. cbn. split; [reflexivity|]. rewrite Hb, Nat.eqb_refl. reflexivity.
    + exact (show_other s F i h' H Hoth j Hj).
  - intros j k b. rewrite !Ht. destruct (Nat.eqb_spec j i) as [->|Hj], (Nat.eqb_spec k i) as [->|Hk]; intros A B; auto.
    + assert (b = nx) by congruence. apply Hlt in B. lia.
    + assert (b = nx) by congruence. apply Hlt in A. lia.
    + eapply iv_inj; eauto.
  - intros b. cbn [f_set fs_h]. rewrite Hn, Hb. intros Hge. destruct (Nat.eqb_spec b nx); [lia|]. assert (h_blk (fs_h s) b = None) by (apply (iv_nxt _ _ H); fold nx; lia).
    destruct (tabof s i) as [c|]; [destruct (b =? c); auto | auto].
  - intros b. cbn [f_set fs_h]. rewrite Hb. intros Hne. destruct (Nat.eqb_spec b nx) as [Hbn|Hbn]; [exists i; rewrite Ht, Nat.eqb_refl, Hbn; reflexivity|].
    assert (Hne2 : h_blk (fs_h s) b <> None /\ tabof s i <> Some b).
    { destruct (tabof s i) as [c|]; [|split; [exact Hne | discriminate]]. destruct (Nat.eqb_spec b c); [congruence|]. split; [exact Hne | congruence]. }
    destruct (iv_own _ _ H b (proj1 Hne2)) as [j Ej]. exists j. rewrite Ht. destruct (Nat.eqb_spec j i) as [->|]; [destruct (proj2 Hne2 Ej) | exact Ej].
Qed.
Lemma inv_fresh' s F i h' l m : m = length l -> inv s F -> h_nxt h' = S (h_nxt (fs_h s)) ->
  (forall x, h_blk h' x = if x =? h_nxt (fs_h s) then Some l else match tabof s i with Some b => if x =? b then None else h_blk (fs_h s) x | None => h_blk (fs_h s) x end) ->
  inv (f_set s h' i (mkF (Some (h_nxt (fs_h s))) m)) (fupd F i (Val l)).
Proof. intros ->. apply inv_fresh. Qed.
(** the contents of i's block change *)
Lemma inv_write s F i b l l' h' : inv s F -> F i = Val l -> tabof s i = Some b -> length l' = length l -> h_nxt h' = h_nxt (fs_h s) ->
  (forall x, h_blk h' x = fupd (h_blk (fs_h s)) b (Some l') x) -> forall o, fs_o s i = Some o -> inv (f_set s h' i o) (fupd F i (Val l')).
Proof.
  intros H Hi Hb Hl Hn Hx o Eo.
  assert (Hoth : forall j, tabof s i <> Some j -> j < h_nxt (fs_h s) -> h_blk h' j = h_blk (fs_h s) j) by (intros j Hj _; rewrite Hx; apply fupd_diff; congruence).
  assert (Ht : forall j, tabof (f_set s h' i o) j = tabof s j).
  { intros j. unfold tabof, f_set. cbn [fs_o]. rewrite fupd_eq. destruct (Nat.eqb_spec j i) as [->|]; [rewrite Eo|]; reflexivity. }
  constructor.
  - intros j. unfold f_set. cbn [fs_o fs_h]. rewrite !fupd_eq. destruct (Nat.eqb_spec j i) as [->|Hj].
    + assert (Hs := iv_show _ _ H i). rewrite Hi in Hs. destruct Hs as [o' [Eo' [Em _]]]. assert (o' = o) as -> by congruence. exists o. split; [reflexivity|]. split; [congruence|].
      unfold tabof in Hb. rewrite Eo in Hb. rewrite Hb, Hx. apply fupd_same.
    + exact (show_other s F i h' H Hoth j Hj).
  - intros j k c. rewrite !Ht. apply (iv_inj _ _ H).
  - intros c. cbn [f_set fs_h]. rewrite Hn, Hx, fupd_eq. intros Hge. destruct (Nat.eqb_spec c b) as [->|]; [|apply (iv_nxt _ _ H _ Hge)].
    destruct (tab_val _ _ _ _ H Hb) as [_ [_ [_ Hlt]]]. lia.
  - intros c. cbn [f_set fs_h]. rewrite Hx, fupd_eq. intros Hne. destruct (Nat.eqb_spec c b) as [Hcb|Hcb]; [exists i; rewrite Ht, Hcb; exact Hb|]. destruct (iv_own _ _ H c Hne) as [j Ej]. exists j. rewrite Ht. exact Ej.
Qed.
(** an object without a block *)
Lemma inv_null s F i : inv s F -> F i = Absent -> inv (f_set s (fs_h s) i (mkF None 0)) (fupd F i (Val [])).
Proof.
  intros H Hi. assert (Hni : fs_o s i = None) by (assert (Hs := iv_show _ _ H i); rewrite Hi in Hs; exact Hs).
  assert (Ht : forall j, tabof (f_set s (fs_h s) i (mkF None 0)) j = tabof s j).
  { intros j. unfold tabof, f_set. cbn [fs_o]. rewrite fupd_eq. destruct (Nat.eqb_spec j i) as [->|]; [rewrite Hni|]; reflexivity. }
  constructor.
  - intros j. unfold f_set. cbn [fs_o fs_h]. rewrite !fupd_eq. destruct (Nat.eqb_spec j i) as [->|Hj]; [exists (mkF None 0); cbn; auto | apply (iv_show _ _ H)].
  - intros j k c. rewrite !Ht. apply (iv_inj _ _ H).
  - apply (iv_nxt _ _ H).
  - intros b Hne. destruct (iv_own _ _ H b Hne) as [j Ej]. exists j. rewrite Ht. exact Ej.
Qed.
(** i's block freed *)
Lemma del_ok s F i : inv s F -> exists h', h_del (fs_h s) (tabof s i) = Ok h' /\ h_nxt h' = h_nxt (fs_h s) /\
  forall x, h_blk h' x = match tabof s i with Some b => if x =? b then None else h_blk (fs_h s) x | None => h_blk (fs_h s) x end.
Proof.
  intros H. unfold h_del. destruct (tabof s i) as [b|] eqn:Et; [|exists (fs_h s); auto]. destruct (tab_val _ _ _ _ H Et) as [l [_ [Hl _]]]. rewrite Hl.
  eexists. split; [reflexivity|]. split; [reflexivity|]. intros x. cbn [h_blk]. apply fupd_eq.
Qed.
Lemma inv_destroy s F i h' : inv s F -> h_nxt h' = h_nxt (fs_h s) ->
  (forall x, h_blk h' x = match tabof s i with Some b => if x =? b then None else h_blk (fs_h s) x | None => h_blk (fs_h s) x end) ->
  inv (mkFS h' (fun x => if x =? i then None else fs_o s x)) (fupd F i Absent).
Proof.
  intros H Hn Hb.
  assert (Hoth : forall j, tabof s i <> Some j -> j < h_nxt (fs_h s) -> h_blk h' j = h_blk (fs_h s) j).
  { intros j Hj _. rewrite Hb. destruct (tabof s i) as [b|]; [|reflexivity]. destruct (Nat.eqb_spec j b); [congruence | reflexivity]. }
  assert (Ht : forall j, tabof (mkFS h' (fun x => if x =? i then None else fs_o s x)) j = if j =? i then None else tabof s j) by (intros j; unfold tabof; cbn [fs_o]; destruct (j =? i); reflexivity).
  constructor.
  - intros j. cbn [fs_o fs_h]. rewrite fupd_eq. destruct (Nat.eqb_spec j i) as [->|Hj]; [reflexivity|].
    exact (show_other s F i h' H Hoth j Hj).
  - intros j k b. rewrite !Ht. destruct (j =? i); [discriminate|]. destruct (k =? i); [discriminate|]. apply (iv_inj _ _ H).
  - intros b. cbn [fs_h]. rewrite Hn, Hb. intros Hge. apply (iv_nxt _ _ H) in Hge. destruct (tabof s i) as [c|]; [destruct (b =? c)|]; auto.
  - intros b. cbn [fs_h]. rewrite Hb. intros Hne. assert (Hne2 : h_blk (fs_h s) b <> None /\ tabof s i <> Some b).
    { destruct (tabof s i) as [c|]; [|split; [exact Hne | discriminate]]. destruct (Nat.eqb_spec b c); [congruence|]. split; [exact Hne | congruence]. }
    destruct (iv_own _ _ H b (proj1 Hne2)) as [j Ej]. exists j. rewrite Ht. destruct (Nat.eqb_spec j i) as [->|]; [destruct (proj2 Hne2 Ej) | exact Ej].
Qed.
(** i takes over j's block; its own is freed *)
Lemma inv_move s F i j l h' o : inv s F -> i <> j -> F j = Val l -> fs_o s j = Some o -> h_nxt h' = h_nxt (fs_h s) ->
  (forall x, h_blk h' x = match tabof s i with Some b => if x =? b then None else h_blk (fs_h s) x | None => h_blk (fs_h s) x end) ->
  inv (f_set (f_set s h' i (mkF (f_tab o) (f_mx o))) h' j (mkF None (f_mx o))) (fupd (fupd F i (Val l)) j (Moved (length l))).
Proof.
  intros H Hij Hj Eo Hn Hb.
  assert (Hoth : forall j, tabof s i <> Some j -> j < h_nxt (fs_h s) -> h_blk h' j = h_blk (fs_h s) j).
  { intros k Hk _. rewrite Hb. destruct (tabof s i) as [b|]; [|reflexivity]. destruct (Nat.eqb_spec k b); [congruence | reflexivity]. }
  set (s' := f_set (f_set s h' i (mkF (f_tab o) (f_mx o))) h' j (mkF None (f_mx o))).
  assert (Ht : forall k, tabof s' k = if k =? j then None else if k =? i then tabof s j else tabof s k).
  { intros k. unfold tabof, s', f_set. cbn [fs_o]. rewrite !fupd_eq, Eo. destruct (k =? j); [reflexivity|]. destruct (k =? i); reflexivity. }
  assert (Hsj := iv_show _ _ H j). rewrite Hj in Hsj. destruct Hsj as [o' [Eo' [Em Hl]]]. assert (o' = o) as -> by congruence. clear Eo'.
  constructor.
  - intros k. unfold s', f_set. cbn [fs_o fs_h]. rewrite !fupd_eq. destruct (Nat.eqb_spec k j) as [->|Hkj]; [rewrite Em; reflexivity|]. destruct (Nat.eqb_spec k i) as [->|Hki].
    + eexists. split; [reflexivity|]. cbn [f_mx f_tab]. split; [exact Em|]. destruct (f_tab o) as [b|] eqn:Et; [|exact Hl].
      assert (Etj : tabof s j = Some b) by (unfold tabof; rewrite Eo; exact Et). rewrite Hoth; [exact Hl | |destruct (tab_val _ _ _ _ H Etj) as [_ [_ [_ Hlt]]]; exact Hlt].
      intros Ei. apply Hij. eapply iv_inj; eauto.
    + exact (show_other s F i h' H Hoth k Hki).
  - intros k1 k2 b. rewrite !Ht. destruct (Nat.eqb_spec k1 j) as [->|H1]; [discriminate|]. destruct (Nat.eqb_spec k2 j) as [->|H2]; [discriminate|].
    destruct (Nat.eqb_spec k1 i) as [->|H3], (Nat.eqb_spec k2 i) as [->|H4]; intros A B; auto.
    + destruct H2. eapply iv_inj; eauto.
    + destruct H1. eapply iv_inj; eauto.
    + eapply iv_inj; eauto.
  - intros b. unfold s'. cbn [f_set fs_h]. rewrite Hn, Hb. intros Hge. apply (iv_nxt _ _ H) in Hge. destruct (tabof s i) as [c|]; [destruct (b =? c)|]; auto.
  - intros b. unfold s' at 1. cbn [f_set fs_h]. rewrite Hb. intros Hne. assert (Hne2 : h_blk (fs_h s) b <> None /\ tabof s i <> Some b).
    { destruct (tabof s i) as [c|]; [|split; [exact Hne | discriminate]]. destruct (Nat.eqb_spec b c); [congruence|]. split; [exact Hne | congruence]. }
    destruct (iv_own _ _ H b (proj1 Hne2)) as [k Ek]. destruct (Nat.eq_dec k j) as [Hkj|Hkj].
    + subst k. exists i. rewrite Ht. destruct (Nat.eqb_spec i j); [contradiction|]. rewrite Nat.eqb_refl. exact Ek.
    + exists k. rewrite Ht. destruct (Nat.eqb_spec k j); [contradiction|]. destruct (Nat.eqb_spec k i) as [->|]; [destruct (proj2 Hne2 Ek) | exact Ek].
Qed.

Lemma obj_val s F i l : inv s F -> F i = Val l -> exists o, fs_o s i = Some o /\ f_mx o = length l /\ tabof s i = f_tab o /\ match f_tab o with Some b => h_blk (fs_h s) b = Some l | None => l = [] end.
Proof. intros H Hi. assert (Hs := iv_show _ _ H i). rewrite Hi in Hs. destruct Hs as [o [Eo [Em Hb]]]. exists o. unfold tabof. rewrite Eo. auto. Qed.
Lemma inv_ext s F F' : inv s F -> (forall i, F' i = F i) -> inv s F'.
Proof. intros [A B C D] E. constructor; auto. intros i. rewrite E. apply A. Qed.
Lemma copy_into s F j l h b R : inv s F -> F j = Val l -> h_blk h b = Some R -> length R = length l -> h_nxt (fs_h s) <= b ->
  (forall x, x < h_nxt (fs_h s) -> tabof s j = Some x -> h_blk h x = h_blk (fs_h s) x) -> forall o, fs_o s j = Some o ->
  exists h', h_copy h (Some b) (f_tab o) 0 (f_mx o) = Ok h' /\ h_nxt h' = h_nxt h /\ forall x, h_blk h' x = fupd (h_blk h) b (Some l) x.
Proof.
  intros H Hj Hb HR Hge Hh o Eo. destruct (obj_val _ _ _ _ H Hj) as [o' [Eo' [Em [Et Hl]]]]. assert (o' = o) as -> by congruence. rewrite Em.
  destruct (f_tab o) as [c|] eqn:Ec.
  - destruct (tab_val _ _ _ _ H Et) as [_ [_ [_ Hlt]]]. apply (copy_ok (length l) h b c [] R l); cbn; auto; [lia | rewrite Hh; auto].
  - subst l. cbn [length h_copy]. exists h. split; [reflexivity|]. split; [reflexivity|]. intros x. rewrite fupd_eq. destruct R; [|discriminate]. destruct (Nat.eqb_spec x b) as [->|]; [exact Hb | reflexivity].
Qed.

Lemma f_step s F op a F' : inv s F -> v_step F op a F' -> exists s', f_do s op = Ok (s', a) /\ inv s' F'.
Proof.
  intros H Hst. inversion Hst as [i Hi | i n Hi | i n v Hi | i j l Hi Hj | i j l Hi Hj | i j l l' Hi Hj | i j n l Hi Hj Hln | i j l Hij Hi Hj | i k l v Hi Hk | i k l v Hi Hk | i l Hi | i j l l' b Hi Hj Hb | i Hi]; subst; unfold f_do.
  - eexists. split; [reflexivity|]. apply inv_null; auto.
  - destruct (Nat.eqb_spec n 0) as [->|Hn].
    + eexists. split; [reflexivity|]. apply inv_null; auto.
    + unfold h_new. eexists. split; [reflexivity|]. apply inv_fresh'; [symmetry; apply repeat_length | exact H | reflexivity|].
      assert (tabof s i = None) as -> by (unfold tabof; assert (Hs := iv_show _ _ H i); rewrite Hi in Hs; rewrite Hs; reflexivity). intros x. cbn [h_blk]. apply fupd_eq.
  - unfold h_new. set (h1 := mkHeap _ _). set (b := h_nxt (fs_h s)) in *. destruct (fill_ok n h1 b [] (repeat None n) (Some v)) as [h' [E1 [E2 E3]]]; [cbn; apply fupd_same | apply repeat_length|].
    cbn [length] in E1. rewrite E1. cbn [bind]. eexists. split; [reflexivity|]. unfold b. apply inv_fresh'; [symmetry; apply repeat_length | exact H | exact E2|].
    assert (tabof s i = None) as -> by (unfold tabof; assert (Hs := iv_show _ _ H i); rewrite Hi in Hs; rewrite Hs; reflexivity). intros x. rewrite E3. unfold h1. cbn [h_blk app]. rewrite !fupd_eq. fold b. destruct (x =? b); reflexivity.
  - unfold h_new, f_obj. destruct (obj_val _ _ _ _ H Hj) as [o [Eo [Em [Et Hl]]]]. rewrite Eo. cbn [bind]. set (h1 := mkHeap _ _). set (b := h_nxt (fs_h s)) in *.
    destruct (copy_into s F j l h1 b (repeat None (f_mx o)) H Hj) with (o := o) as [h' [E1 [E2 E3]]]; [cbn; apply fupd_same | rewrite repeat_length; exact Em | reflexivity | | exact Eo |].
    { intros x Hx _. unfold h1. cbn. apply fupd_diff. unfold b. lia. }
    rewrite E1. cbn [bind]. eexists. split; [reflexivity|]. rewrite Em. unfold b. apply inv_fresh; [exact H | exact E2|].
    assert (tabof s i = None) as -> by (unfold tabof; assert (Hs := iv_show _ _ H i); rewrite Hi in Hs; rewrite Hs; reflexivity). intros x. rewrite E3. unfold h1. cbn [h_blk app]. rewrite !fupd_eq. fold b. destruct (x =? b); reflexivity.
  - unfold f_obj. destruct (obj_val _ _ _ _ H Hj) as [o [Eo [Em [Et Hl]]]]. rewrite Eo. cbn [bind]. eexists. split; [reflexivity|]. apply inv_move; auto; [congruence|].
    assert (tabof s i = None) as -> by (unfold tabof; assert (Hs := iv_show _ _ H i); rewrite Hi in Hs; rewrite Hs; reflexivity). reflexivity.
  - unfold f_obj. destruct (obj_val _ _ _ _ H Hi) as [oi [Eoi [Emi [Eti Hli]]]]. destruct (obj_val _ _ _ _ H Hj) as [o [Eo [Em [Et Hl]]]]. rewrite Eoi, Eo. cbn [bind].
    destruct (Nat.eqb_spec (f_mx oi) (f_mx o)) as [Eq|Hne].
    + assert (Hll : length l' = length l) by congruence.
      destruct (f_tab oi) as [b|] eqn:Eb.
      * assert (Hc : exists h', h_copy (fs_h s) (Some b) (f_tab o) 0 (f_mx oi) = Ok h' /\ h_nxt h' = h_nxt (fs_h s) /\ forall x, h_blk h' x = fupd (h_blk (fs_h s)) b (Some l) x).
        { destruct (f_tab o) as [c|] eqn:Ec.
          - destruct (Nat.eq_dec b c) as [<-|Hbc].
            + assert (l = l') as <- by congruence. destruct (copy_self (f_mx oi) (fs_h s) b l 0 Hl) as [h' [E1 [E2 E3]]]; [cbn; congruence|]. exists h'. split; [exact E1|]. split; [exact E2|]. intros x. rewrite E3, fupd_eq. destruct (Nat.eqb_spec x b) as [->|]; auto.
            + apply (copy_ok (f_mx oi) (fs_h s) b c [] l' l); cbn; auto; congruence.
          - subst l. assert (f_mx oi = 0) as -> by (cbn in *; congruence). cbn [h_copy]. exists (fs_h s). split; [reflexivity|]. split; [reflexivity|]. intros x. rewrite fupd_eq. destruct l'; [|discriminate]. destruct (Nat.eqb_spec x b) as [->|]; auto. }
        destruct Hc as [h' [E1 [E2 E3]]]. rewrite E1. cbn [bind]. eexists. split; [reflexivity|]. eapply inv_write; eauto.
      * subst l'. assert (l = []) as -> by (destruct l; [reflexivity | discriminate]). cbn [length] in *. rewrite Emi. cbn [h_copy bind]. eexists. split; [reflexivity|].
        assert (Hi0 := inv_ext s F (fupd F i (Val [])) H). assert (Hfe : forall x, fupd F i (Val []) x = F x) by (intros x; rewrite fupd_eq; destruct (Nat.eqb_spec x i) as [->|]; auto).
        specialize (Hi0 Hfe). destruct Hi0 as [A B C D]. assert (Ht : forall k, tabof (f_set s (fs_h s) i oi) k = tabof s k) by (intros k; unfold tabof, f_set; cbn [fs_o]; rewrite fupd_eq; destruct (Nat.eqb_spec k i) as [->|]; [rewrite Eoi|]; reflexivity).
        constructor; auto.
        -- intros k. specialize (A k). unfold f_set. cbn [fs_o fs_h]. rewrite (fupd_eq (fs_o s)). destruct (Nat.eqb_spec k i) as [->|]; [rewrite Eoi in A; exact A | exact A].
        -- intros k1 k2 c. rewrite !Ht. apply B.
        -- intros c Hc. destruct (D c Hc) as [k Ek]. exists k. rewrite Ht. exact Ek.
    + destruct (del_ok s F i H) as [h1 [E1 [E2 E3]]]. rewrite <- Eti, E1. cbn [bind]. unfold h_new. set (h2 := mkHeap _ _).
      assert (Hij : i <> j) by (intros ->; congruence).
      destruct (copy_into s F j l h2 (h_nxt h1) (repeat None (f_mx o)) H Hj) with (o := o) as [h' [F1 [F2 F3]]]; [cbn; apply fupd_same | rewrite repeat_length; exact Em | lia | | exact Eo |].
      { intros x Hx Ex. unfold h2. cbn. rewrite fupd_diff by lia. rewrite E3. destruct (tabof s i) as [b|] eqn:Eb; [|reflexivity]. destruct (Nat.eqb_spec x b) as [->|]; [|reflexivity]. destruct Hij. eapply iv_inj; eauto. }
      rewrite F1. cbn [bind]. eexists. split; [reflexivity|]. rewrite Em, E2. apply inv_fresh; [exact H | rewrite F2; unfold h2; cbn; lia|].
      intros x. rewrite F3. unfold h2. cbn [h_blk]. rewrite !fupd_eq, E2. destruct (x =? h_nxt (fs_h s)); [reflexivity | apply E3].
  - unfold f_obj. assert (Hs := iv_show _ _ H i). rewrite Hi in Hs. destruct (obj_val _ _ _ _ H Hj) as [o [Eo [Em [Et Hl]]]]. rewrite Hs, Eo. cbn [bind f_mx f_tab].
    destruct (Nat.eqb_spec n (f_mx o)) as [Eq|Hne].
    + destruct Hln as [Hln| ->]; [congruence|]. assert (l = []) as -> by (destruct l; [reflexivity | cbn in *; congruence]). cbn [h_copy bind]. eexists. split; [reflexivity|].
      destruct H as [A B C D]. assert (Ht : forall k, tabof (f_set s (fs_h s) i (mkF None 0)) k = tabof s k) by (intros k; unfold tabof, f_set; cbn [fs_o]; rewrite fupd_eq; destruct (Nat.eqb_spec k i) as [->|]; [rewrite Hs|]; reflexivity).
      constructor; auto.
      * intros k. specialize (A k). unfold f_set. cbn [fs_o fs_h]. rewrite !fupd_eq. destruct (Nat.eqb_spec k i) as [->|]; [exists (mkF None 0); cbn; auto | exact A].
      * intros k1 k2 c. rewrite !Ht. apply B.
      * intros c Hc. destruct (D c Hc) as [k Ek]. exists k. rewrite Ht. exact Ek.
    + cbn [h_del bind]. unfold h_new. set (h2 := mkHeap _ _).
      destruct (copy_into s F j l h2 (h_nxt (fs_h s)) (repeat None (f_mx o)) H Hj) with (o := o) as [h' [F1 [F2 F3]]]; [cbn; apply fupd_same | rewrite repeat_length; exact Em | lia | | exact Eo |].
      { intros x Hx Ex. unfold h2. cbn. rewrite fupd_diff by lia. reflexivity. }
      rewrite F1. cbn [bind]. eexists. split; [reflexivity|]. rewrite Em. apply inv_fresh; [exact H | rewrite F2; reflexivity|].
      assert (tabof s i = None) as -> by (unfold tabof; rewrite Hs; reflexivity).
      intros x. rewrite F3. unfold h2. cbn [h_blk]. rewrite !fupd_eq. destruct (x =? h_nxt (fs_h s)); reflexivity.
  - unfold f_obj. destruct (obj_val _ _ _ _ H Hj) as [o [Eo [Em [Et Hl]]]]. destruct (fs_o s i) as [oi|] eqn:Eoi.
    2:{ assert (Hs := iv_show _ _ H i). destruct (F i) as [|l0|n0]; [contradiction | destruct Hs as [x [Ex _]]; congruence | congruence]. }
    cbn [bind]. destruct (del_ok s F i H) as [h1 [E1 [E2 E3]]]. assert (Eti : tabof s i = f_tab oi) by (unfold tabof; rewrite Eoi; reflexivity). rewrite Eti in E1. rewrite E1. cbn [bind]. rewrite Eo. cbn [bind].
    unfold f_set at 1. cbn [fs_o]. rewrite fupd_diff by auto. rewrite Eo. cbn [bind]. eexists. split; [reflexivity|]. apply inv_move; auto.
  - unfold f_obj. destruct (obj_val _ _ _ _ H Hi) as [o [Eo [Em [Et Hl]]]]. rewrite Eo. cbn [bind]. unfold h_cell. destruct (f_tab o) as [b|]; [|subst l; destruct k; discriminate]. rewrite Hl, Hk. cbn [bind]. eauto.
  - unfold f_obj. destruct (obj_val _ _ _ _ H Hi) as [o [Eo [Em [Et Hl]]]]. rewrite Eo. cbn [bind]. destruct (f_tab o) as [b|] eqn:Eb; [|subst l; cbn in Hk; lia].
    rewrite (put_ok _ _ _ _ _ Hl Hk). cbn [bind]. eexists. split; [reflexivity|].
    assert (Hw := inv_write s F i b l (upd_at l k (Some v)) (mkHeap (fupd (h_blk (fs_h s)) b (Some (upd_at l k (Some v)))) (h_nxt (fs_h s))) H Hi Et (upd_len _ _ _ Hk) eq_refl (fun x => eq_refl) o Eo).
    destruct Hw as [A B C D]. assert (Hf : forall x, fs_o s x = fupd (fs_o s) i (Some o) x) by (intros x; rewrite fupd_eq; destruct (Nat.eqb_spec x i) as [->|]; auto).
    unfold f_set in *. cbn [fs_h fs_o] in *. assert (Ht : forall h0 x, tabof (mkFS h0 (fs_o s)) x = tabof (mkFS h0 (fupd (fs_o s) i (Some o))) x) by (intros h0 x; unfold tabof; cbn [fs_o]; rewrite Hf; reflexivity).
    constructor.
    + intros x. specialize (A x). cbn [fs_o fs_h] in *. rewrite <- Hf in A. exact A.
    + intros x y c. rewrite !Ht. apply B.
    + exact C.
    + intros c Hc. destruct (D c Hc) as [x Ex]. exists x. rewrite Ht. exact Ex.
  - unfold f_obj. destruct (obj_val _ _ _ _ H Hi) as [o [Eo [Em [Et Hl]]]]. rewrite Eo. cbn [bind]. rewrite Em. eauto.
  - unfold f_obj. destruct (obj_val _ _ _ _ H Hi) as [o [Eo [Em [Et Hl]]]]. destruct (obj_val _ _ _ _ H Hj) as [o' [Eo' [Em' [Et' Hl']]]]. rewrite Eo, Eo'. cbn [bind]. rewrite map_length in *.
    destruct (Nat.eqb_spec (f_mx o) (f_mx o')) as [Eq|Hne].
    + assert (Hll : length l = length l') by congruence. assert (Hr : exists r, f_eq_loop (fs_h s) (f_tab o) (f_tab o') 0 (f_mx o) = Ok r /\ (r = true <-> l = l')).
      { rewrite Em. destruct (f_tab o) as [p|], (f_tab o') as [q|].
        - apply (eq_loop_ok (fs_h s) p q l l' Hl Hl' Hll l l' [] []); reflexivity.
        - destruct l'; [|discriminate]. destruct l; [|discriminate]. exists true. split; [reflexivity | tauto].
        - destruct l; [|discriminate]. destruct l'; [|discriminate]. exists true. split; [reflexivity | tauto].
        - destruct l; [|discriminate]. destruct l'; [|discriminate]. exists true. split; [reflexivity | tauto]. }
      destruct Hr as [r [Er Hr]]. rewrite Er. cbn [bind]. exists s. split; [|exact H]. assert (r = b) as ->; [|reflexivity]. destruct r, b; auto; [symmetry; apply Hb, Hr | apply Hr, Hb]; reflexivity.
    + exists s. split; [|exact H]. assert (b = false) as ->; [|reflexivity]. destruct b; [|reflexivity]. assert (l = l') by (apply Hb; reflexivity). subst. congruence.
  - unfold f_obj. destruct (fs_o s i) as [oi|] eqn:Eoi.
    2:{ assert (Hs := iv_show _ _ H i). destruct (F i) as [|l0|n0]; [contradiction | destruct Hs as [x [Ex _]]; congruence | congruence]. }
    cbn [bind]. destruct (del_ok s F i H) as [h1 [E1 [E2 E3]]]. assert (Eti : tabof s i = f_tab oi) by (unfold tabof; rewrite Eoi; reflexivity). rewrite Eti in E1. rewrite E1. cbn [bind].
    eexists. split; [reflexivity|]. apply inv_destroy; auto.
Qed.
Lemma f_runs os : forall s F l F', inv s F -> v_run F os l F' -> exists s', f_run s os = Ok (s', l) /\ inv s' F'.
Proof.
  induction os as [|o os IH]; intros s F l F' H Hr; inversion Hr as [|? a F1 ? l1 ? Hs Hr1]; subst; cbn [f_run]; [eauto|].
  destruct (f_step _ _ _ _ _ H Hs) as [s1 [E1 H1]]. rewrite E1. cbn [bind]. destruct (IH _ _ _ _ H1 Hr1) as [s2 [E2 H2]]. rewrite E2. cbn [bind]. eauto.
Qed.
(** nothing leaks *)
Lemma inv_noleak s F : inv s F -> (forall i, F i = Absent) -> forall b, h_blk (fs_h s) b = None.
Proof.
  intros H HF b. destruct (h_blk (fs_h s) b) eqn:Eb; [|reflexivity]. destruct (iv_own _ _ H b) as [i Ei]; [congruence|]. destruct (tab_val _ _ _ _ H Ei) as [l0 [E0 _]]. rewrite HF in E0. discriminate.
Qed.

(** indices *)
Open Scope Z_scope.
Lemma int32_ok z : -2147483648 <= z <= 2147483647 -> int32 z = Ok z.
Proof. intros H. unfold int32. destruct (Z.leb_spec (-2147483648) z), (Z.leb_spec z 2147483647); cbn; auto; lia. Qed.
Lemma prod_pos dims idx : in_range dims idx -> 1 <= prodOf dims.
Proof. induction 1 as [|d i ds is Hd _ IH]; cbn [prodOf]; nia. Qed.
(** the number the tuple stands for in mixed radix *)
Fixpoint radix (acc : Z) (dims idx : list Z) : Z := match dims, idx with d :: ds, i :: is => radix (acc * d + i) ds is | _, _ => acc end.
Lemma radix_bounds dims idx : in_range dims idx -> forall acc, acc * prodOf dims <= radix acc dims idx < (acc + 1) * prodOf dims.
Proof.
  induction 1 as [|d i ds is Hd H IH]; intros acc; cbn [radix prodOf]; [lia|]. specialize (IH (acc * d + i)). assert (Hp := prod_pos _ _ H). nia.
Qed.
Lemma radix_inj dims idx : in_range dims idx -> forall idx' acc acc', in_range dims idx' -> radix acc dims idx = radix acc' dims idx' -> acc = acc' /\ idx = idx'.
Proof.
  induction 1 as [|d i ds is Hd H IH]; intros idx' acc acc' H' E; inversion H' as [|d0 j ds0 js Hj Hjs]; subst; cbn [radix] in E; [auto|].
  apply IH in E as [E ->]; [|assumption]. assert (acc = acc') by nia. subst. split; [reflexivity|]. f_equal. lia.
Qed.
Lemma radix_surj dims : Forall (fun d => 0 < d) dims -> forall acc z, acc * prodOf dims <= z < (acc + 1) * prodOf dims -> exists idx, in_range dims idx /\ radix acc dims idx = z.
Proof.
  induction 1 as [|d ds Hd H IH]; intros acc z Hz; cbn [prodOf] in Hz.
  - exists []. split; [constructor | cbn; lia].
  - assert (Hp : 1 <= prodOf ds) by (clear - H; induction H; cbn [prodOf]; nia).
    set (i := (z - acc * (d * prodOf ds)) / prodOf ds). assert (Hdiv := Z.div_mod (z - acc * (d * prodOf ds)) (prodOf ds) ltac:(lia)). assert (Hm := Z.mod_pos_bound (z - acc * (d * prodOf ds)) (prodOf ds) ltac:(lia)). fold i in Hdiv.
    assert (0 <= i < d) by nia. destruct (IH (acc * d + i) z) as [idx [Hi Er]]; [nia|]. exists (i :: idx). split; [constructor; auto | exact Er].
Qed.
Lemma ofs_ok dims idx : in_range dims idx -> forall acc, 0 <= acc -> (acc + 1) * prodOf dims <= 2147483648 -> mx_ofs acc dims idx = Ok (radix acc dims idx).
Proof.
  induction 1 as [|d i ds is Hd H IH]; intros acc Ha Hp; cbn [mx_ofs radix]; [reflexivity|]. cbn [prodOf] in Hp. assert (Hq := prod_pos _ _ H).
  assert (acc * d + d <= 2147483648) by nia. rewrite int32_ok by nia. cbn [bind]. rewrite int32_ok by nia. cbn [bind]. apply IH; nia.
Qed.
Lemma index_ok dims idx : dims <> [] -> in_range dims idx -> prodOf dims <= 2147483648 -> mx_index dims idx = Ok (radix 0 dims idx) /\ 0 <= radix 0 dims idx < prodOf dims.
Proof.
  intros Hne H Hp. assert (Hb := radix_bounds _ _ H 0). split; [|lia]. destruct H as [|d i ds is Hd H]; [contradiction|]. cbn [mx_index radix]. cbn [prodOf] in Hp. assert (Hq := prod_pos _ _ H).
  replace (0 * d + i) with i by lia. apply ofs_ok; [exact H | lia|]. nia.
Qed.
Close Scope Z_scope.
