From Verif Require Import Base ArcModel ArcSpec.

Lemma nth_skipn (k : nat) : forall (l : list nat) i, nth_error (skipn k l) i = nth_error l (k + i).
Proof. induction k as [|k IH]; intros l i; cbn [skipn Nat.add]; [reflexivity|]. destruct l as [|x l]; cbn [nth_error]; [destruct i; reflexivity | apply IH]. Qed.
Lemma nth_firstn (k : nat) : forall (l : list nat) i, i < k -> nth_error (firstn k l) i = nth_error l i.
Proof. induction k as [|k IH]; intros l i Hi; [lia|]. destruct l as [|x l], i as [|i]; cbn; auto. apply IH. lia. Qed.
Lemma nth_ext' : forall l m : list nat, (forall j, nth_error l j = nth_error m j) -> l = m.
Proof.
  induction l as [|a l IH]; intros [|b m] Hx; auto; [discriminate (Hx 0) | discriminate (Hx 0)|].
  assert (a = b) as -> by (assert (E := Hx 0); cbn in E; congruence). f_equal. apply IH. intros j. exact (Hx (S j)).
Qed.
Lemma rm_at_ok l k e : nth_error l k = Some e ->
  exists l' o, rm_at l k = Ok (l', o) /\ length l = S (length l') /\ nth_error l (length l') = Some o /\
    forall j, j < length l' -> nth_error l' j = nth_error l (if j =? k then length l' else j).
Proof.
  intros Hk. assert (Hlt : k < length l) by (apply nth_error_Some; congruence). unfold rm_at. rewrite Hk.
  destruct l as [|o r] using rev_ind; [cbn in Hlt; lia|]. clear IHr. rewrite rev_app_distr. cbn [rev app]. rewrite rev_involutive.
  rewrite app_length in *. cbn [length] in *.
  destruct (k <? length r + 1 - 1) eqn:Ek.
  - exists (firstn k r ++ o :: skipn (S k) r), o. split; [reflexivity|].
    assert (Hl : length (firstn k r ++ o :: skipn (S k) r) = length r) by (rewrite app_length, firstn_length_le by lia; cbn [length]; rewrite skipn_length; lia).
    rewrite Hl. split; [lia|]. split; [rewrite nth_error_app2, Nat.sub_diag by lia; reflexivity|].
    intros j Hj. destruct (Nat.eqb_spec j k) as [->|Hne].
    + rewrite nth_error_app2 by (rewrite firstn_length_le; lia). rewrite firstn_length_le, Nat.sub_diag by lia. rewrite nth_error_app2, Nat.sub_diag by lia. reflexivity.
    + rewrite (nth_error_app1 r) by lia. rewrite <- (firstn_skipn k r) at 3. destruct (Nat.lt_ge_cases j k) as [Hjk|Hjk].
      * rewrite !nth_error_app1 by (rewrite firstn_length_le; lia). reflexivity.
      * rewrite !nth_error_app2 by (rewrite firstn_length_le; lia). rewrite firstn_length_le by lia.
        rewrite (nth_skipn k). replace (j - k) with (S (j - S k)) by lia. cbn [nth_error]. rewrite nth_skipn. f_equal. lia.
  - assert (k = length r) as -> by lia. exists r, e. split; [reflexivity|]. split; [lia|]. split; [exact Hk|].
    intros j Hj. destruct (Nat.eqb_spec j (length r)); [lia|]. rewrite nth_error_app1 by lia. reflexivity.
Qed.

Section Side.
(** [owner e] is the node edge e belongs to on this side; the vectors start with [base]; what follows are exactly the edges satisfying P, and the
    stored indices are right for them *)
Record SI (owner : nat -> nat) (base : nat -> list nat) (P : nat -> Prop) (s : side) : Prop := {
  si_pre : forall n, exists t, sd_v s n = base n ++ t;
  si_ix : forall e, P e -> nth_error (sd_v s (owner e)) (sd_ix s e) = Some e /\ length (base (owner e)) <= sd_ix s e;
  si_at : forall n j x, nth_error (sd_v s n) j = Some x -> length (base n) <= j -> P x /\ owner x = n /\ sd_ix s x = j }.

Lemma SI_ext owner owner' base base' (P P' : nat -> Prop) s : SI owner base P s -> (forall n, base' n = base n) -> (forall x, P x <-> P' x) -> (forall x, P x -> owner' x = owner x) -> SI owner' base' P' s.
Proof.
  intros H Hb HP Ho. constructor.
  - intros n. rewrite Hb. apply (si_pre _ _ _ _ H).
  - intros e He. apply HP in He. rewrite Hb, Ho by exact He. apply (si_ix _ _ _ _ H e He).
  - intros n j x. rewrite Hb. intros A B. destruct (si_at _ _ _ _ H n j x A B) as [C [D E]]. split; [apply HP, C|]. split; [rewrite Ho; auto | exact E].
Qed.
Lemma SI_start owner s : SI owner (sd_v s) (fun _ => False) s.
Proof.
  constructor.
  - intros n. exists []. symmetry. apply app_nil_r.
  - intros e [].
  - intros n j x E Hj. assert (j < length (sd_v s n)) by (apply nth_error_Some; congruence). lia.
Qed.
Lemma SI_len owner base P s n : SI owner base P s -> length (base n) <= length (sd_v s n).
Proof. intros H. destruct (si_pre _ _ _ _ H n) as [t E]. rewrite E, app_length. lia. Qed.

(** push an edge of P *)
Lemma SI_push owner base P s e : SI owner base P s -> ~ P e -> SI owner base (fun x => P x \/ x = e) (sd_push s (owner e) e).
Proof.
  intros H He. unfold sd_push. constructor; cbn [sd_v sd_ix].
  - intros n. rewrite fupd_eq. destruct (Nat.eqb_spec n (owner e)) as [->|]; [|apply (si_pre _ _ _ _ H)].
    destruct (si_pre _ _ _ _ H (owner e)) as [t E]. exists (t ++ [e]). rewrite E, app_assoc. reflexivity.
  - intros x [Hx| ->].
    + assert (x <> e) by congruence. rewrite (fupd_diff _ e) by auto. destruct (si_ix _ _ _ _ H x Hx) as [A B]. split; [|exact B].
      rewrite fupd_eq. destruct (Nat.eqb_spec (owner x) (owner e)) as [E|]; [|exact A]. rewrite <- E, nth_error_app1; [exact A|]. apply nth_error_Some. congruence.
    + rewrite !fupd_same. split; [rewrite nth_error_app2, Nat.sub_diag by lia; reflexivity | apply (SI_len _ _ _ _ _ H)].
  - intros n j x. rewrite !fupd_eq. destruct (Nat.eqb_spec n (owner e)) as [->|Hn].
    + intros A B. destruct (Nat.lt_ge_cases j (length (sd_v s (owner e)))) as [Hj|Hj].
      * rewrite nth_error_app1 in A by lia. destruct (si_at _ _ _ _ H _ j x A B) as [C [D E]]. assert (x <> e) by congruence.
        apply Nat.eqb_neq in H0. rewrite H0. auto.
      * rewrite nth_error_app2 in A by lia. destruct (j - length (sd_v s (owner e))) as [|m] eqn:Em; [|destruct m; discriminate]. injection A as <-.
        rewrite Nat.eqb_refl. split; [auto|]. split; [reflexivity | lia].
    + intros A B. destruct (si_at _ _ _ _ H n j x A B) as [C [D E]]. assert (x <> e) by congruence. apply Nat.eqb_neq in H0. rewrite H0. auto.
Qed.
(** push another edge on a node that owns no edge of P *)
Lemma SI_push_base owner base P s n e : SI owner base P s -> ~ P e -> (forall x, P x -> owner x <> n) ->
  SI owner (fupd base n (base n ++ [e])) P (sd_push s n e) .
Proof.
  intros H He Hn. assert (Ev : sd_v s n = base n).
  { destruct (si_pre _ _ _ _ H n) as [[|y t] E]; [rewrite app_nil_r in E; exact E|].
    assert (Hy : nth_error (sd_v s n) (length (base n)) = Some y) by (rewrite E, nth_error_app2, Nat.sub_diag by lia; reflexivity).
    apply (si_at _ _ _ _ H) in Hy as [A [B _]]; [|lia]. destruct (Hn y A B). }
  unfold sd_push. constructor; cbn [sd_v sd_ix].
  - intros m. rewrite !fupd_eq. destruct (Nat.eqb_spec m n) as [->|]; [|apply (si_pre _ _ _ _ H)]. exists []. rewrite Ev, app_nil_r. reflexivity.
  - intros x Hx. assert (x <> e) by congruence. rewrite (fupd_diff (sd_ix s)) by auto. rewrite !fupd_diff by (apply Hn; exact Hx). apply (si_ix _ _ _ _ H x Hx).
  - intros m j x. rewrite !fupd_eq. destruct (Nat.eqb_spec m n) as [->|Hm].
    + rewrite Ev. intros A B. assert (j < length (base n ++ [e])) by (apply nth_error_Some; congruence). lia.
    + intros A B. destruct (si_at _ _ _ _ H m j x A B) as [C [D E]]. assert (x <> e) by congruence. apply Nat.eqb_neq in H0. rewrite H0. auto.
Qed.
(** remove an edge of P *)
Lemma SI_rem owner base P s e : SI owner base P s -> P e -> exists s', sd_rem s (owner e) e = Ok s' /\ SI owner base (fun x => P x /\ x <> e) s'.
Proof.
  intros H He. destruct (si_ix _ _ _ _ H e He) as [Hk Hb]. set (n := owner e) in *. set (k := sd_ix s e) in *.
  destruct (rm_at_ok _ _ _ Hk) as [l' [o [E [Hl [Ho Hj]]]]]. unfold sd_rem. fold k. rewrite E. cbn [bind]. eexists. split; [reflexivity|].
  assert (Hkl : k < length (sd_v s n)) by (apply nth_error_Some; congruence).
  destruct (si_at _ _ _ _ H n _ o Ho) as [Po [Oo Io]]; [lia|].
  constructor; cbn [sd_v sd_ix].
  - intros m. rewrite fupd_eq. destruct (Nat.eqb_spec m n) as [->|]; [|apply (si_pre _ _ _ _ H)].
    exists (skipn (length (base n)) l'). rewrite <- (firstn_skipn (length (base n)) l') at 1. f_equal.
    destruct (si_pre _ _ _ _ H n) as [t Et].
    assert (Hx : forall j, nth_error (firstn (length (base n)) l') j = nth_error (base n) j).
    { intros j. destruct (Nat.lt_ge_cases j (length (base n))) as [Hjb|Hjb].
      - rewrite nth_firstn, Hj by lia. destruct (Nat.eqb_spec j k); [lia|]. rewrite Et, nth_error_app1 by lia. reflexivity.
      - rewrite (proj2 (nth_error_None _ _)) by (rewrite firstn_length; lia). symmetry. apply nth_error_None. lia. }
    apply nth_ext', Hx.
  - intros x [Px Hx]. destruct (si_ix _ _ _ _ H x Px) as [A B]. rewrite !fupd_eq. destruct (Nat.eqb_spec x o) as [->|Hxo].
    + rewrite Oo, Nat.eqb_refl. split; [|exact Hb]. assert (k <> length l') by (intros Ek; apply Hx; congruence).
      rewrite Hj, Nat.eqb_refl by lia. exact Ho.
    + split; [|exact B]. destruct (Nat.eqb_spec (owner x) n) as [En|]; [|exact A]. rewrite En in *.
      assert (Hlt : sd_ix s x < length (sd_v s n)) by (apply nth_error_Some; congruence).
      assert (sd_ix s x <> length l') by (intros Ek; congruence). assert (sd_ix s x <> k) by (intros Ek; congruence).
      rewrite Hj by lia. destruct (Nat.eqb_spec (sd_ix s x) k); [contradiction | exact A].
  - intros m j x. rewrite !fupd_eq. destruct (Nat.eqb_spec m n) as [->|Hm].
    + intros A B. assert (Hjl : j < length l') by (apply nth_error_Some; congruence). rewrite Hj in A by lia.
      destruct (Nat.eqb_spec j k) as [->|Hjk].
      * assert (x = o) as -> by congruence. rewrite Nat.eqb_refl. split; [split; [exact Po|] | auto]. intros ->. fold k in Io. lia.
      * destruct (si_at _ _ _ _ H n j x A B) as [C [D F]]. assert (x <> e) by (intros ->; fold k in F; lia). assert (x <> o) by (intros ->; lia).
        apply Nat.eqb_neq in H1. rewrite H1. auto.
    + intros A B. destruct (si_at _ _ _ _ H m j x A B) as [C [D F]]. assert (x <> o) by congruence. assert (x <> e) by (intros ->; subst n; congruence).
      apply Nat.eqb_neq in H0. rewrite H0. auto.
Qed.
(** clear a node *)
Lemma SI_clear owner base P s n : SI owner base P s -> SI owner (fupd base n []) (fun x => P x /\ owner x <> n) (sd_clear s n).
Proof.
  intros H. unfold sd_clear. constructor; cbn [sd_v sd_ix].
  - intros m. rewrite !fupd_eq. destruct (m =? n); [exists []; reflexivity | apply (si_pre _ _ _ _ H)].
  - intros x [Px Hx]. rewrite !fupd_diff by exact Hx. apply (si_ix _ _ _ _ H x Px).
  - intros m j x. rewrite !fupd_eq. destruct (Nat.eqb_spec m n) as [->|Hm]; [destruct j; discriminate|].
    intros A B. destruct (si_at _ _ _ _ H m j x A B) as [C [D F]]. split; [split; [exact C | congruence] | auto].
Qed.
(** nothing of P left *)
Lemma SI_empty owner base P s : SI owner base P s -> (forall x, ~ P x) -> forall n, sd_v s n = base n.
Proof.
  intros H HP n. destruct (si_pre _ _ _ _ H n) as [[|y t] E]; [rewrite app_nil_r in E; exact E|].
  assert (Hy : nth_error (sd_v s n) (length (base n)) = Some y) by (rewrite E, nth_error_app2, Nat.sub_diag by lia; reflexivity).
  apply (si_at _ _ _ _ H) in Hy as [A _]; [|lia]. destruct (HP y A).
Qed.
Lemma SI_list owner P s : SI owner (fun _ => []) P s -> forall n, NoDup (sd_v s n) /\ forall e, In e (sd_v s n) <-> P e /\ owner e = n.
Proof.
  intros H n. split.
  - apply NoDup_nth_error. intros i j Hi E. destruct (nth_error (sd_v s n) i) as [x|] eqn:Ei; [|apply nth_error_None in Ei; lia]. symmetry in E.
    apply (si_at _ _ _ _ H) in Ei as [_ [_ A]]; [|cbn; lia]. apply (si_at _ _ _ _ H) in E as [_ [_ B]]; [|cbn; lia]. congruence.
  - intros e. split.
    + intros He. apply In_nth_error in He as [j Ej]. apply (si_at _ _ _ _ H) in Ej as [A [B _]]; [auto | cbn; lia].
    + intros [Pe <-]. destruct (si_ix _ _ _ _ H e Pe) as [A _]. eapply nth_error_In; eauto.
Qed.

(** sequences of pushes *)
Lemma SI_pushes owner L : forall base P s, SI owner base P s -> NoDup L -> (forall e, In e L -> ~ P e) ->
  SI owner base (fun x => P x \/ In x L) (fold_left (fun sd e => sd_push sd (owner e) e) L s).
Proof.
  induction L as [|e L IH]; intros base P s H Hnd Hd; cbn [fold_left].
  - eapply SI_ext; [exact H | reflexivity | | reflexivity]. intros x. cbn. tauto.
  - inversion Hnd; subst. eapply SI_ext; [apply (IH base (fun x => P x \/ x = e))| reflexivity | | reflexivity].
    + apply SI_push; [exact H | apply Hd; left; reflexivity].
    + assumption.
    + intros x Hx [Px| ->]; [apply (Hd x); [right; exact Hx | exact Px] | contradiction].
    + intros x. cbn. split; [intros [[?| ->]|?]; auto | intros [?|[->|?]]; auto].
Qed.
Lemma SI_pushes_base owner n L : forall base P s, SI owner base P s -> (forall e, In e L -> ~ P e) -> (forall x, P x -> owner x <> n) ->
  SI owner (fupd base n (base n ++ L)) P (fold_left (fun sd e => sd_push sd n e) L s).
Proof.
  induction L as [|e L IH]; intros base P s H Hd Ho; cbn [fold_left].
  - eapply SI_ext; [exact H | | reflexivity | reflexivity]. intros m. rewrite fupd_eq, app_nil_r. destruct (Nat.eqb_spec m n) as [->|]; reflexivity.
  - eapply SI_ext; [apply (IH (fupd base n (base n ++ [e])) P) | | reflexivity | reflexivity].
    + apply SI_push_base; auto. apply Hd. left; reflexivity.
    + intros x Hx. apply Hd. right; exact Hx.
    + exact Ho.
    + intros m. rewrite !fupd_eq, Nat.eqb_refl. destruct (m =? n); [rewrite <- app_assoc|]; reflexivity.
Qed.
End Side.

(** the two loops of disconnect *)
Lemma disc_pa_ok L : forall s base P, SI (a_from s) base P (a_ch s) -> NoDup L -> (forall e, In e L -> P e) ->
  exists c, disc_pa L s = Ok (mkArcs (a_from s) (a_to s) c (a_pa s)) /\ SI (a_from s) base (fun x => P x /\ ~ In x L) c.
Proof.
  induction L as [|e L IH]; intros s base P H Hnd HL; cbn [disc_pa].
  - exists (a_ch s). split; [destruct s; reflexivity|]. eapply SI_ext; [exact H | reflexivity | | reflexivity]. intros x. cbn. tauto.
  - inversion Hnd; subst. destruct (SI_rem _ _ _ _ e H) as [c [E Hc]]; [apply HL; left; reflexivity|]. rewrite E. cbn [bind].
    destruct (IH (mkArcs (a_from s) (a_to s) c (a_pa s)) base _ Hc) as [c2 [E2 HH2]].
    + assumption.
    + intros x Hx. split; [apply HL; right; exact Hx|]. intros ->. contradiction.
    + exists c2. split; [exact E2|]. cbn [a_from] in HH2. eapply SI_ext; [exact HH2 | reflexivity | | reflexivity].
      intros x. cbn. split; [intros [[A B] C]; split; [exact A | intros [D|D]; [congruence | contradiction]] | intros [A B]; split; [split; [exact A | intros ->; apply B; auto] | auto]].
Qed.
Lemma disc_ch_ok K : forall s base P, SI (a_to s) base P (a_pa s) -> NoDup K -> (forall e, In e K -> P e) ->
  exists p, disc_ch K s = Ok (mkArcs (a_from s) (a_to s) (a_ch s) p) /\ SI (a_to s) base (fun x => P x /\ ~ In x K) p.
Proof.
  induction K as [|e L IH]; intros s base P H Hnd HL; cbn [disc_ch].
  - exists (a_pa s). split; [destruct s; reflexivity|]. eapply SI_ext; [exact H | reflexivity | | reflexivity]. intros x. cbn. tauto.
  - inversion Hnd; subst. destruct (SI_rem _ _ _ _ e H) as [c [E Hc]]; [apply HL; left; reflexivity|]. rewrite E. cbn [bind].
    destruct (IH (mkArcs (a_from s) (a_to s) (a_ch s) c) base _ Hc) as [c2 [E2 HH2]].
    + assumption.
    + intros x Hx. split; [apply HL; right; exact Hx|]. intros ->. contradiction.
    + exists c2. split; [exact E2|]. cbn [a_to] in HH2. eapply SI_ext; [exact HH2 | reflexivity | | reflexivity].
      intros x. cbn. split; [intros [[A B] C]; split; [exact A | intros [D|D]; [congruence | contradiction]] | intros [A B]; split; [split; [exact A | intros ->; apply B; auto] | auto]].
Qed.

(** the two loops of transferArcs *)
Lemma move_to_all r L : forall s, (forall e, In e L -> a_from s e <> r) ->
  fold_left (move_to r) L s = mkArcs (a_from s) (fold_left (fun f e => fupd f e r) L (a_to s))
    (fold_left (fun sd e => sd_push sd (a_from s e) e) L (a_ch s)) (fold_left (fun sd e => sd_push sd r e) L (a_pa s)).
Proof.
  induction L as [|e L IH]; intros s H; cbn [fold_left]; [destruct s; reflexivity|].
  assert (E : move_to r s e = mkArcs (a_from s) (fupd (a_to s) e r) (sd_push (a_ch s) (a_from s e) e) (sd_push (a_pa s) r e)).
  { unfold move_to, addArc, addArc1. cbn [a_from a_to a_ch a_pa]. rewrite fupd_same, Nat.eqb_refl. cbn [a_from a_to a_ch a_pa].
    destruct (Nat.eqb_spec (a_from s e) r) as [E|]; [destruct (H e); [left; reflexivity | exact E]|]. rewrite fupd_same, Nat.eqb_refl. reflexivity. }
  rewrite E, IH; [reflexivity|]. intros x Hx. cbn. apply H. right; exact Hx.
Qed.
Lemma move_from_all r K : forall s, (forall e, In e K -> a_to s e <> r) ->
  fold_left (move_from r) K s = mkArcs (fold_left (fun f e => fupd f e r) K (a_from s)) (a_to s)
    (fold_left (fun sd e => sd_push sd r e) K (a_ch s)) (fold_left (fun sd e => sd_push sd (a_to s e) e) K (a_pa s)).
Proof.
  induction K as [|e L IH]; intros s H; cbn [fold_left]; [destruct s; reflexivity|].
  assert (E : move_from r s e = mkArcs (fupd (a_from s) e r) (a_to s) (sd_push (a_ch s) r e) (sd_push (a_pa s) (a_to s e) e)).
  { unfold move_from, addArc, addArc1. cbn [a_from a_to a_ch a_pa]. rewrite fupd_same, Nat.eqb_refl. cbn [a_from a_to a_ch a_pa]. rewrite fupd_same.
    destruct (Nat.eqb_spec r (a_to s e)) as [E|]; [destruct (H e); [left; reflexivity | auto]|]. rewrite Nat.eqb_refl. reflexivity. }
  rewrite E, IH; [reflexivity|]. intros x Hx. cbn. apply H. right; exact Hx.
Qed.
Lemma fold_fupd r L : forall (f : nat -> nat) x, fold_left (fun f e => fupd f e r) L f x = if in_dec Nat.eq_dec x L then r else f x.
Proof.
  induction L as [|e L IH]; intros f x; cbn [fold_left]; [reflexivity|]. rewrite IH, fupd_eq.
  destruct (in_dec Nat.eq_dec x L) as [Hi|Hi], (in_dec Nat.eq_dec x (e :: L)) as [Hj|Hj]; auto.
  - destruct Hj. right; exact Hi.
  - destruct Hj as [->|Hj]; [rewrite Nat.eqb_refl; reflexivity | contradiction].
  - destruct (Nat.eqb_spec x e) as [->|]; [destruct Hj; left; reflexivity | reflexivity].
Qed.

Lemma transfer_ok s d r : d <> r -> NoDup (sd_v (a_pa s) d) -> NoDup (sd_v (a_ch s) d) ->
  (forall e, In e (sd_v (a_pa s) d) -> a_from s e <> r /\ a_from s e <> d) ->
  (forall e, In e (sd_v (a_ch s) d) -> a_to s e <> r /\ a_to s e <> d) ->
  (forall e, In e (sd_v (a_pa s) d) -> ~ In e (sd_v (a_ch s) d)) ->
  exists s', transferArcs s d r = Ok s' /\
    (forall e, a_from s' e = if in_dec Nat.eq_dec e (sd_v (a_ch s) d) then r else a_from s e) /\
    (forall e, a_to s' e = if in_dec Nat.eq_dec e (sd_v (a_pa s) d) then r else a_to s e) /\
    (forall n, sd_v (a_ch s') n = if n =? d then [] else if n =? r then sd_v (a_ch s) r ++ sd_v (a_ch s) d else sd_v (a_ch s) n) /\
    (forall n, sd_v (a_pa s') n = if n =? d then [] else if n =? r then sd_v (a_pa s) r ++ sd_v (a_pa s) d else sd_v (a_pa s) n).
Proof.
  intros Hdr NL NK HL HK HLK. unfold transferArcs. set (L := sd_v (a_pa s) d) in *. set (K := sd_v (a_ch s) d) in *.
  rewrite move_to_all by (intros e He; apply HL, He). cbn [a_ch].
  set (C1 := fold_left (fun sd e => sd_push sd (a_from s e) e) L (a_ch s)). set (P1 := fold_left (fun sd e => sd_push sd r e) L (a_pa s)).
  set (to1 := fold_left (fun f e => fupd f e r) L (a_to s)).
  assert (SC1 : SI (a_from s) (sd_v (a_ch s)) (fun x => In x L) C1).
  { eapply SI_ext; [apply (SI_pushes _ L _ _ _ (SI_start (a_from s) (a_ch s)) NL) | reflexivity | | reflexivity]; [intros e _ [] | intros x; cbn; tauto]. }
  assert (SP1 : SI to1 (fupd (sd_v (a_pa s)) r (sd_v (a_pa s) r ++ L)) (fun _ => False) P1).
  { apply SI_pushes_base; [apply SI_start | intros e _ [] | intros x []]. }
  assert (EK : sd_v C1 d = K).
  { destruct (si_pre _ _ _ _ SC1 d) as [[|y t] E]; [rewrite app_nil_r in E; exact E|].
    assert (Hy : nth_error (sd_v C1 d) (length (sd_v (a_ch s) d)) = Some y) by (rewrite E, nth_error_app2, Nat.sub_diag by lia; reflexivity).
    apply (si_at _ _ _ _ SC1) in Hy as [A [B _]]; [|lia]. destruct (HL y A) as [_ Hd]. contradiction. }
  rewrite EK.
  assert (Hto1 : forall e, In e K -> to1 e = a_to s e).
  { intros e He. unfold to1. rewrite fold_fupd. destruct (in_dec Nat.eq_dec e L) as [Hi|]; [destruct (HLK e Hi He) | reflexivity]. }
  rewrite move_from_all by (cbn; intros e He; rewrite Hto1 by exact He; apply HK, He). cbn [a_from a_to a_ch a_pa].
  set (fr2 := fold_left (fun f e => fupd f e r) K (a_from s)). set (C2 := fold_left (fun sd e => sd_push sd r e) K C1). set (P2 := fold_left (fun sd e => sd_push sd (to1 e) e) K P1).
  set (bC := fupd (sd_v (a_ch s)) r (sd_v (a_ch s) r ++ K)). set (bP := fupd (sd_v (a_pa s)) r (sd_v (a_pa s) r ++ L)) in *.
  assert (Hfr2 : forall e, In e L -> fr2 e = a_from s e).
  { intros e He. unfold fr2. rewrite fold_fupd. destruct (in_dec Nat.eq_dec e K) as [Hi|]; [destruct (HLK e He Hi) | reflexivity]. }
  assert (SC2 : SI fr2 bC (fun x => In x L) C2).
  { eapply SI_ext; [apply (SI_pushes_base _ r K _ _ _ SC1) | reflexivity | reflexivity | exact Hfr2]; [intros e He Hi; exact (HLK e Hi He) | intros x Hx; apply HL, Hx]. }
  assert (SP2 : SI to1 bP (fun x => In x K) P2).
  { eapply SI_ext; [apply (SI_pushes _ K _ _ _ SP1 NK) | reflexivity | | reflexivity]; [intros e _ [] | intros x; cbn; tauto]. }
  unfold disconnect. cbn [a_from a_to a_ch a_pa].
  assert (EL : sd_v P2 d = L).
  { destruct (si_pre _ _ _ _ SP2 d) as [[|y t] E]; [rewrite app_nil_r in E; rewrite E; unfold bP; apply fupd_diff; exact Hdr|].
    assert (Hy : nth_error (sd_v P2 d) (length (bP d)) = Some y) by (rewrite E, nth_error_app2, Nat.sub_diag by lia; reflexivity).
    apply (si_at _ _ _ _ SP2) in Hy as [A [B _]]; [|lia]. rewrite Hto1 in B by exact A. destruct (HK y A) as [_ Hd]. contradiction. }
  rewrite EL. destruct (disc_pa_ok L (mkArcs fr2 to1 C2 P2) bC _ SC2 NL) as [C3 [E3 S3]]; [auto|]. cbn [a_from a_to a_ch a_pa] in *.
  rewrite E3. cbn [bind a_from a_to a_ch a_pa].
  assert (EC3 : forall n, sd_v C3 n = bC n) by (apply (SI_empty _ _ _ _ S3); intros x [A B]; contradiction).
  assert (EK3 : sd_v C3 d = K) by (rewrite EC3; unfold bC; apply fupd_diff; exact Hdr). rewrite EK3.
  assert (SP3 : SI to1 (fupd bP d []) (fun x => In x K) (sd_clear P2 d)).
  { eapply SI_ext; [apply (SI_clear _ _ _ _ d SP2) | reflexivity | | reflexivity]. intros x. cbn. split; [tauto|]. intros Hx. split; [exact Hx|]. rewrite Hto1 by exact Hx. apply HK, Hx. }
  destruct (disc_ch_ok K (mkArcs fr2 to1 C3 (sd_clear P2 d)) (fupd bP d []) _ SP3 NK) as [P4 [E4 S4]]; [auto|]. cbn [a_from a_to a_ch a_pa] in *.
  rewrite E4. cbn [bind a_from a_to a_ch a_pa]. eexists. split; [reflexivity|]. cbn [a_from a_to a_ch a_pa].
  assert (EP4 : forall n, sd_v P4 n = fupd bP d [] n) by (apply (SI_empty _ _ _ _ S4); intros x [A B]; contradiction).
  split; [intros e; apply fold_fupd|]. split; [intros e; apply fold_fupd|]. split.
  - intros n. cbn [sd_v sd_clear]. rewrite fupd_eq. destruct (n =? d); [reflexivity|]. rewrite EC3. unfold bC. rewrite fupd_eq. reflexivity.
  - intros n. rewrite EP4. rewrite fupd_eq. destruct (n =? d); [reflexivity|]. unfold bP. rewrite fupd_eq. reflexivity.
Qed.

(** counts *)
Definition eid (t : nat * nat * nat) : nat := fst (fst t).
Lemma count_ok (G : graph) (l : list nat) (q : nat * nat * nat -> bool) : NoDup (map eid G) -> NoDup l ->
  (forall e, In e l <-> exists t, In t G /\ eid t = e /\ q t = true) -> length l = length (filter q G).
Proof.
  intros HG Hl Hin. rewrite <- (map_length eid (filter q G)). apply Permutation_length, NoDup_Permutation; [exact Hl | |].
  - clear - HG. induction G as [|t G IH]; cbn in *; [constructor|]. inversion HG; subst. destruct (q t); cbn; [|auto]. constructor; [|auto].
    intros Hi. apply H1. apply in_map_iff in Hi as [u [E Hu]]. apply filter_In in Hu as [Hu _]. rewrite <- E. apply in_map, Hu.
  - intros e. rewrite Hin, in_map_iff. split; intros [t H]; exists t; [|].
    + destruct H as [A [B C]]. split; [exact B|]. apply filter_In. auto.
    + destruct H as [B A]. apply filter_In in A as [A C]. auto.
Qed.

(** no duplicate identifiers, no self loops, lists right *)
Record cinv (s : arcs) (G : graph) : Prop := {
  ci_nd : NoDup (map eid G);
  ci_loop : forall e a, ~ In (e, a, a) G;
  ci_ends : forall e a b, In (e, a, b) G -> a_from s e = a /\ a_to s e = b;
  ci_ch : forall n, NoDup (sd_v (a_ch s) n) /\ forall e, In e (sd_v (a_ch s) n) <-> exists b, In (e, n, b) G;
  ci_pa : forall n, NoDup (sd_v (a_pa s) n) /\ forall e, In e (sd_v (a_pa s) n) <-> exists a, In (e, a, n) G }.
Lemma cinv_coherent s G : cinv s G -> coherent s G.
Proof.
  intros [H1 H2 H3 H4 H5]. constructor; auto.
  - intros n. apply count_ok; [exact H1 | apply H4|]. intros e. rewrite (proj2 (H4 n)). split.
    + intros [b Hb]. exists (e, n, b). cbn. rewrite Nat.eqb_refl. auto.
    + intros [[[e' a] b] [A [B C]]]. cbn in *. apply Nat.eqb_eq in C. subst. eauto.
  - intros n. apply count_ok; [exact H1 | apply H5|]. intros e. rewrite (proj2 (H5 n)). split.
    + intros [a Ha]. exists (e, a, n). cbn. rewrite Nat.eqb_refl. auto.
    + intros [[[e' a] b] [A [B C]]]. cbn in *. apply Nat.eqb_eq in C. subst. eauto.
Qed.
Lemma cinv_uniq s G e a b a' b' : cinv s G -> In (e, a, b) G -> In (e, a', b') G -> a = a' /\ b = b'.
Proof. intros H A B. apply (ci_ends _ _ H) in A as [<- <-]. apply (ci_ends _ _ H) in B. auto. Qed.

Lemma add_state s e a b : a <> b -> addArc (mkArcs (fupd (a_from s) e a) (fupd (a_to s) e b) (a_ch s) (a_pa s)) e =
  mkArcs (fupd (a_from s) e a) (fupd (a_to s) e b) (sd_push (a_ch s) a e) (sd_push (a_pa s) b e).
Proof.
  intros Hab. unfold addArc, addArc1. cbn [a_from a_to a_ch a_pa]. rewrite !fupd_same, Nat.eqb_refl. cbn [a_from a_to a_ch a_pa]. rewrite !fupd_same.
  destruct (Nat.eqb_spec a b); [contradiction|]. rewrite Nat.eqb_refl. reflexivity.
Qed.
Lemma cinv_add s G e a b : cinv s G -> (forall a' b', ~ In (e, a', b') G) -> a <> b ->
  cinv (addArc (mkArcs (fupd (a_from s) e a) (fupd (a_to s) e b) (a_ch s) (a_pa s)) e) (G ++ [(e, a, b)]).
Proof.
  intros H He Hab. rewrite add_state by exact Hab. constructor; cbn [a_from a_to a_ch a_pa].
  - rewrite map_app. cbn [map eid fst]. apply (Permutation_NoDup (l := e :: map eid G)); [apply Permutation_cons_append|]. constructor; [|apply (ci_nd _ _ H)].
    intros Hi. apply in_map_iff in Hi as [[[e' a'] b'] [E Hi]]. cbn in E. subst. exact (He _ _ Hi).
  - intros x c Hi. apply in_app_iff in Hi as [Hi|[Hi|[]]]; [exact (ci_loop _ _ H _ _ Hi) | congruence].
  - intros x c1 c2 Hi. apply in_app_iff in Hi as [Hi|[Hi|[]]].
    + assert (x <> e) by (intros ->; exact (He _ _ Hi)). rewrite !fupd_diff by auto. apply (ci_ends _ _ H _ _ _ Hi).
    + injection Hi as <- <- <-. rewrite !fupd_same. auto.
  - intros n. destruct (ci_ch _ _ H n) as [A B]. cbn [sd_push sd_v]. rewrite fupd_eq. destruct (Nat.eqb_spec n a) as [->|Hn].
    + split.
      * apply (Permutation_NoDup (l := e :: sd_v (a_ch s) a)); [apply Permutation_cons_append|]. constructor; [|exact A]. rewrite B. intros [c Hc]. exact (He _ _ Hc).
      * intros x. rewrite in_app_iff, B. cbn. split.
        -- intros [[c Hc]|[<-|[]]]; [exists c | exists b]; rewrite in_app_iff; cbn; auto.
        -- intros [c Hc]. apply in_app_iff in Hc as [Hc|[Hc|[]]]; [left; eauto | right; left; congruence].
    + split; [exact A|]. intros x. rewrite B. split; intros [c Hc]; exists c; rewrite in_app_iff in *; cbn; auto. destruct Hc as [Hc|[Hc|[]]]; [exact Hc | congruence].
  - intros n. destruct (ci_pa _ _ H n) as [A B]. cbn [sd_push sd_v]. rewrite fupd_eq. destruct (Nat.eqb_spec n b) as [->|Hn].
    + split.
      * apply (Permutation_NoDup (l := e :: sd_v (a_pa s) b)); [apply Permutation_cons_append|]. constructor; [|exact A]. rewrite B. intros [c Hc]. exact (He _ _ Hc).
      * intros x. rewrite in_app_iff, B. cbn. split.
        -- intros [[c Hc]|[<-|[]]]; [exists c | exists a]; rewrite in_app_iff; cbn; auto.
        -- intros [c Hc]. apply in_app_iff in Hc as [Hc|[Hc|[]]]; [left; eauto | right; left; congruence].
    + split; [exact A|]. intros x. rewrite B. split; intros [c Hc]; exists c; rewrite in_app_iff in *; cbn; auto. destruct Hc as [Hc|[Hc|[]]]; [exact Hc | congruence].
Qed.

Lemma cinv_transfer s G d r : cinv s G -> d <> r -> (forall e, ~ In (e, d, r) G) -> (forall e, ~ In (e, r, d) G) ->
  exists s', transferArcs s d r = Ok s' /\ cinv s' (map (fun '(e, a, b) => (e, redirect d r a, redirect d r b)) G).
Proof.
  intros H Hdr H1 H2.
  destruct (ci_ch _ _ H d) as [NK IK]. destruct (ci_pa _ _ H d) as [NL IL].
  destruct (transfer_ok s d r Hdr NL NK) as [s' [E [Hf [Ht [Hc Hp]]]]].
  { intros e He. apply IL in He as [a Ha]. rewrite (proj1 (ci_ends _ _ H _ _ _ Ha)). split; intros ->; [exact (H2 _ Ha) | exact (ci_loop _ _ H _ _ Ha)]. }
  { intros e He. apply IK in He as [b Hb]. rewrite (proj2 (ci_ends _ _ H _ _ _ Hb)). split; intros ->; [exact (H1 _ Hb) | exact (ci_loop _ _ H _ _ Hb)]. }
  { intros e He Hk. apply IL in He as [a Ha]. apply IK in Hk as [b Hb]. destruct (cinv_uniq _ _ _ _ _ _ _ H Ha Hb) as [-> <-]. exact (ci_loop _ _ H _ _ Ha). }
  exists s'. split; [exact E|].
  assert (HinG : forall e a b, In (e, a, b) (map (fun '(e, a, b) => (e, redirect d r a, redirect d r b)) G) <-> exists a0 b0, In (e, a0, b0) G /\ a = redirect d r a0 /\ b = redirect d r b0).
  { intros e a b. rewrite in_map_iff. split.
    - intros [[[e0 a0] b0] [Eq Hi]]. injection Eq as <- <- <-. eauto.
    - intros [a0 [b0 [Hi [-> ->]]]]. exists (e, a0, b0). auto. }
  assert (Hrd : forall x, redirect d r x <> d) by (intros x; unfold redirect; destruct (Nat.eqb_spec x d); congruence).
  constructor.
  - rewrite map_map. rewrite (map_ext _ eid); [apply (ci_nd _ _ H)|]. intros [[e a] b]. reflexivity.
  - intros e a Hi. apply HinG in Hi as [a0 [b0 [Hi [Ea Eb]]]]. unfold redirect in *. destruct (Nat.eqb_spec a0 d) as [->|Ha], (Nat.eqb_spec b0 d) as [->|Hb]; subst.
    + exact (ci_loop _ _ H _ _ Hi).
    + exact (H1 _ Hi).
    + exact (H2 _ Hi).
    + exact (ci_loop _ _ H _ _ Hi).
  - intros e a b Hi. apply HinG in Hi as [a0 [b0 [Hi [-> ->]]]]. destruct (ci_ends _ _ H _ _ _ Hi) as [Ef Et]. rewrite Hf, Ht, Ef, Et. unfold redirect. split.
    + destruct (in_dec Nat.eq_dec e (sd_v (a_ch s) d)) as [Hk|Hk], (Nat.eqb_spec a0 d) as [->|Ha]; auto.
      * apply IK in Hk as [b1 Hb1]. destruct (cinv_uniq _ _ _ _ _ _ _ H Hi Hb1). contradiction.
      * destruct Hk. apply IK. eauto.
    + destruct (in_dec Nat.eq_dec e (sd_v (a_pa s) d)) as [Hk|Hk], (Nat.eqb_spec b0 d) as [->|Ha]; auto.
      * apply IL in Hk as [b1 Hb1]. destruct (cinv_uniq _ _ _ _ _ _ _ H Hi Hb1). contradiction.
      * destruct Hk. apply IL. eauto.
  - intros n. rewrite Hc. destruct (Nat.eqb_spec n d) as [->|Hnd]; [|destruct (Nat.eqb_spec n r) as [->|Hnr]].
    + split; [constructor|]. intros e. split; [intros [] | intros [b Hb]]. apply HinG in Hb as [a0 [b0 [_ [Ea _]]]]. destruct (Hrd a0). auto.
    + destruct (ci_ch _ _ H r) as [NR IR]. split.
      * revert NR NK. assert (Hdis : forall x, In x (sd_v (a_ch s) r) -> ~ In x (sd_v (a_ch s) d)).
        { intros x Hx Hy. apply IR in Hx as [b Hb]. apply IK in Hy as [b' Hb']. destruct (cinv_uniq _ _ _ _ _ _ _ H Hb Hb'). congruence. }
        revert Hdis. generalize (sd_v (a_ch s) r) (sd_v (a_ch s) d). clear. induction l as [|x l IH]; intros m Hd Nl Nm; cbn; [exact Nm|].
        inversion Nl; subst. constructor; [rewrite in_app_iff; intros [A|A]; [contradiction | exact (Hd x (or_introl eq_refl) A)]|]. apply IH; auto. intros y Hy. apply Hd. right; exact Hy.
      * intros e. rewrite in_app_iff, IR, IK. split.
        -- intros [[b Hb]|[b Hb]]; exists (redirect d r b); apply HinG; [exists r, b | exists d, b]; unfold redirect at 1; (split; [exact Hb|]); [destruct (Nat.eqb_spec r d); [congruence|] | rewrite Nat.eqb_refl]; auto.
        -- intros [b Hb]. apply HinG in Hb as [a0 [b0 [Hi [Ea _]]]]. unfold redirect in Ea. destruct (Nat.eqb_spec a0 d) as [->|]; [right | left]; subst; eauto.
    + destruct (ci_ch _ _ H n) as [NR IR]. split; [exact NR|]. intros e. rewrite IR. split.
      * intros [b Hb]. exists (redirect d r b). apply HinG. exists n, b. split; [exact Hb|]. unfold redirect at 1. destruct (Nat.eqb_spec n d); [contradiction | auto].
      * intros [b Hb]. apply HinG in Hb as [a0 [b0 [Hi [Ea _]]]]. unfold redirect in Ea. destruct (Nat.eqb_spec a0 d); [congruence|]. subst. eauto.
  - intros n. rewrite Hp. destruct (Nat.eqb_spec n d) as [->|Hnd]; [|destruct (Nat.eqb_spec n r) as [->|Hnr]].
    + split; [constructor|]. intros e. split; [intros [] | intros [b Hb]]. apply HinG in Hb as [a0 [b0 [_ [_ Ea]]]]. destruct (Hrd b0). auto.
    + destruct (ci_pa _ _ H r) as [NR IR]. split.
      * revert NR NL. assert (Hdis : forall x, In x (sd_v (a_pa s) r) -> ~ In x (sd_v (a_pa s) d)).
        { intros x Hx Hy. apply IR in Hx as [b Hb]. apply IL in Hy as [b' Hb']. destruct (cinv_uniq _ _ _ _ _ _ _ H Hb Hb'). congruence. }
        revert Hdis. generalize (sd_v (a_pa s) r) (sd_v (a_pa s) d). clear. induction l as [|x l IH]; intros m Hd Nl Nm; cbn; [exact Nm|].
        inversion Nl; subst. constructor; [rewrite in_app_iff; intros [A|A]; [contradiction | exact (Hd x (or_introl eq_refl) A)]|]. apply IH; auto. intros y Hy. apply Hd. right; exact Hy.
      * intros e. rewrite in_app_iff, IR, IL. split.
        -- intros [[a Ha]|[a Ha]]; exists (redirect d r a); apply HinG; [exists a, r | exists a, d]; unfold redirect at 3; (split; [exact Ha|]); [destruct (Nat.eqb_spec r d); [congruence|] | rewrite Nat.eqb_refl]; auto.
        -- intros [a Ha]. apply HinG in Ha as [a0 [b0 [Hi [_ Eb]]]]. unfold redirect in Eb. destruct (Nat.eqb_spec b0 d) as [->|]; [right | left]; subst; eauto.
    + destruct (ci_pa _ _ H n) as [NR IR]. split; [exact NR|]. intros e. rewrite IR. split.
      * intros [a Ha]. exists (redirect d r a). apply HinG. exists a, n. split; [exact Ha|]. split; [reflexivity|]. unfold redirect. destruct (Nat.eqb_spec n d); [contradiction | auto].
      * intros [a Ha]. apply HinG in Ha as [a0 [b0 [Hi [_ Eb]]]]. unfold redirect in Eb. destruct (Nat.eqb_spec b0 d); [congruence|]. subst. eauto.
Qed.
Lemma cinv0 : cinv arcs0 [].
Proof.
  constructor; cbn.
  - constructor.
  - intros e a [].
  - intros e a b [].
  - intros n. split; [constructor|]. intros e. split; [intros [] | intros [b []]].
  - intros n. split; [constructor|]. intros e. split; [intros [] | intros [b []]].
Qed.
Lemma arcs_merge os : forall s G G', cinv s G -> g_run G os G' -> existsb is_disconnect os = false -> exists s', a_run s os = Ok s' /\ cinv s' G'.
Proof.
  induction os as [|o os IH]; intros s G G' H Hr Hd; inversion Hr as [|? G1 ? ? Hs Hr1]; subst; cbn [a_run existsb] in *; [eauto|].
  apply orb_false_iff in Hd as [Hd1 Hd2]. inversion Hs; subst; cbn [a_do]; [| |discriminate].
  - cbn [bind]. eapply IH; eauto. apply cinv_add; auto.
  - destruct (cinv_transfer s G d r H) as [s1 [E1 HH1]]; auto. rewrite E1. cbn [bind]. eapply IH; eauto.
Qed.

(** histories without transfers: the stored indices are right *)
Definition inG (G : graph) (e : nat) : Prop := exists a b, In (e, a, b) G.
Record dinv (s : arcs) (G : graph) : Prop := {
  di_nd : NoDup (map eid G);
  di_loop : forall e a, ~ In (e, a, a) G;
  di_ends : forall e a b, In (e, a, b) G -> a_from s e = a /\ a_to s e = b;
  di_ch : SI (a_from s) (fun _ => []) (inG G) (a_ch s);
  di_pa : SI (a_to s) (fun _ => []) (inG G) (a_pa s) }.
Lemma dinv_cinv s G : dinv s G -> cinv s G.
Proof.
  intros H. constructor; try apply H.
  - intros n. destruct (SI_list _ _ _ (di_ch _ _ H) n) as [A B]. split; [exact A|]. intros e. rewrite B. split.
    + intros [[a [b Hi]] <-]. rewrite (proj1 (di_ends _ _ H _ _ _ Hi)). eauto.
    + intros [b Hi]. split; [exists n, b; exact Hi | apply (di_ends _ _ H _ _ _ Hi)].
  - intros n. destruct (SI_list _ _ _ (di_pa _ _ H) n) as [A B]. split; [exact A|]. intros e. rewrite B. split.
    + intros [[a [b Hi]] <-]. rewrite (proj2 (di_ends _ _ H _ _ _ Hi)). eauto.
    + intros [a Hi]. split; [exists a, n; exact Hi | apply (di_ends _ _ H _ _ _ Hi)].
Qed.
Lemma dinv_add s G e a b : dinv s G -> (forall a' b', ~ In (e, a', b') G) -> a <> b ->
  dinv (addArc (mkArcs (fupd (a_from s) e a) (fupd (a_to s) e b) (a_ch s) (a_pa s)) e) (G ++ [(e, a, b)]).
Proof.
  intros H He Hab. assert (Hc := cinv_add _ _ _ _ _ (dinv_cinv _ _ H) He Hab). destruct Hc as [C1 C2 C3 _ _]. rewrite add_state in * by exact Hab.
  assert (HneG : ~ inG G e) by (intros [x [y Hi]]; exact (He _ _ Hi)).
  assert (HGe : forall x, inG G x \/ x = e <-> inG (G ++ [(e, a, b)]) x).
  { intros x. unfold inG. split.
    - intros [[c1 [c2 Hi]]| ->]; [exists c1, c2 | exists a, b]; apply in_app_iff; cbn; auto.
    - intros [c1 [c2 Hi]]. apply in_app_iff in Hi as [Hi|[Hi|[]]]; [left; eauto | right; congruence]. }
  constructor; auto; cbn [a_from a_to a_ch a_pa].
  - eapply SI_ext; [|reflexivity | exact HGe | reflexivity].
    assert (S0 : SI (fupd (a_from s) e a) (fun _ => []) (inG G) (a_ch s)).
    { eapply SI_ext; [apply (di_ch _ _ H) | reflexivity | reflexivity |]. intros x Hx. apply fupd_diff. intros ->. contradiction. }
    apply SI_push with (e := e) in S0; [|exact HneG]. rewrite fupd_same in S0. exact S0.
  - eapply SI_ext; [|reflexivity | exact HGe | reflexivity].
    assert (S0 : SI (fupd (a_to s) e b) (fun _ => []) (inG G) (a_pa s)).
    { eapply SI_ext; [apply (di_pa _ _ H) | reflexivity | reflexivity |]. intros x Hx. apply fupd_diff. intros ->. contradiction. }
    apply SI_push with (e := e) in S0; [|exact HneG]. rewrite fupd_same in S0. exact S0.
Qed.
Lemma dinv_disc s G n : dinv s G -> exists s', disconnect s n = Ok s' /\ dinv s' (filter (fun '(e, a, b) => negb (a =? n) && negb (b =? n)) G).
Proof.
  intros H. assert (Hc := dinv_cinv _ _ H). destruct (ci_pa _ _ Hc n) as [NL IL]. unfold disconnect.
  set (L := sd_v (a_pa s) n) in *.
  destruct (disc_pa_ok L s _ _ (di_ch _ _ H) NL) as [C1 [E1 S1]]; [intros e He; apply IL in He as [a Ha]; exists a, n; exact Ha|].
  rewrite E1. cbn [bind a_from a_to a_ch a_pa].
  assert (S2 := SI_clear _ _ _ _ n (di_pa _ _ H)).
  destruct (SI_list _ _ _ S1 n) as [NK IK]. set (K := sd_v C1 n) in *.
  assert (S2' : SI (a_to s) (fun _ => []) (fun x => inG G x /\ a_to s x <> n) (sd_clear (a_pa s) n)).
  { eapply SI_ext; [exact S2 | | reflexivity | reflexivity]. intros m. rewrite fupd_eq. destruct (m =? n); reflexivity. }
  destruct (disc_ch_ok K (mkArcs (a_from s) (a_to s) C1 (sd_clear (a_pa s) n)) _ _ S2' NK) as [P3 [E3 S3]].
  { intros e He. apply IK in He as [[[a [b Hi]] Hn] Hf]. split; [exists a, b; exact Hi|]. intros Ht. apply Hn. apply IL. destruct (di_ends _ _ H _ _ _ Hi) as [A B]. exists a. congruence. }
  rewrite E3. cbn [bind a_from a_to a_ch a_pa] in *. eexists. split; [reflexivity|].
  set (G' := filter (fun '(e, a, b) => negb (a =? n) && negb (b =? n)) G).
  assert (HG' : forall e a b, In (e, a, b) G' <-> In (e, a, b) G /\ a <> n /\ b <> n).
  { intros e a b. unfold G'. rewrite filter_In. split; intros [A B]; (split; [exact A|]); [destruct (Nat.eqb_spec a n), (Nat.eqb_spec b n); cbn in B; try discriminate; auto|].
    destruct B as [B1 B2]. apply Nat.eqb_neq in B1, B2. rewrite B1, B2. reflexivity. }
  assert (Hin : forall e, inG G' e <-> inG G e /\ a_from s e <> n /\ a_to s e <> n).
  { intros e. unfold inG. split.
    - intros [a [b Hi]]. apply HG' in Hi as [Hi [A B]]. destruct (di_ends _ _ H _ _ _ Hi) as [-> ->]. eauto.
    - intros [[a [b Hi]] [A B]]. exists a, b. apply HG'. destruct (di_ends _ _ H _ _ _ Hi) as [Ea Eb]. rewrite Ea in A. rewrite Eb in B. auto. }
  constructor; cbn [a_from a_to a_ch a_pa].
  - unfold G'. assert (Hnd := di_nd _ _ H). revert Hnd. clear. induction G as [|[[e a] b] G IH]; cbn; [constructor|]. intros Hnd. inversion Hnd; subst.
    destruct (negb (a =? n) && negb (b =? n)); cbn; [|auto]. constructor; [|auto]. intros Hi. apply H1. apply in_map_iff in Hi as [u [E Hu]]. apply filter_In in Hu as [Hu _]. cbn. rewrite <- E. apply in_map, Hu.
  - intros e a Hi. apply HG' in Hi as [Hi _]. exact (di_loop _ _ H _ _ Hi).
  - intros e a b Hi. apply HG' in Hi as [Hi _]. exact (di_ends _ _ H _ _ _ Hi).
  - eapply SI_ext; [apply (SI_clear _ _ _ _ n S1) | intros m; rewrite fupd_eq; destruct (m =? n); reflexivity | | reflexivity].
    intros x. cbn beta. rewrite Hin. split.
    + intros [[A B] C]. split; [exact A|]. split; [exact C|]. intros Ht. apply B, IL. destruct A as [a [b Hi]]. exists a. destruct (di_ends _ _ H _ _ _ Hi) as [_ Eb]. congruence.
    + intros [A [B C]]. split; [split; [exact A|]|exact B]. intros Hl. apply IL in Hl as [a Hi]. destruct (di_ends _ _ H _ _ _ Hi) as [_ Eb]. contradiction.
  - eapply SI_ext; [exact S3 | reflexivity | | reflexivity].
    intros x. cbn beta. rewrite Hin. split.
    + intros [[A B] C]. split; [exact A|]. split; [|exact B]. intros Hf. apply C, IK. split; [split; [exact A|]|exact Hf]. intros Hl. apply IL in Hl as [a Hi]. destruct (di_ends _ _ H _ _ _ Hi) as [_ Eb]. contradiction.
    + intros [A [B C]]. split; [split; [exact A | exact C]|]. intros Hk. apply IK in Hk as [_ Hf]. contradiction.
Qed.
Lemma dinv0 : dinv arcs0 [].
Proof.
  constructor; cbn.
  - constructor.
  - intros e a [].
  - intros e a b [].
  - constructor; cbn; [intros n; exists []; reflexivity | intros e [a [b []]] | intros n [|j] x E; discriminate].
  - constructor; cbn; [intros n; exists []; reflexivity | intros e [a [b []]] | intros n [|j] x E; discriminate].
Qed.
Lemma arcs_disc os : forall s G G', dinv s G -> g_run G os G' -> existsb is_transfer os = false -> exists s', a_run s os = Ok s' /\ cinv s' G'.
Proof.
  induction os as [|o os IH]; intros s G G' H Hr Hd; inversion Hr as [|? G1 ? ? Hs Hr1]; subst; cbn [a_run existsb] in *; [eauto using dinv_cinv|].
  apply orb_false_iff in Hd as [Hd1 Hd2]. inversion Hs; subst; cbn [a_do]; [|discriminate|].
  - cbn [bind]. eapply IH; eauto. apply dinv_add; auto.
  - destruct (dinv_disc s G n H) as [s1 [E1 HH1]]. rewrite E1. cbn [bind]. eapply IH; eauto.
Qed.
