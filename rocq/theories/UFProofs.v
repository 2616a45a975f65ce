(** Proofs about union-find. *)
From Verif Require Import Base UFModel UFSpec.
From Coq Require Import Relation_Operators Operators_Properties.

(** [up p v r k]: following [k] parent pointers from [v] leads to the root [r] *)
Inductive up (p : nat -> option nat) : nat -> nat -> nat -> Prop :=
| up_root v : p v = None -> up p v v 0
| up_step v w r k : p v = Some w -> up p w r k -> up p v r (S k).

Lemma up_det p v r k : up p v r k -> forall r' k', up p v r' k' -> r' = r /\ k' = k.
Proof.
  induction 1 as [v H|v w r k H _ IH]; intros r' k' H'; inversion H'; subst; try congruence; auto.
  rewrite H in H0. injection H0 as <-. apply IH in H1 as [-> ->]. auto.
Qed.
Lemma up_is_root p v r k : up p v r k -> p r = None.
Proof. induction 1; auto. Qed.
Lemma up_self p r k : up p r r k -> k = 0.
Proof. intros H. assert (Hr := up_is_root _ _ _ _ H). destruct (up_det _ _ _ _ (up_root p r Hr) _ _ H); auto. Qed.

(** path compression *)
Lemma up_compress p v w r j : p v = Some w -> up p v r j ->
  forall x s k, up p x s k -> exists k', k' <= k /\ up (fupd p v (Some r)) x s k'.
Proof.
  intros Hv Hj. assert (Hr := up_is_root _ _ _ _ Hj).
  assert (Hrv : r <> v) by congruence.
  assert (Hroot : up (fupd p v (Some r)) r r 0) by (apply up_root; rewrite fupd_diff; auto).
  induction 1 as [x Hx|x y s k Hx Hy [k' [Hk' IH]]].
  - exists 0. split; [lia|]. apply up_root. rewrite fupd_diff; [auto | congruence].
  - destruct (Nat.eq_dec x v) as [->|Hn].
    + assert (s = r) as -> by (destruct (up_det _ _ _ _ Hj s (S k)) as [-> _]; [econstructor; eauto | auto]).
      exists 1. split; [lia|]. eapply up_step; [apply fupd_same | exact Hroot].
    + exists (S k'). split; [lia|]. eapply up_step; [rewrite fupd_diff by auto; exact Hx | exact IH].
Qed.
(** linking the root [a] below the root [b] *)
Lemma up_link p a b : p a = None -> p b = None -> a <> b -> forall x s k, up p x s k ->
  up (fupd p a (Some b)) x (if s =? a then b else s) (if s =? a then S k else k).
Proof.
  intros Ha Hb Hab. induction 1 as [x Hx|x y s k Hx Hy IH].
  - destruct (Nat.eqb_spec x a) as [->|Hn].
    + eapply up_step; [apply fupd_same|]. apply up_root. rewrite fupd_diff; auto.
    + apply up_root. rewrite fupd_diff; auto.
  - assert (Hxa : x <> a) by congruence.
    destruct (s =? a); (eapply up_step; [rewrite fupd_diff by auto; exact Hx | exact IH]).
Qed.

Definition P2 (k : nat) : Z := (2 ^ Z.of_nat k)%Z.
Lemma P2_S k : P2 (S k) = (2 * P2 k)%Z.
Proof. unfold P2. rewrite Nat2Z.inj_succ, Z.pow_succ_r by lia. reflexivity. Qed.
Lemma P2_mono a b : a <= b -> (P2 a <= P2 b)%Z.
Proof. intros. unfold P2. apply Z.pow_le_mono_r; lia. Qed.
Lemma P2_gt k : (Z.of_nat k < P2 k)%Z.
Proof. induction k as [|k IH]; [reflexivity|]. rewrite P2_S. lia. Qed.

(** invariant; [ms] the pairs merged so far *)
Record uok (u : uf) (ms : list (nat * nat)) : Prop := {
  k_in : forall v, v < u_n u -> exists r k, up (u_par u) v r k /\ r < u_n u;
  k_out : forall v w, u_par u v = Some w -> v < u_n u /\ w < u_n u;
  k_height : forall v r k, v < u_n u -> up (u_par u) v r k -> (P2 k <= u_sz u r)%Z;
  k_count : forall r, r < u_n u -> u_par u r = None ->
    exists l, NoDup l /\ (forall x, In x l <-> x < u_n u /\ exists k, up (u_par u) x r k) /\ Z.of_nat (length l) = u_sz u r;
  k_ms : forall a b, In (a, b) ms -> a < u_n u /\ b < u_n u;
  k_conn : forall a b ra rb ka kb, a < u_n u -> b < u_n u -> up (u_par u) a ra ka -> up (u_par u) b rb kb ->
    (ra = rb <-> connected ms a b) }.

Lemma conn_refl ms a : connected ms a a. Proof. apply rst_refl. Qed.
Lemma conn_sym ms a b : connected ms a b -> connected ms b a. Proof. apply rst_sym. Qed.
Lemma conn_trans ms a b c : connected ms a b -> connected ms b c -> connected ms a c. Proof. apply rst_trans. Qed.
Lemma conn_mono ms ms' a b : (forall p, In p ms -> In p ms') -> connected ms a b -> connected ms' a b.
Proof. intros H. induction 1; [apply rst_step; auto | apply rst_refl | apply rst_sym; auto | eapply rst_trans; eauto]. Qed.

Lemma up_total u ms v : uok u ms -> v < u_n u -> exists r k, up (u_par u) v r k /\ r < u_n u /\ u_par u r = None.
Proof. intros H Hv. destruct (k_in _ _ H v Hv) as [r [k [H1 H2]]]. exists r, k. repeat split; auto. eapply up_is_root; eauto. Qed.
Lemma root_rel u ms v r k : uok u ms -> v < u_n u -> up (u_par u) v r k -> r < u_n u.
Proof. intros H Hv Hu. destruct (k_in _ _ H v Hv) as [r' [k' [H1 H2]]]. destruct (up_det _ _ _ _ H1 _ _ Hu) as [-> _]. exact H2. Qed.
(** number of hops is below the number of nodes *)
Lemma sz_le_n u ms r : uok u ms -> r < u_n u -> u_par u r = None -> (1 <= u_sz u r <= Z.of_nat (u_n u))%Z.
Proof.
  intros H Hr Hp. split; [apply (k_height _ _ H r r 0 Hr), up_root, Hp|].
  destruct (k_count _ _ H r Hr Hp) as [l [Hnd [Hl <-]]].
  assert (length l <= length (seq 0 (u_n u))).
  { apply NoDup_incl_length; [exact Hnd|]. intros x Hx. apply Hl in Hx as [Hx _]. apply in_seq. lia. }
  rewrite seq_length in H0. lia.
Qed.
Lemma hops_bound u ms v r k : uok u ms -> v < u_n u -> up (u_par u) v r k -> (P2 k <= Z.of_nat (u_n u))%Z.
Proof.
  intros H Hv Hu. assert (Hr := root_rel _ _ _ _ _ H Hv Hu). assert (Hh := k_height _ _ H v r k Hv Hu).
  assert (Hs := sz_le_n u ms r H Hr (up_is_root _ _ _ _ Hu)). lia.
Qed.

(** a change of the parent pointers that keeps every root and does not lengthen paths *)
Lemma uok_paths u ms p' : uok u ms ->
  (forall v w, p' v = Some w -> v < u_n u /\ w < u_n u) ->
  (forall x s k, up (u_par u) x s k -> exists k', k' <= k /\ up p' x s k') ->
  (forall x, p' x = None <-> u_par u x = None) ->
  uok (mkU p' (u_sz u) (u_n u)) ms.
Proof.
  intros H Ho Hk Hn.
  assert (Hback : forall x s k, x < u_n u -> up p' x s k -> exists k0, k <= k0 /\ up (u_par u) x s k0).
  { intros x s k Hx Hu. destruct (k_in _ _ H x Hx) as [r [k0 [H1 _]]]. destruct (Hk _ _ _ H1) as [k1 [Hle H2]].
    destruct (up_det _ _ _ _ H2 _ _ Hu) as [-> ->]. eauto. }
  constructor; cbn [u_par u_sz u_n].
  - intros v Hv. destruct (k_in _ _ H v Hv) as [r [k [H1 H2]]]. destruct (Hk _ _ _ H1) as [k1 [_ H3]]. eauto.
  - exact Ho.
  - intros v r k Hv Hu. destruct (Hback _ _ _ Hv Hu) as [k0 [Hle H0]]. assert (Hh := k_height _ _ H v r k0 Hv H0). assert (Hm := P2_mono _ _ Hle). lia.
  - intros r Hr Hp. apply Hn in Hp. destruct (k_count _ _ H r Hr Hp) as [l [Hnd [Hl Hlen]]]. exists l. split; [exact Hnd|]. split; [|exact Hlen].
    intros x. rewrite Hl. split; intros [Hx [k Hu]]; (split; [exact Hx|]).
    + destruct (Hk _ _ _ Hu) as [k1 [_ H1]]. eauto.
    + destruct (Hback _ _ _ Hx Hu) as [k0 [_ H0]]. eauto.
  - apply (k_ms _ _ H).
  - intros a b ra rb ka kb Ha Hb Hua Hub. destruct (Hback _ _ _ Ha Hua) as [? [_ H1]]. destruct (Hback _ _ _ Hb Hub) as [? [_ H2]].
    eapply (k_conn _ _ H); eauto.
Qed.

Lemma setFor_ok : forall fuel u ms v r k, uok u ms -> v < u_n u -> up (u_par u) v r k -> k < fuel ->
  exists u', u_setFor fuel u v = Ok (u', r) /\ uok u' ms /\ u_n u' = u_n u /\ u_sz u' = u_sz u /\
    (forall x, u_par u' x = None <-> u_par u x = None) /\
    (forall x s j, up (u_par u) x s j -> exists j', j' <= j /\ up (u_par u') x s j').
Proof.
  induction fuel as [|f IH]; intros u ms v r k H Hv Hu Hf; [lia|]. cbn [u_setFor].
  inversion Hu as [v' Hp|v' w r' k' Hp Hw]; subst.
  - rewrite Hp. exists u. split; [reflexivity|]. split; [exact H|]. split; [reflexivity|]. split; [reflexivity|]. split; [tauto|]. intros x s j Hj. exists j. auto.
  - rewrite Hp. destruct (k_out _ _ H _ _ Hp) as [_ Hwn].
    destruct (IH u ms w r k' H Hwn Hw) as [u1 [E [H1 [En [Es [Hroot Hpath]]]]]]; [lia|].
    rewrite E. cbn [bind].
    assert (Hr : r < u_n u) by (eapply root_rel; eauto).
    destruct (Hpath _ _ _ Hu) as [j [Hj Huv]].
    assert (Hpv : exists w1, u_par u1 v = Some w1).
    { destruct (u_par u1 v) eqn:Ev; [eauto|]. apply Hroot in Ev. congruence. }
    destruct Hpv as [w1 Hpv].
    assert (Hc := up_compress _ v w1 r j Hpv Huv).
    eexists. split; [reflexivity|]. split; [|split; [exact En|split; [exact Es|split]]].
    + apply uok_paths; auto.
      * intros x y. rewrite fupd_eq. destruct (Nat.eqb_spec x v) as [->|]; [intros [= <-]; rewrite En; auto | apply (k_out _ _ H1)].
      * intros x. rewrite fupd_eq. destruct (Nat.eqb_spec x v) as [->|]; [|tauto]. split; congruence.
    + intros x. cbn [u_par]. rewrite fupd_eq. destruct (Nat.eqb_spec x v) as [->|]; [|apply Hroot]. split; congruence.
    + intros x s i Hx. cbn [u_par]. destruct (Hpath _ _ _ Hx) as [i1 [Hi1 Hx1]]. destruct (Hc _ _ _ Hx1) as [i2 [Hi2 Hx2]]. exists i2. split; [lia | auto].
Qed.

Lemma makeSet_ok u ms : uok u ms -> (forall v, u_n u <= v -> u_par u v = None) -> uok (snd (u_makeSet u)) ms.
Proof.
  intros H Hnone. set (n := u_n u) in *.
  assert (Epar : forall v, fupd (u_par u) n None v = u_par u v).
  { intros v. rewrite fupd_eq. destruct (Nat.eqb_spec v n) as [->|]; [symmetry; apply Hnone; lia | reflexivity]. }
  assert (Hup : forall x s k, up (fupd (u_par u) n None) x s k <-> up (u_par u) x s k).
  { intros x s k. split; induction 1; try (apply up_root; rewrite ?Epar in *; auto; rewrite <- Epar; auto); eapply up_step; eauto; rewrite ?Epar in *; auto. }
  assert (Hn : forall s k, up (u_par u) n s k -> s = n /\ k = 0).
  { intros s k Hu. destruct (up_det _ _ _ _ (up_root _ n (Hnone n (Nat.le_refl n))) _ _ Hu) as [-> ->]. auto. }
  constructor; unfold u_makeSet; cbn [snd u_par u_sz u_n]; fold n.
  - intros v Hv. destruct (Nat.eq_dec v n) as [->|Hne].
    + exists n, 0. split; [apply up_root; rewrite Epar; apply Hnone; lia | lia].
    + destruct (k_in _ _ H v) as [r [k [H1 H2]]]; [fold n; lia|]. exists r, k. split; [apply Hup; exact H1 | fold n in H2; lia].
  - intros v w. rewrite Epar. intros E. apply (k_out _ _ H) in E. fold n in E. lia.
  - intros v r k Hv Hu. apply Hup in Hu. rewrite fupd_eq. destruct (Nat.eq_dec v n) as [->|Hne].
    + apply Hn in Hu as [-> ->]. rewrite Nat.eqb_refl. vm_compute. discriminate.
    + assert (Hvn : v < u_n u) by (fold n; lia). assert (Hr := root_rel _ _ _ _ _ H Hvn Hu). fold n in Hr.
      destruct (Nat.eqb_spec r n); [lia|]. apply (k_height _ _ H v); auto.
  - intros r Hr Hp. rewrite Epar in Hp. rewrite fupd_eq. destruct (Nat.eqb_spec r n) as [->|Hne].
    + exists [n]. split; [constructor; [intros [] | constructor]|]. split; [|reflexivity].
      intros x. split.
      * intros [<-|[]]. split; [lia|]. exists 0. apply up_root. rewrite Epar. exact Hp.
      * intros [Hx [k Hu]]. apply Hup in Hu. destruct (Nat.eq_dec x n) as [->|Hxn]; [left; reflexivity|]. exfalso.
        assert (Hxn' : x < u_n u) by (fold n; lia). assert (Hq := root_rel _ _ _ _ _ H Hxn' Hu). fold n in Hq. lia.
    + destruct (k_count _ _ H r) as [l [Hnd [Hl Hlen]]]; [fold n; lia | exact Hp|]. exists l. split; [exact Hnd|]. split; [|exact Hlen].
      intros x. rewrite Hl. fold n. split; intros [Hx [k Hu]].
      * split; [lia|]. exists k. apply Hup. exact Hu.
      * apply Hup in Hu. destruct (Nat.eq_dec x n) as [->|Hxn]; [apply Hn in Hu as [-> _]; congruence|]. split; [lia|]. eauto.
  - intros a b Hin. apply (k_ms _ _ H) in Hin. fold n in Hin. lia.
  - intros a b ra rb ka kb Ha Hb Hua Hub. apply Hup in Hua. apply Hup in Hub.
    assert (Hiso : forall x y, connected ms x y -> (x = n \/ y = n) -> x = y).
    { induction 1 as [x y Hxy|x|x y _ IH|x y z _ IH1 _ IH2]; intros Hor.
      - apply (k_ms _ _ H) in Hxy. fold n in Hxy. lia.
      - reflexivity.
      - symmetry. apply IH. tauto.
      - destruct Hor as [-> | ->].
        + assert (n = y) by (apply IH1; auto). subst y. apply IH2; auto.
        + assert (y = n) by (apply IH2; auto). subst y. apply IH1; auto. }
    destruct (Nat.eq_dec a n) as [->|Han], (Nat.eq_dec b n) as [->|Hbn].
    + apply Hn in Hua as [-> _]. apply Hn in Hub as [-> _]. split; [intros _; apply conn_refl | auto].
    + apply Hn in Hua as [-> _]. assert (Hbn' : b < u_n u) by (fold n; lia). assert (Hq := root_rel _ _ _ _ _ H Hbn' Hub). fold n in Hq.
      split; [lia|]. intros Hc. apply Hiso in Hc; auto. lia.
    + apply Hn in Hub as [-> _]. assert (Han' : a < u_n u) by (fold n; lia). assert (Hq := root_rel _ _ _ _ _ H Han' Hua). fold n in Hq.
      split; [lia|]. intros Hc. apply Hiso in Hc; auto. lia.
    + eapply (k_conn _ _ H); eauto; fold n; lia.
Qed.

(** linking [a] below [b] merges the classes of [s0] and [s1] *)
Lemma link_ok u ms a b s0 s1 ks0 ks1 ra rb (z : Z) : uok u ms -> a < u_n u -> b < u_n u -> a <> b -> u_par u a = None -> u_par u b = None ->
  s0 < u_n u -> s1 < u_n u -> up (u_par u) s0 ra ks0 -> up (u_par u) s1 rb ks1 -> (ra = a /\ rb = b \/ ra = b /\ rb = a) ->
  (u_sz u a <= u_sz u b)%Z -> z = (u_sz u b + u_sz u a)%Z ->
  uok (mkU (fupd (u_par u) a (Some b)) (fupd (u_sz u) b z) (u_n u)) ((s0, s1) :: ms).
Proof.
  intros H Ha Hb Hab Hpa Hpb Hs0 Hs1 Hu0 Hu1 Hor Hsz ->.
  set (p' := fupd (u_par u) a (Some b)). assert (Hl := up_link (u_par u) a b Hpa Hpb Hab). fold p' in Hl.
  assert (Hback : forall x s k, x < u_n u -> up p' x s k -> exists s0 k0, up (u_par u) x s0 k0 /\ s = (if s0 =? a then b else s0) /\ k = (if s0 =? a then S k0 else k0)).
  { intros x s k Hx Hu. destruct (k_in _ _ H x Hx) as [r [k0 [H1 _]]]. assert (H2 := Hl _ _ _ H1). destruct (up_det _ _ _ _ H2 _ _ Hu) as [-> ->]. eauto. }
  constructor; cbn [u_par u_sz u_n]; fold p'.
  - intros v Hv. destruct (k_in _ _ H v Hv) as [r [k [H1 H2]]]. do 2 eexists. split; [apply Hl; exact H1|]. destruct (r =? a); auto.
  - intros v w. unfold p'. rewrite fupd_eq. destruct (Nat.eqb_spec v a) as [->|]; [intros [= <-]; auto | apply (k_out _ _ H)].
  - intros v r k Hv Hu. destruct (Hback _ _ _ Hv Hu) as [s [k0 [H0 [-> ->]]]]. assert (Hh := k_height _ _ H v s k0 Hv H0).
    assert (Hsa := sz_le_n u ms a H Ha Hpa). rewrite fupd_eq. destruct (Nat.eqb_spec s a) as [->|Hsa'].
    + rewrite Nat.eqb_refl, P2_S. lia.
    + destruct (Nat.eqb_spec s b) as [->|]; lia.
  - intros r Hr Hp. assert (Hra : r <> a) by (intros ->; unfold p' in Hp; rewrite fupd_same in Hp; discriminate).
    assert (Hp0 : u_par u r = None) by (unfold p' in Hp; rewrite fupd_diff in Hp by auto; exact Hp).
    rewrite fupd_eq. destruct (Nat.eqb_spec r b) as [->|Hrb].
    + destruct (k_count _ _ H a Ha Hpa) as [la [Hda [Hla Hlena]]]. destruct (k_count _ _ H b Hb Hpb) as [lb [Hdb [Hlb Hlenb]]].
      exists (lb ++ la). split; [|split].
      * assert (Hdis : forall x, In x lb -> ~ In x la).
        { intros x Hx1 Hx2. apply Hlb in Hx1 as [_ [k1 Hx1]]. apply Hla in Hx2 as [_ [k2 Hx2]]. destruct (up_det _ _ _ _ Hx1 _ _ Hx2). auto. }
        clear - Hda Hdb Hdis. induction lb as [|x lb IH]; cbn; auto. inversion Hdb; subst. constructor.
        -- rewrite in_app_iff. intros [Hi|Hi]; [auto | apply (Hdis x); cbn; auto].
        -- apply IH; auto. intros y Hy. apply Hdis. cbn; auto.
      * intros x. rewrite in_app_iff, Hla, Hlb. split.
        -- intros [[Hx [k Hu]]|[Hx [k Hu]]]; (split; [exact Hx|]); apply Hl in Hu.
           ++ destruct (Nat.eqb_spec b a); [congruence|]. eauto.
           ++ rewrite Nat.eqb_refl in Hu. eauto.
        -- intros [Hx [k Hu]]. destruct (Hback _ _ _ Hx Hu) as [s [k0 [H0 [E _]]]]. destruct (Nat.eqb_spec s a) as [->|]; [right | left; subst s]; split; eauto.
      * rewrite app_length, Nat2Z.inj_add. lia.
    + destruct (k_count _ _ H r Hr Hp0) as [l [Hnd [Hll Hlen]]]. exists l. split; [exact Hnd|]. split; [|exact Hlen].
      intros x. rewrite Hll. split; intros [Hx [k Hu]]; (split; [exact Hx|]).
      * apply Hl in Hu. destruct (Nat.eqb_spec r a); [congruence|]. eauto.
      * destruct (Hback _ _ _ Hx Hu) as [s [k0 [H0 [E _]]]]. destruct (Nat.eqb_spec s a); [congruence|]. subst s. eauto.
  - intros x y [[= <- <-]|Hin]; [auto | apply (k_ms _ _ H); exact Hin].
  - intros x y rx ry kx ky Hx Hy Hux Huy.
    destruct (Hback _ _ _ Hx Hux) as [sx [jx [Hx0 [-> _]]]]. destruct (Hback _ _ _ Hy Huy) as [sy [jy [Hy0 [-> _]]]].
    assert (Hincl : forall c d, connected ms c d -> connected ((s0, s1) :: ms) c d) by (intros c d; apply conn_mono; cbn; auto).
    assert (H01 : connected ((s0, s1) :: ms) s0 s1) by (apply rst_step; cbn; auto).
    assert (Hab' : forall c d kc kd, c < u_n u -> d < u_n u -> up (u_par u) c a kc -> up (u_par u) d b kd -> connected ((s0, s1) :: ms) c d).
    { intros c d kc kd Hc Hd Huc Hud. destruct Hor as [[-> ->]|[-> ->]].
      - apply conn_trans with s0; [apply Hincl; eapply (k_conn _ _ H c s0); eauto|]. apply conn_trans with s1; [exact H01|]. apply Hincl. eapply (k_conn _ _ H s1 d); eauto.
      - apply conn_trans with s1; [apply Hincl; eapply (k_conn _ _ H c s1); eauto|]. apply conn_trans with s0; [apply conn_sym; exact H01|]. apply Hincl. eapply (k_conn _ _ H s0 d); eauto. }
    split.
    + clear Hux Huy. intros E. destruct (Nat.eqb_spec sx a) as [Ex|Ex], (Nat.eqb_spec sy a) as [Ey|Ey].
      * rewrite Ex in Hx0. rewrite Ey in Hy0. apply Hincl. eapply (k_conn _ _ H x y); eauto.
      * rewrite Ex in Hx0. rewrite <- E in Hy0. eapply Hab'; eauto.
      * rewrite E in Hx0. rewrite Ey in Hy0. apply conn_sym. eapply Hab'; eauto.
      * rewrite E in Hx0. apply Hincl. eapply (k_conn _ _ H x y); eauto.
    + intros Hc.
      (* equal new roots is an equivalence containing the old one and the new pair *)
      assert (Hall : forall c d, connected ((s0, s1) :: ms) c d -> (c < u_n u <-> d < u_n u) /\
        (c < u_n u -> forall rc rd kc kd, up p' c rc kc -> up p' d rd kd -> rc = rd)).
      { induction 1 as [c d Hin|c|c d _ [IH1 IH2]|c d e _ [IH1 IH2] _ [IH3 IH4]].
        - assert (Hcd : c < u_n u /\ d < u_n u) by (destruct Hin as [[= <- <-]|Hin]; [auto | apply (k_ms _ _ H); exact Hin]).
          destruct Hcd as [Hc1 Hd1]. split; [tauto|]. intros _ rc rd kc kd Huc Hud.
          destruct (Hback _ _ _ Hc1 Huc) as [sc [jc [Hc0 [-> _]]]]. destruct (Hback _ _ _ Hd1 Hud) as [sd [jd [Hd0 [-> _]]]].
          destruct Hin as [[= <- <-]|Hin].
          + destruct (up_det _ _ _ _ Hu0 _ _ Hc0) as [-> _]. destruct (up_det _ _ _ _ Hu1 _ _ Hd0) as [-> _].
            destruct Hor as [[-> ->]|[-> ->]]; rewrite Nat.eqb_refl; destruct (Nat.eqb_spec b a); congruence.
          + assert (sc = sd) as -> by (eapply (k_conn _ _ H c d); eauto; apply rst_step; exact Hin). reflexivity.
        - split; [tauto|]. intros _ rc rd kc kd Huc Hud. destruct (up_det _ _ _ _ Huc _ _ Hud). auto.
        - split; [tauto|]. intros Hd1 rc rd kc kd Huc Hud. symmetry. eapply IH2; [tauto | exact Hud | exact Huc].
        - split; [tauto|]. intros Hc1 rc re kc ke Huc Hue. assert (Hd1 : d < u_n u) by tauto.
          destruct (k_in _ _ H d Hd1) as [rd [kd [Hd0 _]]]. apply Hl in Hd0. transitivity (if rd =? a then b else rd); [eapply IH2 | eapply IH4]; eauto. }
      destruct (Hall x y Hc) as [_ Heq]. eapply Heq; eauto; apply Hl; eauto.
Qed.

Lemma same_conn u ms s0 s1 r k0 k1 : uok u ms -> s0 < u_n u -> s1 < u_n u -> up (u_par u) s0 r k0 -> up (u_par u) s1 r k1 -> uok u ((s0, s1) :: ms).
Proof.
  intros H H0 H1 Hu0 Hu1. constructor; try apply H.
  - intros a b [[= <- <-]|Hin]; [auto | apply (k_ms _ _ H); exact Hin].
  - intros a b ra rb ka kb Ha Hb Hua Hub. rewrite (k_conn _ _ H a b ra rb ka kb Ha Hb Hua Hub). split; [apply conn_mono; cbn; auto|].
    assert (H01 : connected ms s0 s1) by (eapply (k_conn _ _ H s0 s1); eauto).
    clear Ha Hb Hua Hub. induction 1 as [c d Hin|c|c d _ IH|c d e _ IH1 _ IH2].
    + destruct Hin as [[= <- <-]|Hin]; [exact H01 | apply rst_step; exact Hin].
    + apply conn_refl.
    + apply conn_sym; auto.
    + eapply conn_trans; eauto.
Qed.

Lemma hops_lt u ms v r k : uok u ms -> v < u_n u -> up (u_par u) v r k -> k < S (u_n u).
Proof. intros H Hv Hu. assert (Hb := hops_bound _ _ _ _ _ H Hv Hu). assert (Hg := P2_gt k). lia. Qed.

Lemma merge_ok u ms s0 s1 : uok u ms -> s0 < u_n u -> s1 < u_n u -> (Z.of_nat (u_n u) <= 2147483647)%Z ->
  exists u' r k, u_merge (S (u_n u)) u s0 s1 = Ok (u', r) /\ uok u' ((s0, s1) :: ms) /\ u_n u' = u_n u /\ up (u_par u) s0 r k /\
    (u_par u' r = None <-> (connected ms s0 s1 \/ exists r1 k1, up (u_par u) s1 r1 k1 /\ r <> r1 /\ (u_sz u r1 < u_sz u r)%Z)).
Proof.
  intros H H0 H1 Hmax. unfold u_merge.
  destruct (up_total u ms s0 H H0) as [r0 [k0 [Hu0 [Hr0 Hp0]]]]. destruct (up_total u ms s1 H H1) as [r1 [k1 [Hu1 [Hr1 Hp1]]]].
  destruct (setFor_ok (S (u_n u)) u ms s0 r0 k0 H H0 Hu0 (hops_lt _ _ _ _ _ H H0 Hu0)) as [ua [Ea [Ha [Ena [Esa [Hra Hpa]]]]]].
  rewrite Ea. cbn [bind].
  destruct (Hpa _ _ _ Hu1) as [k1' [_ Hu1a]].
  assert (H1a : s1 < u_n ua) by (rewrite Ena; exact H1).
  assert (Hf : k1' < S (u_n u)) by (rewrite <- Ena; eapply hops_lt; eauto).
  destruct (setFor_ok (S (u_n u)) ua ms s1 r1 k1' Ha H1a Hu1a Hf) as [ub [Eb [Hb [Enb [Esb [Hrb Hpb]]]]]].
  rewrite Eb. cbn [bind].
  assert (En : u_n ub = u_n u) by congruence. assert (Es : u_sz ub = u_sz u) by congruence.
  assert (Hroot : forall x, u_par ub x = None <-> u_par u x = None) by (intros x; rewrite Hrb; apply Hra).
  assert (Hpath : forall x s j, up (u_par u) x s j -> exists j', up (u_par ub) x s j').
  { intros x s j Hx. destruct (Hpa _ _ _ Hx) as [j1 [_ Hx1]]. destruct (Hpb _ _ _ Hx1) as [j2 [_ Hx2]]. eauto. }
  destruct (Hpath _ _ _ Hu0) as [k0b Hu0b]. destruct (Hpath _ _ _ Hu1) as [k1b Hu1b].
  destruct (Nat.eqb_spec r0 r1) as [E01|Hne].
  - subst r1. exists ub, r0, k0. split; [reflexivity|]. split; [|split; [exact En | split; [exact Hu0|]]].
    + eapply same_conn; eauto; rewrite En; auto.
    + split; intros _; [left; eapply (k_conn _ _ H s0 s1); eauto | apply Hroot; exact Hp0].
  - assert (Hsum : (u_sz u r0 + u_sz u r1 <= Z.of_nat (u_n u))%Z).
    { destruct (k_count _ _ H r0 Hr0 Hp0) as [la [Hda [Hla <-]]]. destruct (k_count _ _ H r1 Hr1 Hp1) as [lb [Hdb [Hlb <-]]].
      rewrite <- Nat2Z.inj_add, <- app_length. apply Nat2Z.inj_le.
      rewrite <- (seq_length (u_n u) 0). apply NoDup_incl_length.
      - assert (Hdis : forall x, In x la -> ~ In x lb).
        { intros x Hx1 Hx2. apply Hla in Hx1 as [_ [j1 Hx1]]. apply Hlb in Hx2 as [_ [j2 Hx2]]. destruct (up_det _ _ _ _ Hx1 _ _ Hx2). auto. }
        clear - Hda Hdb Hdis. induction la as [|x la IH]; cbn; auto. inversion Hda; subst. constructor.
        + rewrite in_app_iff. intros [Hi|Hi]; [auto | apply (Hdis x); cbn; auto].
        + apply IH; auto. intros y Hy. apply Hdis. cbn; auto.
      - intros x Hx. apply in_app_iff in Hx. apply in_seq. rewrite Hla, Hlb in Hx. destruct Hx as [[Hx _]|[Hx _]]; lia. }
    assert (Hs0 := sz_le_n u ms r0 H Hr0 Hp0). assert (Hs1 := sz_le_n u ms r1 H Hr1 Hp1).
    rewrite Es. unfold int_add.
    assert (Hnc : ~ connected ms s0 s1) by (intros Hc; apply Hne; eapply (k_conn _ _ H s0 s1); eauto).
    destruct (u_sz u r1 <? u_sz u r0)%Z eqn:Elt.
    + destruct ((-2147483648 <=? u_sz u r0 + u_sz u r1) && (u_sz u r0 + u_sz u r1 <=? 2147483647))%Z eqn:Eo; [|lia].
      cbn [bind]. do 3 eexists. split; [reflexivity|]. split; [|split; [exact En | split; [exact Hu0|]]].
      * rewrite <- Es. eapply (link_ok ub ms r1 r0 s0 s1 k0b k1b r0 r1); auto; rewrite ?En; auto; try (apply Hroot; assumption); rewrite ?Es; lia.
      * cbn [u_par]. rewrite fupd_diff by auto. split; intros _; [right | apply Hroot; exact Hp0]. exists r1, k1. split; [exact Hu1|]. split; [auto | lia].
    + destruct ((-2147483648 <=? u_sz u r1 + u_sz u r0) && (u_sz u r1 + u_sz u r0 <=? 2147483647))%Z eqn:Eo; [|lia].
      cbn [bind]. do 3 eexists. split; [reflexivity|]. split; [|split; [exact En | split; [exact Hu0|]]].
      * rewrite <- Es. eapply (link_ok ub ms r0 r1 s0 s1 k0b k1b r0 r1); auto; rewrite ?En; auto; try (apply Hroot; assumption); rewrite ?Es; lia.
      * cbn [u_par]. rewrite fupd_same. split; [discriminate|]. intros [Hc|[r' [k' [Hr' [_ Hlt]]]]]; [contradiction|].
        destruct (up_det _ _ _ _ Hu1 _ _ Hr') as [-> _]. lia.
Qed.

(** * histories *)
Lemma uok_none u ms : uok u ms -> forall v, u_n u <= v -> u_par u v = None.
Proof. intros H v Hv. destruct (u_par u v) eqn:E; auto. apply (k_out _ _ H) in E. lia. Qed.
Lemma uok_ext u ms ms' : uok u ms -> (forall p, In p ms <-> In p ms') -> uok u ms'.
Proof.
  intros H He. constructor; try apply H.
  - intros a b Hin. apply (k_ms _ _ H), He, Hin.
  - intros a b ra rb ka kb Ha Hb Hua Hub. rewrite (k_conn _ _ H a b ra rb ka kb Ha Hb Hua Hub). split; apply conn_mono; intros p; apply He.
Qed.
Lemma new_ok : uok u_new [].
Proof. constructor; cbn; intros; try lia; try discriminate; contradiction. Qed.

Lemma do_ok u ms o : uok u ms -> legal (u_n u) [o] -> (Z.of_nat (u_n u) <= 2147483647)%Z ->
  exists r u', u_do u o = Ok (r, u') /\ uok u' (merges [o] ++ ms) /\ u_n u' = u_n u + made [o].
Proof.
  intros H Hl Hmax. destruct o as [|v|a b]; cbn [u_do legal merges made app] in *.
  - do 2 eexists. split; [reflexivity|]. split; [apply makeSet_ok; [exact H | eapply uok_none; eauto] | cbn; lia].
  - destruct Hl as [Hv _]. apply Nat.ltb_lt in Hv as Hv'. rewrite Hv'.
    destruct (up_total u ms v H Hv) as [r [k [Hu _]]].
    destruct (setFor_ok _ u ms v r k H Hv Hu (hops_lt _ _ _ _ _ H Hv Hu)) as [u' [E [H' [En _]]]]. rewrite E. cbn [bind].
    do 2 eexists. split; [reflexivity|]. split; [exact H' | lia].
  - destruct Hl as [Ha [Hb _]]. apply Nat.ltb_lt in Ha as Ha'. apply Nat.ltb_lt in Hb as Hb'. rewrite Ha', Hb'. cbn [andb].
    destruct (merge_ok u ms a b H Ha Hb Hmax) as [u' [r [k [E [H' [En _]]]]]]. rewrite E. cbn [bind].
    do 2 eexists. split; [reflexivity|]. split; [exact H' | lia].
Qed.
Lemma legal_cons n o os : legal n (o :: os) <-> legal n [o] /\ legal (n + made [o]) os.
Proof. destruct o; cbn; rewrite ?Nat.add_0_r, ?Nat.add_1_r; tauto. Qed.
Lemma merges_cons o os : merges (o :: os) = merges [o] ++ merges os.
Proof. destruct o; reflexivity. Qed.
Lemma made_cons o os : made (o :: os) = made [o] + made os.
Proof. destruct o; reflexivity. Qed.
Lemma run_ok os : forall u ms, uok u ms -> legal (u_n u) os -> (Z.of_nat (u_n u + made os) <= 2147483647)%Z ->
  exists rs u', u_run u os = Ok (rs, u') /\ uok u' (merges os ++ ms) /\ u_n u' = u_n u + made os.
Proof.
  induction os as [|o os IH]; intros u ms H Hl Hmax; cbn [u_run].
  - do 2 eexists. split; [reflexivity|]. split; [exact H | cbn; lia].
  - apply legal_cons in Hl as [Hl1 Hl2]. rewrite made_cons in Hmax.
    destruct (do_ok u ms o H Hl1) as [r [u1 [E1 [H1 En1]]]]; [lia|]. rewrite E1. cbn [bind].
    destruct (IH u1 _ H1) as [rs [u2 [E2 [H2 En2]]]]; [rewrite En1; exact Hl2 | lia|]. rewrite E2. cbn [bind].
    do 2 eexists. split; [reflexivity|]. split.
    + eapply uok_ext; [exact H2|]. intros p. rewrite (merges_cons o os), !in_app_iff. tauto.
    + rewrite En2, En1, (made_cons o os). lia.
Qed.
(** conversely, a history that runs is legal *)
Lemma do_inv u o r u' ms : uok u ms -> (Z.of_nat (u_n u) <= 2147483647)%Z -> u_do u o = Ok (r, u') -> legal (u_n u) [o].
Proof.
  intros H Hmax E. destruct o as [|v|a b]; cbn [u_do legal] in *; auto.
  - destruct (Nat.ltb_spec v (u_n u)); [auto | discriminate].
  - destruct (Nat.ltb_spec a (u_n u)), (Nat.ltb_spec b (u_n u)); cbn in E; try discriminate; auto.
Qed.
Lemma run_legal os : forall u ms rs u', uok u ms -> (Z.of_nat (u_n u + made os) <= 2147483647)%Z -> u_run u os = Ok (rs, u') -> legal (u_n u) os.
Proof.
  induction os as [|o os IH]; intros u ms rs u' H Hmax E; [exact I|]. cbn [u_run] in E. rewrite made_cons in Hmax.
  apply bind_ok in E as [[r u1] [E1 E]]. apply bind_ok in E as [[rs2 u2] [E2 _]].
  assert (Hl1 := do_inv u o r u1 ms H ltac:(lia) E1). apply legal_cons. split; [exact Hl1|].
  destruct (do_ok u ms o H Hl1) as [r' [u1' [E1' [H1 En1]]]]; [lia|]. rewrite E1 in E1'. injection E1' as <- <-.
  rewrite <- En1. eapply IH; eauto. lia.
Qed.
Lemma run_inv os rs u : (Z.of_nat (made os) <= 2147483647)%Z -> u_run u_new os = Ok (rs, u) -> uok u (merges os) /\ u_n u = made os.
Proof.
  intros Hmax E. assert (Hl := run_legal os u_new [] rs u new_ok Hmax E).
  destruct (run_ok os u_new [] new_ok Hl Hmax) as [rs' [u' [E' [H' En]]]]. rewrite E in E'. injection E' as <- <-.
  rewrite app_nil_r in H'. auto.
Qed.

(** * the statements *)
Lemma uf_defined os : legal 0 os -> (Z.of_nat (made os) <= 2147483647)%Z -> exists rs u, u_run u_new os = Ok (rs, u).
Proof. intros Hl Hmax. destruct (run_ok os u_new [] new_ok Hl Hmax) as [rs [u [E _]]]. eauto. Qed.

Lemma uf_same os rs u a b : (Z.of_nat (made os) <= 2147483647)%Z -> u_run u_new os = Ok (rs, u) -> a < made os -> b < made os ->
  exists u' c, u_same u a b = Ok (u', c) /\ (c = true <-> connected (merges os) a b).
Proof.
  intros Hmax E Ha Hb. destruct (run_inv os rs u Hmax E) as [H En]. rewrite <- En in *.
  destruct (up_total u _ a H Ha) as [ra [ka [Hua _]]]. destruct (up_total u _ b H Hb) as [rb [kb [Hub _]]].
  unfold u_same. destruct (setFor_ok _ u _ a ra ka H Ha Hua (hops_lt _ _ _ _ _ H Ha Hua)) as [u1 [E1 [H1 [En1 [_ [_ Hp1]]]]]].
  rewrite E1. cbn [bind]. destruct (Hp1 _ _ _ Hub) as [kb' [_ Hub']]. assert (Hb1 : b < u_n u1) by (rewrite En1; exact Hb).
  destruct (setFor_ok _ u1 _ b rb kb' H1 Hb1 Hub' (hops_lt _ _ _ _ _ H1 Hb1 Hub')) as [u2 [E2 _]].
  rewrite E2. cbn [bind]. do 2 eexists. split; [reflexivity|].
  rewrite Nat.eqb_eq. eapply (k_conn _ _ H a b); eauto.
Qed.
Lemma uf_repr os rs u a u' r : (Z.of_nat (made os) <= 2147483647)%Z -> u_run u_new os = Ok (rs, u) -> a < made os ->
  u_setFor (S (made os)) u a = Ok (u', r) ->
  r < made os /\ connected (merges os) a r /\ u_par u' r = None /\ exists l, class_of (merges os) (made os) r l /\ u_sz u' r = Z.of_nat (length l).
Proof.
  intros Hmax E Ha Es. destruct (run_inv os rs u Hmax E) as [H En]. rewrite <- En in *.
  destruct (up_total u _ a H Ha) as [ra [ka [Hua [Hra Hpa]]]].
  destruct (setFor_ok _ u _ a ra ka H Ha Hua (hops_lt _ _ _ _ _ H Ha Hua)) as [u1 [E1 [H1 [En1 [Es1 [Hr1 _]]]]]].
  rewrite E1 in Es. injection Es as <- <-. split; [exact Hra|]. split; [|split].
  - eapply (k_conn _ _ H a ra); eauto. apply up_root. exact Hpa.
  - apply Hr1. exact Hpa.
  - destruct (k_count _ _ H ra Hra Hpa) as [l [Hnd [Hl Hlen]]]. exists l. split; [|rewrite Es1; auto]. split; [exact Hnd|].
    intros x. rewrite Hl. split; intros [Hx Hy]; (split; [exact Hx|]).
    + destruct Hy as [k Hu]. eapply (k_conn _ _ H ra x); eauto. apply up_root. exact Hpa.
    + destruct (up_total u _ x H Hx) as [rx [kx [Hux _]]]. assert (ra = rx) as -> by (eapply (k_conn _ _ H ra x ra rx); eauto; apply up_root; exact Hpa). eauto.
Qed.
Lemma uf_merge os rs u a b u' r : (Z.of_nat (made os) <= 2147483647)%Z -> u_run u_new os = Ok (rs, u) -> a < made os -> b < made os ->
  u_merge (S (made os)) u a b = Ok (u', r) ->
  r < made os /\ connected (merges os) a r /\
  (u_par u' r = None <-> (connected (merges os) a b \/
     exists la lb, class_of (merges os) (made os) a la /\ class_of (merges os) (made os) b lb /\ length lb < length la)).
Proof.
  intros Hmax E Ha Hb Em. destruct (run_inv os rs u Hmax E) as [H En]. rewrite <- En in *.
  destruct (merge_ok u _ a b H Ha Hb Hmax) as [u1 [ra [ka [E1 [H1 [En1 [Hua Hiff]]]]]]]. rewrite E1 in Em. injection Em as <- <-.
  assert (Hra := root_rel _ _ _ _ _ H Ha Hua). assert (Hpa := up_is_root _ _ _ _ Hua).
  split; [exact Hra|]. split; [eapply (k_conn _ _ H a ra); eauto; apply up_root; exact Hpa|].
  rewrite Hiff. clear Hiff.
  assert (Hcls : forall v r k, v < u_n u -> up (u_par u) v r k -> exists l, class_of (merges os) (u_n u) v l /\ Z.of_nat (length l) = u_sz u r).
  { intros v r k Hv Hu. destruct (k_count _ _ H r (root_rel _ _ _ _ _ H Hv Hu) (up_is_root _ _ _ _ Hu)) as [l [Hnd [Hl Hlen]]].
    exists l. split; [|exact Hlen]. split; [exact Hnd|]. intros x. rewrite Hl. split; intros [Hx Hy]; (split; [exact Hx|]).
    - destruct Hy as [j Hy]. eapply (k_conn _ _ H v x); eauto.
    - destruct (up_total u _ x H Hx) as [rx [kx [Hux _]]]. assert (r = rx) as -> by (eapply (k_conn _ _ H v x r rx); eauto). eauto. }
  assert (Huniq : forall v l l', class_of (merges os) (u_n u) v l -> class_of (merges os) (u_n u) v l' -> length l = length l').
  { intros v l l' [H2 H3] [H4 H5]. apply Permutation_length, NoDup_Permutation; auto. intros x. rewrite H3, H5. tauto. }
  destruct (up_total u _ b H Hb) as [rb [kb [Hub _]]].
  destruct (Hcls a ra ka Ha Hua) as [la [Hla Hlena]]. destruct (Hcls b rb kb Hb Hub) as [lb [Hlb Hlenb]].
  split; (intros [Hc|Hc]; [left; exact Hc|]).
  - destruct Hc as [r1 [k1 [Hr1 [_ Hlt]]]]. right. exists la, lb. destruct (up_det _ _ _ _ Hub _ _ Hr1) as [-> _]. split; [exact Hla|]. split; [exact Hlb | lia].
  - destruct Hc as [la' [lb' [Hla' [Hlb' Hlt]]]]. right. exists rb, kb. split; [exact Hub|].
    assert (length la = length la') by (eapply Huniq; eauto). assert (length lb = length lb') by (eapply Huniq; eauto).
    split; [|lia]. intros ->. lia.
Qed.
(** recursion depth *)
Lemma uf_depth os rs u a d : (Z.of_nat (made os) <= 2147483647)%Z -> u_run u_new os = Ok (rs, u) -> a < made os -> Nat.log2 (made os) < d ->
  exists u' r, u_setFor d u a = Ok (u', r).
Proof.
  intros Hmax E Ha Hd. destruct (run_inv os rs u Hmax E) as [H En]. rewrite <- En in *.
  destruct (up_total u _ a H Ha) as [ra [ka [Hua _]]]. assert (Hb := hops_bound _ _ _ _ _ H Ha Hua).
  assert (Hk : ka <= Nat.log2 (u_n u)).
  { apply Nat.log2_le_pow2; [lia|]. unfold P2 in Hb. apply Nat2Z.inj_le. rewrite Nat2Z.inj_pow. exact Hb. }
  destruct (setFor_ok d u _ a ra ka H Ha Hua) as [u1 [E1 _]]; [lia|]. eauto.
Qed.
