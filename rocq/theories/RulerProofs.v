(** Proofs about the Golomb ruler examples. *)
From Verif Require Import Base DDModel DDSpec DDFrame TspModel TspProofs RulerModel RulerSpec.
From Coq Require Import Sorting.Sorted Permutation.
Local Open Scope Z_scope.

(** ** sets of integers as bit masks *)
Lemma imem_bmem s v : imem s v = true <-> 0 <= v /\ bmem s (Z.to_nat v) = true.
Proof. unfold imem. rewrite andb_true_iff. intuition lia. Qed.
Lemma imem_ext a c : (forall v, imem a v = true <-> imem c v = true) -> a = c.
Proof.
  intros H. apply bmem_ext. intros v. specialize (H (Z.of_nat v)). rewrite !imem_bmem, Nat2Z.id in H.
  destruct (bmem a v), (bmem c v); auto; exfalso; [assert (0 <= Z.of_nat v /\ false = true)|assert (0 <= Z.of_nat v /\ false = true)]; try (apply H; split; [lia|auto]); intuition discriminate.
Qed.
Lemma imem_or a c v : imem (N.lor a c) v = true <-> imem a v = true \/ imem c v = true.
Proof. rewrite !imem_bmem, bmem_or, orb_true_iff. tauto. Qed.
Lemma imem_and a c v : imem (N.land a c) v = true <-> imem a v = true /\ imem c v = true.
Proof. rewrite !imem_bmem, bmem_and, andb_true_iff. tauto. Qed.
Lemma imem_0 v : imem 0 v = false.
Proof. destruct (imem 0 v) eqn:E; auto. apply imem_bmem in E as [_ E]. now rewrite bmem_0 in E. Qed.
Lemma setOf_gen l : forall s v, imem (fold_left (fun s v => badd s (Z.to_nat v)) l s) v = true <-> imem s v = true \/ (0 <= v /\ exists w, In w l /\ Z.to_nat w = Z.to_nat v).
Proof.
  induction l as [|a l IH]; intros s v; cbn [fold_left].
  - split; auto. intros [H|(_ & w & [] & _)]; auto.
  - rewrite IH, !imem_bmem, bmem_add, orb_true_iff, Nat.eqb_eq. split.
    + intros [[H1 [H2|H2]]|(H1 & w & H2 & H3)]; [right|left|right]; auto.
      * split; auto. exists a. split; [now left|auto].
      * split; auto. exists w. split; [now right|auto].
    + intros [[H1 H2]|(H1 & w & [->|H2] & H3)]; auto. right. split; eauto.
Qed.
Lemma imem_setOf l v : (forall x, In x l -> 0 <= x) -> imem (setOf l) v = true <-> In v l.
Proof.
  intros H. unfold setOf. rewrite setOf_gen, imem_0. split.
  - intros [E|(H1 & w & H2 & H3)]; [discriminate|]. specialize (H w H2). assert (w = v) by lia. now subst.
  - intros Hv. right. split; auto. eauto.
Qed.
Lemma imem_one l v : 0 <= l -> imem (setOf [l]) v = true <-> v = l.
Proof. intros H. rewrite imem_setOf; [cbn; intuition|]. intros x [<-|[]]; auto. Qed.
Lemma in_members s v : In v (members s) <-> imem s v = true.
Proof.
  unfold members. rewrite in_map_iff, imem_bmem. split.
  - intros (i & <- & H). apply in_blist in H as [_ H]. rewrite Nat2Z.id. split; [lia|auto].
  - intros [H1 H2]. exists (Z.to_nat v). split; [lia|]. apply in_blist. split; auto.
    destruct (Nat.lt_ge_cases (Z.to_nat v) (N.size_nat s)) as [|G]; auto. exfalso. unfold bmem in H2.
    pose proof (Ndigits.Ntestbit_Nbit s (Z.to_nat v)) as E1. pose proof (Ndigits.Nbit_Nsize s (Z.to_nat v) G) as E2. congruence.
Qed.
Lemma imem_refl l s v : (forall x, imem s x = true -> x <= l) -> imem (refl l s) v = true <-> exists i, imem s i = true /\ v = l - i.
Proof.
  intros H. unfold refl. rewrite imem_setOf.
  - rewrite in_map_iff. split; intros (i & A & B); exists i; [rewrite <- in_members; auto|rewrite in_members; auto].
  - intros x Hx. apply in_map_iff in Hx as (i & <- & Hi). apply in_members, H in Hi. lia.
Qed.
Lemma in_closeInc lb ub l : In l (closeInc lb ub) <-> lb <= l <= ub.
Proof.
  unfold closeInc. rewrite in_map_iff. split.
  - intros (i & <- & H). apply in_seq in H. lia.
  - intros H. exists (Z.to_nat (l - lb)). split; [lia|]. apply in_seq. lia.
Qed.
Lemma ruler_eqb2_eq a c : ruler_eqb2 a c = true <-> a = c.
Proof.
  unfold ruler_eqb2, ruler_eqb. rewrite !andb_true_iff, !N.eqb_eq, !Z.eqb_eq. destruct a, c; cbn. split; [intros (((-> & ->) & ->) & ->); auto|].
  intros [= -> -> -> ->]; auto.
Qed.

(** ** strictly increasing lists *)
Notation inc := (StronglySorted Z.lt).
Lemma inc_app a c : inc (a ++ c) <-> inc a /\ inc c /\ (forall x y, In x a -> In y c -> x < y).
Proof.
  induction a as [|h a IH]; cbn [app].
  - split; [intros H; csplit; auto; try constructor; intros x y []|tauto].
  - split.
    + intros H. apply StronglySorted_inv in H as [H F]. apply IH in H as (H1 & H2 & H3). rewrite Forall_forall in F.
      csplit; auto.
      * constructor; auto. apply Forall_forall. intros x Hx. apply F, in_or_app; auto.
      * intros x y [<-|Hx] Hy; auto. apply F, in_or_app; auto.
    + intros (H1 & H2 & H3). apply StronglySorted_inv in H1 as [H1 F]. constructor.
      * apply IH. csplit; auto. intros x y Hx Hy. apply H3; auto. now right.
      * apply Forall_forall. intros x Hx. apply in_app_or in Hx as [Hx|Hx]; [rewrite Forall_forall in F; auto|]. apply H3; auto. now left.
Qed.
Lemma last_cons {A} (a : list A) : forall x d, last (x :: a) d = last a x.
Proof. induction a as [|y a IH]; intros x d; auto. change (last (x :: y :: a) d) with (last (y :: a) d). now rewrite !IH. Qed.
Lemma last_app {A} (a c : list A) : forall d, last (a ++ c) d = last c (last a d).
Proof. induction a as [|x a IH]; intros d; auto. cbn [app]. rewrite !last_cons. apply IH. Qed.
Lemma last_in {A} (a : list A) d : In (last a d) (d :: a).
Proof. induction a as [|x a IH] in d |- *; [now left|]. rewrite last_cons. right. apply IH. Qed.
Lemma inc_last a xs x : inc (a :: xs) -> In x (a :: xs) -> x <= last xs a.
Proof.
  revert a x. induction xs as [|y xs IH]; intros a x H Hx; [cbn; destruct Hx as [->|[]]; lia|].
  rewrite last_cons. apply StronglySorted_inv in H as [H F]. rewrite Forall_forall in F.
  destruct Hx as [->|Hx]; [|now apply IH]. specialize (F y (or_introl eq_refl)). pose proof (IH y y H (or_introl eq_refl)). lia.
Qed.
Lemma inc_eq a : forall c, inc a -> inc c -> (forall x, In x a <-> In x c) -> a = c.
Proof.
  induction a as [|x a IH]; intros c Ha Hc E.
  - destruct c as [|y c]; auto. exfalso. apply (E y). now left.
  - destruct c as [|y c]; [exfalso; apply (E x); now left|].
    apply StronglySorted_inv in Ha as [Ha Fa]. apply StronglySorted_inv in Hc as [Hc Fc]. rewrite Forall_forall in Fa, Fc.
    assert (x = y).
    { destruct (proj1 (E x) (or_introl eq_refl)) as [|Hx]; auto. destruct (proj2 (E y) (or_introl eq_refl)) as [|Hy]; auto.
      apply Fc in Hx. apply Fa in Hy. lia. }
    subst y. f_equal. apply IH; auto. intros z. split; intros Hz.
    + destruct (proj1 (E z) (or_intror Hz)) as [<-|]; auto. apply Fa in Hz. lia.
    + destruct (proj2 (E z) (or_intror Hz)) as [<-|]; auto. apply Fc in Hz. lia.
Qed.
Lemma inc_members s : inc (members s).
Proof.
  unfold members, blist. assert (G : forall n k, inc (map Z.of_nat (filter (bmem s) (seq k n)))).
  { induction n as [|n IH]; intros k; cbn [seq filter map]; [constructor|]. destruct (bmem s k); auto. cbn [map]. constructor; auto.
    apply Forall_forall. intros x Hx. apply in_map_iff in Hx as (i & <- & Hi). apply filter_In in Hi as [Hi _]. apply in_seq in Hi. lia. }
  apply G.
Qed.
Lemma inc_nth l : inc l -> forall i j d, (i < j < length l)%nat -> nth i l d < nth j l d.
Proof.
  induction 1 as [|x l H IH F]; intros i j d L; cbn [length] in L; [lia|]. destruct j as [|j]; [lia|]. cbn [nth].
  destruct i as [|i]; [|apply IH; lia]. rewrite Forall_forall in F. apply F, nth_In. lia.
Qed.
Lemma inc_map_sub l a : inc l -> inc (map (fun x => x - a) l).
Proof.
  induction 1 as [|x l H IH F]; cbn [map]; constructor; auto. apply Forall_forall. intros y Hy. apply in_map_iff in Hy as (z & <- & Hz).
  rewrite Forall_forall in F. specialize (F z Hz). lia.
Qed.
Lemma inc_mirror l a : inc l -> inc (map (fun x => a - x) (rev l)).
Proof.
  induction 1 as [|x l H IH F]; cbn [rev map]; [constructor|]. rewrite map_app. apply inc_app. csplit; auto.
  - cbn. constructor; constructor.
  - intros y z Hy [<-|[]]. apply in_map_iff in Hy as (w & <- & Hw). apply in_rev in Hw. rewrite Forall_forall in F. specialize (F w Hw). lia.
Qed.

(** ** facts about Golomb rulers *)
Lemma golomb_pos xs x : golomb xs -> In x xs -> 0 < x.
Proof. intros [S _] Hx. apply StronglySorted_inv in S as [_ F]. rewrite Forall_forall in F. now apply F. Qed.
Lemma golomb_le xs x : golomb xs -> In x (0 :: xs) -> 0 <= x <= rlen xs.
Proof. intros G Hx. split; [|apply inc_last; [apply G|auto]]. destruct Hx as [<-|Hx]; [lia|]. pose proof (golomb_pos _ _ G Hx). lia. Qed.
Lemma golomb_nil : golomb [].
Proof. split; [repeat constructor|]. intros a b c d [<-|[]] [<-|[]]; lia. Qed.
Lemma golomb_pre xs ys : golomb (xs ++ ys) -> golomb xs.
Proof.
  intros [S D]. rewrite app_comm_cons in S. apply inc_app in S as (S & _ & _). split; auto.
  assert (U : forall x, In x (0 :: xs) -> In x (0 :: xs ++ ys)) by (intros x [<-|H]; [now left|right; apply in_or_app; auto]).
  intros a b c d Ha Hb Hc Hd. apply D; auto.
Qed.
(** a mark further right is legal when none of its distances to the other marks occurs already *)
Lemma golomb_snoc xs l : golomb xs -> rlen xs < l ->
  (golomb (xs ++ [l]) <-> forall i a b, In i (0 :: xs) -> In a (0 :: xs) -> In b (0 :: xs) -> a < b -> l - i <> b - a).
Proof.
  intros G L. assert (Le : forall x, In x (0 :: xs) -> x < l) by (intros x Hx; pose proof (golomb_le _ _ G Hx); lia).
  assert (Sp : forall x, In x (0 :: xs ++ [l]) <-> In x (0 :: xs) \/ x = l).
  { intros x. rewrite app_comm_cons, in_app_iff. cbn [In]. intuition. }
  split.
  - intros [_ D] i a b Hi Ha Hb Lt E. pose proof (Le b Hb). pose proof (Le i Hi). destruct (D i l a b) as [_ ?]; try (apply Sp; auto); auto; lia.
  - intros H. destruct G as [S D]. split.
    + rewrite app_comm_cons. apply inc_app. csplit; auto; [repeat constructor|]. intros x y Hx [<-|[]]. auto.
    + intros a b c d Ha Hb Hc Hd L1 L2 E. rewrite Sp in *.
      destruct Hb as [Hb| ->], Hd as [Hd| ->].
      * assert (In a (0 :: xs)) by (destruct Ha as [| ->]; auto; apply Le in Hb; lia).
        assert (In c (0 :: xs)) by (destruct Hc as [| ->]; auto; apply Le in Hd; lia). auto.
      * assert (In a (0 :: xs)) by (destruct Ha as [| ->]; auto; apply Le in Hb; lia).
        destruct Hc as [Hc| ->]; [|lia]. exfalso. apply (H c a b); auto; lia.
      * assert (In c (0 :: xs)) by (destruct Hc as [| ->]; auto; apply Le in Hd; lia).
        destruct Ha as [Ha| ->]; [|lia]. exfalso. apply (H a c d); auto; lia.
      * lia.
Qed.
(** the marks from one mark to another form a Golomb ruler *)
Lemma golomb_seg xs p a q r : golomb xs -> 0 :: xs = p ++ (a :: q) ++ r -> golomb (map (fun x => x - a) q) /\ rlen (map (fun x => x - a) q) = last q a - a.
Proof.
  intros [S D] E. rewrite E in S. apply inc_app in S as (_ & S & _). apply inc_app in S as (S & _ & _).
  assert (U : forall x, In x (a :: q) -> In x (0 :: xs)) by (intros x Hx; rewrite E; apply in_or_app; right; apply in_or_app; auto).
  assert (M : 0 :: map (fun x => x - a) q = map (fun x => x - a) (a :: q)) by (cbn; f_equal; lia).
  split; [split|].
  - rewrite M. now apply inc_map_sub.
  - rewrite M. intros x y z w Hx Hy Hz Hw. apply in_map_iff in Hx as (x' & <- & Hx). apply in_map_iff in Hy as (y' & <- & Hy).
    apply in_map_iff in Hz as (z' & <- & Hz). apply in_map_iff in Hw as (w' & <- & Hw). intros L1 L2 E2.
    destruct (D x' y' z' w'); auto; lia.
  - unfold rlen. clear. destruct q as [|b q] using rev_ind; [cbn; lia|]. rewrite map_app, !last_app. reflexivity.
Qed.
(** distinct positive numbers *)
Definition zsum (l : list Z) : Z := fold_right Z.add 0 l.
Lemma zsum_remove a l : In a l -> NoDup l -> zsum l = a + zsum (remove Z.eq_dec a l) /\ length l = S (length (remove Z.eq_dec a l)) /\ NoDup (remove Z.eq_dec a l).
Proof.
  intros Ha ND. apply in_split in Ha as (l1 & l2 & ->). rewrite remove_app. cbn [remove]. destruct (Z.eq_dec a a) as [_|]; [|congruence].
  apply NoDup_remove in ND as [ND Na]. rewrite !notin_remove by (intros H; apply Na, in_or_app; auto).
  csplit; auto; [|rewrite !app_length; cbn; lia]. unfold zsum. rewrite !fold_right_app. cbn [fold_right].
  assert (G : forall l b, fold_right Z.add b l = zsum l + b) by (induction l as [|x l IH]; intros b; cbn; [auto|rewrite IH; unfold zsum; lia]).
  rewrite G, (G l1 (fold_right Z.add 0 l2)). lia.
Qed.
Lemma sum_distinct m : forall l, NoDup l -> (forall x, In x l -> 1 <= x <= Z.of_nat m) ->
  Z.of_nat (length l) <= Z.of_nat m /\ Z.of_nat (length l) * (Z.of_nat (length l) + 1) <= 2 * zsum l.
Proof.
  induction m as [|m IH]; intros l ND H.
  - destruct l as [|x l]; [cbn; lia|]. specialize (H x (or_introl eq_refl)). lia.
  - destruct (in_dec Z.eq_dec (Z.of_nat (S m)) l) as [Hm|Hm].
    + destruct (zsum_remove _ _ Hm ND) as (E1 & E2 & ND'). destruct (IH _ ND') as [A B].
      { intros x Hx. apply in_remove in Hx as [Hx Ne]. specialize (H x Hx). lia. }
      rewrite E1, E2. set (k := length (remove Z.eq_dec (Z.of_nat (S m)) l)) in *. nia.
    + destruct (IH l ND) as [A B]; [|lia]. intros x Hx. specialize (H x Hx). assert (x <> Z.of_nat (S m)) by (intros ->; auto). lia.
Qed.
(** the distances between neighbouring marks *)
Fixpoint gaps (a : Z) (xs : list Z) : list Z := match xs with [] => [] | x :: r => (x - a) :: gaps x r end.
Lemma gaps_spec xs : forall a, length (gaps a xs) = length xs /\ zsum (gaps a xs) = last xs a - a /\
  (inc (a :: xs) -> forall g, In g (gaps a xs) -> exists x y, In x (a :: xs) /\ In y xs /\ x < y /\ g = y - x /\ (forall z, In z (a :: xs) -> z <= x \/ y <= z)).
Proof.
  induction xs as [|b xs IH]; intros a.
  - cbn. csplit; auto; lia.
  - destruct (IH b) as (L & S & G). cbn [gaps]. split; [cbn [length]; lia|]. split; [unfold zsum in *; cbn [fold_right]; rewrite last_cons; lia|].
    intros H g. apply StronglySorted_inv in H as [H F]. rewrite Forall_forall in F. intros [<-|Hg].
    + exists a, b. csplit; auto; try (now left); [apply F; now left|]. intros z [<-|Hz]; [lia|]. right.
      apply StronglySorted_inv in H as [_ F2]. rewrite Forall_forall in F2. destruct Hz as [<-|Hz]; [lia|]. specialize (F2 z Hz). lia.
    + destruct (G H g Hg) as (x & y & Hx & Hy & L1 & E & C). exists x, y. csplit; auto; try (now right). intros z [<-|Hz]; auto. left.
      specialize (F x Hx). lia.
Qed.
Lemma gaps_nodup xs : forall a, inc (a :: xs) ->
  (forall x y z w, In x (a :: xs) -> In y (a :: xs) -> In z (a :: xs) -> In w (a :: xs) -> x < y -> z < w -> y - x = w - z -> x = z /\ y = w) -> NoDup (gaps a xs).
Proof.
  induction xs as [|b xs IH]; intros a S D; cbn [gaps]; constructor.
  - intros Hg. apply StronglySorted_inv in S as [S F]. rewrite Forall_forall in F. destruct (gaps_spec xs b) as (_ & _ & G).
    destruct (G S _ Hg) as (x & y & Hx & Hy & L & E & _). assert (a < b) by (apply F; now left). pose proof (F x Hx).
    destruct (D a b x y); auto; try (now left); try (right; now left); try (now right); try (right; now right); try lia.
  - apply StronglySorted_inv in S as [S _]. apply IH; auto. intros x y z w Hx Hy Hz Hw. apply D; now right.
Qed.
Lemma golomb_tri xs : golomb xs -> let k := Z.of_nat (length xs) in k * (k + 1) <= 2 * rlen xs.
Proof.
  intros [S D] k. destruct (gaps_spec xs 0) as (L & Su & G). pose proof (gaps_nodup xs 0 S D) as ND.
  destruct (sum_distinct (Z.to_nat (rlen xs)) (gaps 0 xs) ND) as [_ H].
  - intros g Hg. destruct (G S g Hg) as (x & y & Hx & Hy & Lt & -> & _).
    pose proof (golomb_le xs x (conj S D) Hx). pose proof (golomb_le xs y (conj S D) (or_intror Hy)). lia.
  - unfold rlen, k in *. lia.
Qed.

(** the ruler seen from its other end *)
Definition mirror (xs : list Z) : list Z := tl (map (fun x => rlen xs - x) (rev (0 :: xs))).
Lemma mirror_marks xs : 0 :: mirror xs = map (fun x => rlen xs - x) (rev (0 :: xs)).
Proof.
  unfold mirror, rlen. destruct xs as [|x xs] using rev_ind; [reflexivity|]. rewrite app_comm_cons, rev_app_distr, last_app. cbn. f_equal. lia.
Qed.
Lemma in_mirror xs x : In x (0 :: mirror xs) <-> In (rlen xs - x) (0 :: xs).
Proof.
  rewrite mirror_marks, in_map_iff. split.
  - intros (y & <- & Hy). apply in_rev in Hy. now replace (rlen xs - (rlen xs - y)) with y by lia.
  - intros H. exists (rlen xs - x). split; [lia|]. now apply in_rev in H.
Qed.
Lemma mirror_len xs : length (mirror xs) = length xs.
Proof. assert (H := f_equal (@length Z) (mirror_marks xs)). rewrite map_length, rev_length in H. cbn [length] in H. lia. Qed.
Lemma mirror_last xs : rlen (mirror xs) = rlen xs.
Proof.
  unfold rlen at 1. rewrite <- (last_cons (mirror xs) 0 0), mirror_marks. cbn [rev]. rewrite map_app, last_app. cbn. lia.
Qed.
Lemma golomb_mirror xs : golomb xs -> golomb (mirror xs).
Proof.
  intros [S D]. split.
  - rewrite mirror_marks. now apply inc_mirror.
  - intros a b c d Ha Hb Hc Hd L1 L2 E. rewrite in_mirror in *. destruct (D (rlen xs - b) (rlen xs - a) (rlen xs - d) (rlen xs - c)); auto; lia.
Qed.
Lemma mirror_nth xs i : (i <= length xs)%nat -> nth i (0 :: mirror xs) 0 = rlen xs - nth (length xs - i) (0 :: xs) 0.
Proof.
  intros H. rewrite mirror_marks. rewrite (nth_indep _ 0 (rlen xs - 0)) by (rewrite map_length, rev_length; cbn; lia).
  rewrite (map_nth (fun x => rlen xs - x)), rev_nth by (cbn; lia). reflexivity.
Qed.
Lemma ruler_mirror n xs : ruler_of n xs -> ruler_of n (mirror xs).
Proof. intros [G L]. split; [now apply golomb_mirror|now rewrite mirror_len]. Qed.

(** ** the closures *)
(** a state of an exact path: the marks xs have been set *)
Definition rep (s : ruler) (xs : list Z) : Prop :=
  golomb xs /\ (forall v, imem (r_m s) v = true <-> In v (0 :: xs)) /\
  (forall v, imem (r_d s) v = true <-> exists x y, In x (0 :: xs) /\ In y (0 :: xs) /\ x < y /\ v = y - x) /\
  r_k s = Z.of_nat (length xs) + 1 /\ r_e s = rlen xs.
Lemma rep_init : rep (ru_init) [].
Proof.
  unfold rep, ru_init. cbn [r_m r_d r_k r_e]. csplit; auto using golomb_nil.
  - intros v. rewrite imem_one by lia. cbn. intuition.
  - intros v. rewrite imem_0. split; [discriminate|]. intros (x & y & [<-|[]] & [<-|[]] & H & _). lia.
Qed.
Lemma illegal_spec s l : ru_illegal s l = true <-> exists i, imem (r_m s) i = true /\ imem (r_d s) (l - i) = true.
Proof. unfold ru_illegal. rewrite existsb_exists. split; intros (i & A & B); exists i; [rewrite in_members in A|rewrite in_members]; auto. Qed.
Lemma rep_legal s xs l : rep s xs -> rlen xs < l -> (ru_illegal s l = false <-> golomb (xs ++ [l])).
Proof.
  intros (G & M & D & _ & _) H. rewrite golomb_snoc by auto. rewrite <- not_true_iff_false, illegal_spec. split.
  - intros N i x y Hi Hx Hy Lt E. apply N. exists i. split; [now apply M|]. apply D. exists x, y. auto.
  - intros N (i & Hi & Hd). apply M in Hi. apply D in Hd as (x & y & Hx & Hy & Lt & E). exact (N i x y Hi Hx Hy Lt E).
Qed.
Lemma rep_next s xs l : rep s xs -> golomb (xs ++ [l]) -> rep (ru_next s l) (xs ++ [l]).
Proof.
  intros (G & M & D & K & E) G2.
  assert (L0 : forall x, In x (0 :: xs) -> 0 <= x < l).
  { intros x Hx. destruct G2 as [S _]. rewrite app_comm_cons in S. apply inc_app in S as (_ & _ & S). specialize (S x l Hx (or_introl eq_refl)).
    pose proof (golomb_le _ _ G Hx). lia. }
  assert (Sp : forall x, In x (0 :: xs ++ [l]) <-> In x (0 :: xs) \/ x = l) by (intros x; rewrite app_comm_cons, in_app_iff; cbn [In]; intuition).
  pose proof (L0 0 (or_introl eq_refl)) as P0.
  unfold ru_next. split; auto. cbn [r_m r_d r_k r_e]. csplit.
  - intros v. rewrite imem_or, M, imem_one, Sp by lia. tauto.
  - intros v. rewrite imem_or, imem_refl, D by (intros x Hx; apply M, L0 in Hx; lia). split.
    + intros [(i & Hi & ->)|(x & y & Hx & Hy & Lt & ->)].
      * apply M in Hi. exists i, l. rewrite !Sp. pose proof (L0 i Hi). csplit; auto; lia.
      * exists x, y. rewrite !Sp. csplit; auto.
    + intros (x & y & Hx & Hy & Lt & ->). rewrite Sp in Hx, Hy. destruct Hy as [Hy| ->].
      * right. assert (In x (0 :: xs)) by (destruct Hx as [| ->]; auto; apply L0 in Hy; lia). exists x, y. auto.
      * left. destruct Hx as [Hx| ->]; [|lia]. exists x. split; auto. now apply M.
  - rewrite app_length. cbn [length]. lia.
  - unfold rlen. now rewrite last_app.
Qed.
Lemma rep_uniq a c xs ys : rep a xs -> rep c ys -> r_m a = r_m c -> a = c /\ xs = ys.
Proof.
  intros (G1 & M1 & D1 & K1 & E1) (G2 & M2 & D2 & K2 & E2) E.
  assert (0 :: xs = 0 :: ys) as [= <-].
  { apply inc_eq; [apply G1|apply G2|]. intros x. rewrite <- M1, <- M2, E. tauto. }
  split; auto. destruct a, c. cbn in *. subst. f_equal. apply imem_ext. intros v. rewrite D1, D2. tauto.
Qed.

Lemma live_target n s : r_k s < n -> s <> ru_target n.
Proof. intros H ->. cbn in H. lia. Qed.
Lemma lb_le n opt e0 k l : 0 <= l -> (ru_lb n opt e0 k <= l <-> e0 <= l /\ ru_lb n opt 0 k <= l).
Proof. intros H. unfold ru_lb. destruct (k <? n - 1); lia. Qed.
Section Closures.
Variables (n : Z) (opt : Z -> Z).
Hypothesis Hn : 2 <= n.
Variable ub : Z -> Z.
Variable eqb : ruler -> ruler -> bool.
Notation P := (gr_prob n opt ub eqb).
Notation lbk k := (ru_lb n opt 0 k).


Definition ok_label (k l : Z) : Prop := lbk k <= l <= ub k.
(** every label is within the limits for its position *)
Definition within (k : Z) (ls : list Z) : Prop := forall ys l ts, ls = ys ++ l :: ts -> ok_label (k + Z.of_nat (length ys)) l.
Lemma within_cons k l ls : within k (l :: ls) <-> ok_label k l /\ within (k + 1) ls.
Proof.
  split.
  - intros H. split; [specialize (H [] l ls eq_refl); cbn in H; now rewrite Z.add_0_r in H|].
    intros ys l' ts E. specialize (H (l :: ys) l' ts). cbn [app length] in H. rewrite E in H. specialize (H eq_refl).
    now replace (k + 1 + Z.of_nat (length ys)) with (k + Z.of_nat (S (length ys))) by lia.
  - intros [H1 H2] ys l' ts E. destruct ys as [|y ys]; injection E as -> E.
    + subst. cbn. now rewrite Z.add_0_r.
    + specialize (H2 ys l' ts E). cbn [length]. now replace (k + Z.of_nat (S (length ys))) with (k + 1 + Z.of_nat (length ys)) by lia.
Qed.
Lemma within_nil k : within k [].
Proof. intros [|y ys] l ts E; discriminate. Qed.

Lemma path_target_inv s ls v : path P s ls v (ru_target n) -> s <> ru_target n ->
  exists l r s' w, ls = l :: r /\ In l (p_labels P s) /\ p_stf P s l = Some s' /\ path P s' r w (ru_target n) /\ v = l - r_e s + w.
Proof.
  intros H N. inversion H; subst.
  - congruence.
  - exists l, ls0, s', v0. csplit; auto.
Qed.
Lemma path_at_target ls v : path P (ru_target n) ls v (ru_target n) <-> ls = [] /\ v = 0.
Proof.
  split; [|intros [-> ->]; constructor]. intros H. inversion H; subst; auto. exfalso. now apply H0.
Qed.

(** the solutions below a state that stands for the marks xs *)
Lemma gr_paths : forall j s xs ls v, rep s xs -> n - 1 - r_k s = Z.of_nat j ->
  (path P s ls v (ru_target n) <->
   golomb (xs ++ ls) /\ Z.of_nat (length xs) + Z.of_nat (length ls) = n - 1 /\ within (r_k s) ls /\ v = rlen (xs ++ ls) - rlen xs).
Proof.
  induction j as [|j IH]; intros s xs ls v R E; pose proof R as (G & M & D & K & Ee).
  - assert (Ks : r_k s = n - 1) by lia. split.
    + intros H. apply path_target_inv in H as (l & r & s' & w & -> & Hl & S & Hp & ->); [|apply live_target; lia].
      cbn [gr_prob p_labels] in Hl. unfold ru_lgf in Hl. apply in_closeInc in Hl as [H1 H2].
      assert (P1 : r_e s + 1 <= l) by (unfold ru_lb in H1; destruct (r_k s <? n - 1); lia). rewrite Ee in P1.
      assert (L0 : 0 <= rlen xs) by (apply (golomb_le xs 0 G); now left). apply lb_le in H1 as [_ H1]; [|lia].
      cbn [gr_prob p_stf] in S. unfold ru_stf in S. destruct (ru_illegal s l) eqn:IL; [discriminate|]. apply (rep_legal s xs) in IL; auto; [|lia].
      rewrite Ks, Z.eqb_refl in S. injection S as <-. apply path_at_target in Hp as [-> ->].
      csplit; auto; [cbn [length]; lia| |unfold rlen; rewrite last_app, Ee; cbn [last]; fold (rlen xs); lia].
      apply within_cons. split; [split; auto|apply within_nil].
    + intros (G2 & Len & W & ->). destruct ls as [|l [|l2 ls]]; cbn [length] in Len; try lia.
      apply within_cons in W as [[W1 W2] _]. unfold rlen. rewrite last_app. cbn [last]. fold (rlen xs).
      assert (Lt : rlen xs < l).
      { destruct G2 as [S _]. rewrite app_comm_cons in S. apply inc_app in S as (_ & _ & S). apply S; [|now left]. apply last_in. }
      assert (L0 : 0 <= rlen xs) by (apply (golomb_le xs 0 G); now left).
      replace (l - rlen xs) with (p_cost P s l + 0) by (cbn; unfold ru_scf; lia). eapply path_cons; [apply live_target; lia| | |constructor].
      * cbn [gr_prob p_labels]. unfold ru_lgf. apply in_closeInc. split; auto. apply lb_le; lia.
      * cbn [gr_prob p_stf]. unfold ru_stf. rewrite (proj2 (rep_legal s xs l R Lt)) by auto. now rewrite Ks, Z.eqb_refl.
  - assert (Ks : r_k s < n - 1) by lia. split.
    + intros H. apply path_target_inv in H as (l & r & s' & w & -> & Hl & S & Hp & ->); [|apply live_target; lia].
      cbn [gr_prob p_labels] in Hl. unfold ru_lgf in Hl. apply in_closeInc in Hl as [H1 H2].
      assert (P1 : r_e s + 1 <= l) by (unfold ru_lb in H1; destruct (r_k s <? n - 1); lia). rewrite Ee in P1.
      assert (L0 : 0 <= rlen xs) by (apply (golomb_le xs 0 G); now left). apply lb_le in H1 as [_ H1]; [|lia].
      cbn [gr_prob p_stf] in S. unfold ru_stf in S. destruct (ru_illegal s l) eqn:IL; [discriminate|]. apply (rep_legal s xs) in IL; auto; [|lia].
      destruct (Z.eqb_spec (r_k s) (n - 1)); [lia|]. injection S as <-.
      pose proof (rep_next _ _ _ R IL) as R2. apply (IH _ _ r w R2) in Hp; [|cbn; lia]. rewrite <- app_assoc in Hp. destruct Hp as (A & B & C & ->).
      cbn [app] in *. csplit; auto.
      * rewrite app_length in B. cbn [length] in *. lia.
      * apply within_cons. split; [split; auto|]. exact C.
      * unfold rlen. rewrite (last_app xs [l]). cbn [last]. rewrite Ee. unfold rlen. lia.
    + intros (G2 & Len & W & ->). destruct ls as [|l ls]; cbn [length] in Len; [lia|].
      apply within_cons in W as [[W1 W2] W].
      assert (G3 : golomb (xs ++ [l])) by (apply (golomb_pre _ ls); now rewrite <- app_assoc).
      assert (Lt : rlen xs < l).
      { destruct G3 as [S _]. rewrite app_comm_cons in S. apply inc_app in S as (_ & _ & S). apply S; [|now left]. apply last_in. }
      assert (L0 : 0 <= rlen xs) by (apply (golomb_le xs 0 G); now left).
      replace (rlen (xs ++ l :: ls) - rlen xs) with (p_cost P s l + (rlen (xs ++ l :: ls) - l)) by (cbn; unfold ru_scf; lia).
      eapply path_cons with (s' := ru_next s l); [apply live_target; lia| | |].
      * cbn [gr_prob p_labels]. unfold ru_lgf. apply in_closeInc. split; auto. apply lb_le; lia.
      * cbn [gr_prob p_stf]. unfold ru_stf. rewrite (proj2 (rep_legal s xs l R Lt)) by auto. destruct (Z.eqb_spec (r_k s) (n - 1)); [lia|auto].
      * pose proof (rep_next _ _ _ R G3) as R2. apply (IH _ _ ls _ R2); [cbn; lia|]. rewrite <- app_assoc. cbn [app]. csplit; auto.
        -- rewrite app_length. cbn [length]. lia.
        -- unfold rlen. rewrite (last_app xs [l]). cbn [last]. lia.
Qed.
Lemma gr_solutions ls v : path P ru_init ls v (ru_target n) <-> ruler_of n ls /\ within 1 ls /\ v = rlen ls.
Proof.
  rewrite (gr_paths (Z.to_nat (n - 2)) ru_init [] ls v rep_init) by (cbn; lia). cbn [app length r_k ru_init]. unfold ruler_of.
  replace (rlen ls - rlen []) with (rlen ls) by (cbn; lia). intuition lia.
Qed.
End Closures.
