(** The two lower bounds of the TSP examples: the sum of the cheapest arcs and the truncated minimum spanning tree never exceed a way home. *)
From Coq Require Import Sorted Relations.
From Verif Require Import Base HeapModel HeapProofs MSortModel MSortProofs UFModel UFSpec UFProofs DDModel DDSpec DDFrame DDRestricted DDMerge TspModel TspSpec TspProofs TourModel.

(** ** sums *)
Lemma zsum_app a b : zsum (a ++ b) = (zsum a + zsum b)%Z.
Proof. unfold zsum. induction a as [|x a IH]; cbn [app fold_right]; lia. Qed.
Lemma zsum_perm a b : Permutation a b -> zsum a = zsum b.
Proof. unfold zsum. induction 1; cbn [fold_right]; lia. Qed.
Lemma zlt_swo : SWO Z.ltb.
Proof. constructor; intros; lia. Qed.
(** the k smallest are not more than any other k *)
Lemma firstn_min : forall q L r, StronglySorted (fun x y => (y <? x)%Z = false) L -> Permutation L (q ++ r) -> (zsum (firstn (length q) L) <= zsum q)%Z.
Proof.
  intros q. remember (length q) as n eqn:E. revert q E. induction n as [|n IH]; intros q E L r SS P.
  - destruct q; [|discriminate]. cbn. lia.
  - destruct L as [|x L]; [apply Permutation_length in P; rewrite app_length in P; cbn in P; lia|].
    inversion SS as [|? ? S1 S2]; subst. cbn [firstn]. change (zsum (x :: firstn n L)) with (x + zsum (firstn n L))%Z.
    assert (Hx : In x (q ++ r)) by (eapply Permutation_in; [exact P|now left]). rewrite Forall_forall in S2.
    assert (Hle : forall y, In y (q ++ r) -> (x <= y)%Z).
    { intros y Hy. apply Permutation_sym in P. apply (Permutation_in _ P) in Hy as [->|Hy]; [lia|]. apply S2 in Hy. lia. }
    apply in_app_or in Hx as [Hx|Hx].
    + apply in_split in Hx as (a & b & ->). rewrite (zsum_perm (a ++ x :: b) (x :: a ++ b)) by (apply Permutation_sym, Permutation_middle).
      change (zsum (x :: a ++ b)) with (x + zsum (a ++ b))%Z. assert (H : (zsum (firstn n L) <= zsum (a ++ b))%Z); [|lia].
      apply (IH (a ++ b)) with (r := r); auto.
      * rewrite app_length in *. cbn in E. lia.
      * apply (Permutation_cons_inv (a := x)). rewrite P. rewrite <- app_assoc. cbn [app]. rewrite <- app_assoc. apply Permutation_sym, Permutation_middle.
    + apply in_split in Hx as (a & b & ->). destruct q as [|y q]; [discriminate|]. change (zsum (y :: q)) with (y + zsum q)%Z.
      assert (x <= y)%Z by (apply Hle; now left). assert (H1 : (zsum (firstn n L) <= zsum q)%Z); [|lia].
      apply (IH q) with (r := y :: a ++ b); auto.
      apply (Permutation_cons_inv (a := x)). rewrite P. cbn [app].
      transitivity (y :: x :: q ++ a ++ b); [constructor|].
      * rewrite !app_assoc. apply Permutation_sym, Permutation_middle.
      * rewrite perm_swap. constructor. apply Permutation_middle.
Qed.

(** ** good choices: before the i-th chosen weight at most i of the others are smaller *)
Fixpoint good (acc B : list Z) : Prop :=
  match acc with [] => True | w :: r => length (filter (fun b => b <? w)%Z B) <= length r /\ good r B end.
Lemma filter_le_len {A} (f : A -> bool) l : length (filter f l) <= length l.
Proof. induction l as [|x l IH]; cbn; auto. destruct (f x); cbn; lia. Qed.
Lemma exists_ge w B : length (filter (fun b => b <? w)%Z B) < length B -> exists a b c, B = a ++ b :: c /\ (w <= b)%Z.
Proof.
  induction B as [|x B IH]; cbn; [lia|]. destruct (Z.ltb_spec x w).
  - intros L. cbn in L. destruct IH as (a & b & c & -> & Hb); [lia|]. exists (x :: a), b, c. auto.
  - intros _. exists [], x, B. auto.
Qed.
Lemma good_remove acc a b c : good acc (a ++ b :: c) -> good acc (a ++ c).
Proof.
  induction acc as [|w r IH]; cbn [good]; auto. intros [H1 H2]. split; auto. rewrite filter_app, app_length in *. cbn [filter] in H1.
  destruct (b <? w)%Z; cbn [length] in H1; lia.
Qed.
Lemma good_sum : forall acc B, good acc B -> length acc = length B -> (zsum acc <= zsum B)%Z.
Proof.
  induction acc as [|w r IH]; intros B G E.
  - destruct B; [|discriminate]. lia.
  - destruct G as [G1 G2]. cbn in E. destruct (exists_ge w B) as (a & b & c & -> & Hb); [lia|].
    rewrite (zsum_perm (a ++ b :: c) (b :: a ++ c)) by (apply Permutation_sym, Permutation_middle).
    change (zsum (w :: r)) with (w + zsum r)%Z. change (zsum (b :: a ++ c)) with (b + zsum (a ++ c))%Z.
    assert (zsum r <= zsum (a ++ c))%Z; [|lia]. apply IH; [eapply good_remove; eauto|]. rewrite app_length in *. cbn in E. lia.
Qed.

(** ** labels of components *)
Definition relabel (f : nat -> nat) (p q : nat) : nat -> nat := fun v => if f v =? f q then f p else f v.
Lemma relabel_conn ms f p q : (forall x y, connected ms x y <-> f x = f y) ->
  forall x y, connected ((p, q) :: ms) x y <-> relabel f p q x = relabel f p q y.
Proof.
  intros H x y. assert (M : forall x y, f x = f y -> connected ((p, q) :: ms) x y).
  { intros a b E. apply H in E. eapply conn_mono; [|exact E]. intros. now right. }
  assert (PQ : connected ((p, q) :: ms) p q) by (apply rst_step; now left). split.
  - intros C. induction C as [a b [E|Hi]|a|a b _ IH|a b c _ IH1 _ IH2]; try congruence.
    + injection E as <- <-. unfold relabel. rewrite Nat.eqb_refl. destruct (f p =? f q); auto.
    + assert (f a = f b) by (apply H, rst_step; auto). unfold relabel. now rewrite H0.
  - unfold relabel. destruct (Nat.eqb_spec (f x) (f q)) as [E1|N1], (Nat.eqb_spec (f y) (f q)) as [E2|N2]; intros E.
    + apply M. congruence.
    + apply conn_trans with q; [now apply M|]. apply conn_trans with p; [now apply conn_sym|now apply M].
    + apply conn_trans with p; [now apply M|]. apply conn_trans with q; [exact PQ|now apply M].
    + now apply M.
Qed.
(** number of different labels *)
Definition cls (g : nat -> nat) (t : list nat) : nat := length (nodup Nat.eq_dec (map g t)).
Lemma cls_relabel f vm t p q : In p (map vm t) -> In q (map vm t) -> f p <> f q ->
  cls (fun v => f (vm v)) t = S (cls (fun v => relabel f p q (vm v)) t).
Proof.
  intros Hp Hq N. unfold cls. apply in_map_iff in Hp as (x & <- & Hx), Hq as (y & <- & Hy).
  change (S (length ?l)) with (length (f (vm y) :: l)). apply Permutation_length. apply NoDup_Permutation.
  - apply NoDup_nodup.
  - constructor; [|apply NoDup_nodup]. rewrite nodup_In, in_map_iff. intros (z & E & Hz). unfold relabel in E.
    destruct (Nat.eqb_spec (f (vm z)) (f (vm y))); congruence.
  - intros c. cbn [In]. rewrite !nodup_In, !in_map_iff. split.
    + intros (z & <- & Hz). destruct (Nat.eq_dec (f (vm y)) (f (vm z))) as [E|E]; [now left|right]. exists z. split; auto.
      unfold relabel. destruct (Nat.eqb_spec (f (vm z)) (f (vm y))); congruence.
    + intros [<-|(z & <- & Hz)]; [eauto|]. unfold relabel. destruct (Nat.eqb_spec (f (vm z)) (f (vm y))); eauto.
Qed.
Lemma cls_one g t : (forall x y, In x t -> In y t -> g x = g y) -> cls g t <= 1.
Proof.
  intros H. unfold cls.
  destruct t as [|x t]; [cbn; lia|]. change 1 with (length [g x]). apply NoDup_incl_length; [apply NoDup_nodup|].
  intros c. rewrite nodup_In, in_map_iff. intros (z & <- & Hz). left. apply H; auto. now left.
Qed.

(** ** the arcs of a walk *)
Fixpoint wts (d : nat -> nat -> Z) (p : list nat) : list Z :=
  match p with a :: (b :: _) as r => d a b :: wts d r | _ => [] end.
Lemma wts_walk d a l : zsum (wts d (a :: l)) = walk d a l.
Proof. revert a. induction l as [|b l IH]; intros a; auto. change (d a b + zsum (wts d (b :: l)) = d a b + walk d b l)%Z. now rewrite IH. Qed.
Lemma wts_length d a l : length (wts d (a :: l)) = length l.
Proof. revert a. induction l as [|b l IH]; intros a; auto. cbn [length]. rewrite <- (IH b). reflexivity. Qed.
(** a simple path whose arcs lighter than w join equal labels *)
Lemma light_arcs d (g : nat -> nat) w : forall p, (forall a b, In a p -> In b p -> a <> b -> (d a b < w)%Z -> g a = g b) -> NoDup p ->
  exists K, length K + length (filter (fun b => b <? w)%Z (wts d p)) = length p /\ incl K p /\ forall x, In x p -> In (g x) (map g K).
Proof.
  induction p as [|a p IH]; intros H ND; [exists []; csplit; auto; intros x []|].
  inversion ND as [|? ? N1 N2]; subst. destruct IH as (K & K1 & K2 & K3); auto. { intros; apply H; auto; now right. }
  destruct p as [|b p]; [exists [a]; csplit; auto; [intros x Hx; auto|intros x [->|[]]; now left]|].
  change (wts d (a :: b :: p)) with (d a b :: wts d (b :: p)). cbn [filter]. destruct (Z.ltb_spec (d a b) w) as [L|L].
  - exists K. csplit.
    + cbn [length] in *. lia.
    + intros x Hx. right. now apply K2.
    + intros x [<-|Hx]; [|now apply K3]. rewrite (H a b); [apply K3; now left|now left|right; now left| |auto]. intros ->. apply N1. now left.
  - exists (a :: K). csplit.
    + cbn [length] in *. lia.
    + intros x [<-|Hx]; [now left|right; now apply K2].
    + intros x [<-|Hx]; [now left|right; now apply K3].
Qed.
Lemma light_count d (g : nat -> nat) w (t p : list nat) : incl p t -> NoDup p -> NoDup t ->
  (forall a b, In a t -> In b t -> a <> b -> (d a b < w)%Z -> g a = g b) ->
  length (filter (fun b => b <? w)%Z (wts d p)) + cls g t <= length t.
Proof.
  intros I1 N1 N2 H. destruct (light_arcs d g w p) as (K & K1 & K2 & K3); auto.
  pose (rest := filter (fun x => if in_dec Nat.eq_dec x p then false else true) t).
  assert (Pm : Permutation t (p ++ rest)).
  { apply NoDup_Permutation; auto.
    - apply NoDup_app_join; auto; [now apply NoDup_filter|]. intros x Hx. unfold rest. rewrite filter_In. destruct (in_dec Nat.eq_dec x p); [intros [_ [=]]|contradiction].
    - intros x. rewrite in_app_iff. unfold rest. rewrite filter_In. destruct (in_dec Nat.eq_dec x p) as [Hx|Hx]; [specialize (I1 x Hx); tauto|tauto]. }
  apply Permutation_length in Pm. rewrite app_length in Pm.
  assert (cls g t <= length (map g (K ++ rest))).
  { unfold cls. apply NoDup_incl_length; [apply NoDup_nodup|]. intros c. rewrite nodup_In, in_map_iff. intros (x & <- & Hx). rewrite map_app, in_app_iff.
    destruct (in_dec Nat.eq_dec x p) as [Hp|Hp]; [left; now apply K3|right]. apply in_map. unfold rest. apply filter_In. split; auto.
    destruct (in_dec Nat.eq_dec x p); [contradiction|auto]. }
  rewrite map_length, app_length in H0. lia.
Qed.

(** ** the loop of the spanning tree bound *)
Lemma ge_swo : SWO ge_lt.
Proof. unfold ge_lt. constructor; intros; lia. Qed.
Lemma same_ok u ms a b : uok u ms -> a < u_n u -> b < u_n u ->
  exists u' r, u_same u a b = Ok (u', r) /\ uok u' ms /\ u_n u' = u_n u /\ (r = true <-> connected ms a b).
Proof.
  intros H Ha Hb. unfold u_same. destruct (up_total u ms a H Ha) as (ra & ka & Ua & _). destruct (up_total u ms b H Hb) as (rb & kb & Ub & _).
  destruct (setFor_ok _ u ms a ra ka H Ha Ua (hops_lt _ _ _ _ _ H Ha Ua)) as (u1 & E1 & H1 & N1 & _ & _ & P1). rewrite E1. cbn [bind].
  destruct (P1 _ _ _ Ub) as (kb' & _ & Ub'). assert (Hb' : b < u_n u1) by lia.
  destruct (setFor_ok _ u1 ms b rb kb' H1 Hb' Ub' (hops_lt _ _ _ _ _ H1 Hb' Ub')) as (u2 & E2 & H2 & N2 & _). rewrite E2. cbn [bind].
  exists u2, (ra =? rb). csplit; auto; [lia|]. rewrite Nat.eqb_eq. exact (k_conn u ms H a b ra rb ka kb Ha Hb Ua Ub).
Qed.
Lemma makeSets_ok k : uok (makeSets k) [] /\ u_n (makeSets k) = k.
Proof.
  unfold makeSets. induction k as [|k [IH1 IH2]]; [split; [apply UFProofs.new_ok|auto]|]. cbn [Nat.iter]. split.
  - apply makeSet_ok; auto. exact (uok_none _ _ IH1).
  - cbn. f_equal. exact IH2.
Qed.
Lemma conn_nil x y : connected [] x y <-> x = y.
Proof. split; [|intros ->; apply conn_refl]. intros C. induction C as [a b []| | |]; congruence. Qed.
Lemma index_lt t v : In v t -> index t v < length t.
Proof. induction t as [|x t IH]; intros H; [destruct H|]. cbn [index length]. destruct (Nat.eqb_spec x v); [lia|]. destruct H as [->|H]; [congruence|]. apply IH in H. lia. Qed.
Lemma index_nth t v : In v t -> nth (index t v) t 0 = v.
Proof. induction t as [|x t IH]; intros H; [destruct H|]. cbn [index]. destruct (Nat.eqb_spec x v); auto. destruct H as [->|H]; [congruence|]. now apply IH. Qed.
Lemma index_inj t v w : In v t -> In w t -> index t v = index t w -> v = w.
Proof. intros A B E. rewrite <- (index_nth t v), <- (index_nth t w) by auto. now rewrite E. Qed.
Lemma cls_id t : NoDup t -> cls (fun v => index t v) t = length t.
Proof.
  intros N. unfold cls. rewrite nodup_fixed_point, map_length; auto. assert (G : forall l, NoDup l -> incl l t -> NoDup (map (fun v => index t v) l)).
  { induction l as [|x l IH]; intros N1 I1; cbn; constructor.
    - rewrite in_map_iff. intros (y & E & Hy). apply index_inj in E; [|apply I1; now right|apply I1; now left]. inversion N1. congruence.
    - inversion N1; subst. apply IH; auto. intros y Hy. apply I1. now right. }
  apply G; auto. intros x; auto.
Qed.
Lemma cls_pos g t : t <> [] -> 1 <= cls g t.
Proof.
  destruct t as [|x t]; [congruence|]. intros _. unfold cls. assert (In (g x) (nodup Nat.eq_dec (map g (x :: t)))) by (apply nodup_In; now left).
  destruct (nodup Nat.eq_dec (map g (x :: t))); [destruct H|cbn; lia].
Qed.

Section Kruskal.
Variables (d : nat -> nat -> Z) (t : list nat).
Hypothesis Nt : NoDup t.
Hypothesis Small : (Z.of_nat (length t) <= 2147483647)%Z.
Notation vm := (index t).
Notation vals h := (map snd (heap_elems h)).
Record kinv (pq : heap ge) (u : uf) (ms : list (nat * nat)) (f : nat -> nat) (acc : list Z) : Prop := {
  ki_heap : heap_ok ge_lt pq;
  ki_arc : forall e, In e (vals pq) -> In (g_a e) t /\ In (g_b e) t /\ g_a e <> g_b e /\ g_w e = d (g_a e) (g_b e);
  ki_uf : uok u ms;
  ki_n : u_n u = length t;
  ki_f : forall x y, connected ms x y <-> f x = f y;
  ki_done : forall a b, In a t -> In b t -> a <> b -> In (mkGE a b (d a b)) (vals pq) \/ f (vm a) = f (vm b);
  ki_cls : cls (fun v => f (vm v)) t + length acc = length t;
  ki_good : forall p, incl p t -> NoDup p -> good acc (wts d p) }.

Lemma kloop guard : forall fuel ts pq u ms f acc, kinv pq u ms f acc -> length (heap_elems pq) < fuel -> length acc <= ts ->
  (exists acc', mst_loop guard fuel vm ts pq u (length acc) (zsum acc) = Ok (zsum acc') /\ length acc' = ts /\ (t <> [] -> ts < length t) /\
     forall p, incl p t -> NoDup p -> good acc' (wts d p)) \/
  (length t <= ts /\ if guard then exists v, mst_loop guard fuel vm ts pq u (length acc) (zsum acc) = Ok v
                     else mst_loop guard fuel vm ts pq u (length acc) (zsum acc) = Err UB).
Proof.
  induction fuel as [|fuel IH]; intros ts pq u ms f acc K F L; [lia|]. cbn [mst_loop]. destruct (Nat.eqb_spec (length acc) ts) as [E|N].
  { left. exists acc. csplit; auto; [|exact (ki_good _ _ _ _ _ K)]. intros Ht. pose proof (cls_pos (fun v => f (vm v)) t Ht). pose proof (ki_cls _ _ _ _ _ K). lia. }
  pose proof (ki_heap _ _ _ _ _ K) as HK. pose proof (proj1 HK) as WF. pose proof (empty_elems pq WF) as EE. unfold elems in EE.
  destruct (heap_empty pq) eqn:He.
  { right. destruct EE as [EE _]. specialize (EE eq_refl). split.
    - assert (cls (fun v => f (vm v)) t <= 1).
      { apply cls_one. intros x y Hx Hy. destruct (Nat.eq_dec x y) as [->|Nx]; auto. destruct (ki_done _ _ _ _ _ K x y Hx Hy Nx) as [H|H]; auto.
        rewrite EE in H. destruct H. }
      pose proof (ki_cls _ _ _ _ _ K). lia.
    - destruct guard; cbn [andb]; [eauto|]. unfold heap_extractMax. now rewrite He. }
  rewrite andb_false_r. destruct (extractMax_some ge_lt pq WF) as (e & pq' & EX). { unfold elems. intros Q. apply EE in Q. congruence. }
  rewrite EX. destruct (extractMax_ok ge_lt ge_swo pq e pq' HK EX) as (HK' & (l & PM) & MIN). unfold elems in PM, MIN.
  assert (PV : Permutation (vals pq) (e :: vals pq')) by (apply (Permutation_map snd) in PM; exact PM).
  destruct (ki_arc _ _ _ _ _ K e) as (A1 & A2 & A3 & A4). { eapply Permutation_in; [apply Permutation_sym, PV|now left]. }
  pose proof (index_lt t _ A1) as I1. pose proof (index_lt t _ A2) as I2. rewrite <- (ki_n _ _ _ _ _ K) in I1, I2.
  destruct (same_ok u ms (vm (g_a e)) (vm (g_b e)) (ki_uf _ _ _ _ _ K) I1 I2) as (u1 & r & ES & U1 & N1 & SC). rewrite ES. cbn [bind].
  assert (LE : length (heap_elems pq') < fuel) by (apply Permutation_length in PM; cbn [length] in PM; lia).
  assert (SubV : forall x, In x (vals pq') -> In x (vals pq)) by (intros x Hx; eapply Permutation_in; [apply Permutation_sym, PV|now right]).
  assert (Keep : forall x, In x (vals pq) -> x = e \/ In x (vals pq')) by (intros x Hx; apply (Permutation_in _ PV) in Hx as [<-|Hx]; auto).
  destruct r.
  - apply IH with (ms := ms) (f := f); auto. destruct K as [Q1 Q2 Q3 Q4 Q5 Q6 Q7 Q8]. constructor; auto.
    + congruence.
    + intros a b Ha Hb Nab. destruct (Q6 a b Ha Hb Nab) as [H|H]; auto. apply Keep in H as [H|H]; auto.
      right. apply Q5. subst e. cbn in SC. tauto.
  - destruct (merge_ok u1 ms (vm (g_a e)) (vm (g_b e)) U1) as (u2 & r2 & k2 & EM & U2 & N2 & _); try (rewrite N1; auto); [rewrite (ki_n _ _ _ _ _ K); auto|].
    rewrite N1 in EM. rewrite EM. cbn [bind]. replace (zsum acc + g_w e)%Z with (zsum (g_w e :: acc)) by (unfold zsum; cbn; lia).
    change (S (length acc)) with (length (g_w e :: acc)). set (p := vm (g_a e)) in *. set (q := vm (g_b e)) in *.
    assert (Nf : f p <> f q) by (rewrite <- (ki_f _ _ _ _ _ K); intros Q; apply SC in Q; discriminate).
    assert (Done : forall a b, f a = f b -> relabel f p q a = relabel f p q b) by (intros a b Q; unfold relabel; now rewrite Q).
    apply IH with (ms := (p, q) :: ms) (f := relabel f p q); auto; [|cbn [length]; lia]. constructor; auto.
    + intros x Hx. apply (ki_arc _ _ _ _ _ K). auto.
    + rewrite N2, N1. exact (ki_n _ _ _ _ _ K).
    + apply relabel_conn. exact (ki_f _ _ _ _ _ K).
    + intros a b Ha Hb Nab. destruct (ki_done _ _ _ _ _ K a b Ha Hb Nab) as [H|H]; [|right; auto]. apply Keep in H as [H|H]; auto.
      right. unfold p, q. rewrite <- H. cbn [g_a g_b]. unfold relabel. rewrite Nat.eqb_refl. destruct (f (vm a) =? f (vm b)); auto.
    + pose proof (ki_cls _ _ _ _ _ K) as Q. rewrite (cls_relabel f vm t p q) in Q; [cbn [length]; lia| | |auto]; apply in_map; auto.
    + intros c Ic Nc. cbn [good]. split; [|exact (ki_good _ _ _ _ _ K c Ic Nc)].
      pose proof (light_count d (fun v => f (vm v)) (g_w e) t c Ic Nc Nt) as Q. pose proof (ki_cls _ _ _ _ _ K). assert (Hq : forall a b, In a t -> In b t -> a <> b -> (d a b < g_w e)%Z -> f (vm a) = f (vm b)).
      { intros a b Ha Hb Nab Lw. destruct (ki_done _ _ _ _ _ K a b Ha Hb Nab) as [H1|H1]; auto. exfalso. apply in_map_iff in H1 as ([l1 w1] & E1 & H1). cbn in E1. subst w1.
        apply MIN in H1. unfold ge_lt in H1. cbn in H1. lia. }
      specialize (Q Hq). cbn beta in Q. lia.
Qed.

Lemma fold_insert es : forall h, heap_wf h -> heap_wf (fold_left (fun h e => fst (heap_insert (mkGE 0 0 0) h e)) es h) /\
  vals (fold_left (fun h e => fst (heap_insert (mkGE 0 0 0) h e)) es h) = vals h ++ es.
Proof.
  induction es as [|e es IH]; intros h W; cbn [fold_left]; [now rewrite app_nil_r|]. destruct (heap_insert (mkGE 0 0 0) h e) as [h1 l] eqn:E. cbn [fst].
  destruct (insert_wf _ h e h1 l W E) as (W1 & _ & E1 & _). unfold elems in E1. destruct (IH h1 W1) as [W2 E2]. split; auto.
  rewrite E2, E1, map_app, <- app_assoc. reflexivity.
Qed.
Lemma in_arcs e : In e (arcs d t) <-> In (g_a e) t /\ In (g_b e) t /\ g_a e <> g_b e /\ g_w e = d (g_a e) (g_b e).
Proof.
  unfold arcs. rewrite in_flat_map. split.
  - intros (a & Ha & H). apply in_flat_map in H as (b & Hb & H). destruct (Nat.eqb_spec a b); [destruct H|]. destruct H as [<-|[]]. cbn. auto.
  - intros (A & B & C & D). exists (g_a e). split; auto. apply in_flat_map. exists (g_b e). split; auto. destruct (Nat.eqb_spec (g_a e) (g_b e)); [contradiction|].
    left. destruct e; cbn in *; congruence.
Qed.
Lemma kruskal guard ts : t <> [] ->
  let pq := fold_left (fun h e => fst (heap_insert (mkGE 0 0 0) h e)) (arcs d t) (heap_new (mkGE 0 0 0) (length t * length t)) in
  let r := mst_loop guard (S (length (arcs d t))) vm ts (heap_buildHeap ge_lt pq) (makeSets (length t)) 0 0 in
  (exists acc, r = Ok (zsum acc) /\ length acc = ts /\ ts < length t /\ forall p, incl p t -> NoDup p -> good acc (wts d p)) \/
  (length t <= ts /\ if guard then exists v, r = Ok v else r = Err UB).
Proof.
  intros Ne pq r. assert (1 <= length t * length t) by (destruct t; [congruence|cbn; lia]).
  destruct (HeapProofs.new_ok ge_lt (mkGE 0 0 0) (length t * length t)) as [[W0 _] E0]; auto. unfold elems in E0.
  destruct (fold_insert (arcs d t) _ W0) as [W1 E1]. fold pq in W1, E1. rewrite E0 in E1. cbn [map app] in E1.
  destruct (buildHeap_ok ge_lt ge_swo pq W1) as [HK SM].
  assert (PV : Permutation (vals (heap_buildHeap ge_lt pq)) (arcs d t)).
  { rewrite <- E1. unfold heap_elems. rewrite !map_map. cbn [snd]. rewrite (map_ext _ (fun x => hval pq x)) by (intros; apply (sm_val _ _ SM)). apply Permutation_map, (sm_perm _ _ SM). }
  assert (LE : length (heap_elems (heap_buildHeap ge_lt pq)) = length (arcs d t)) by (apply Permutation_length in PV; now rewrite map_length in PV).
  destruct (makeSets_ok (length t)) as [U0 N0].
  destruct (kloop guard (S (length (arcs d t))) ts (heap_buildHeap ge_lt pq) (makeSets (length t)) [] (fun x => x) []) as [(acc & A1 & A2 & A3 & A4)|R].
  - constructor; auto.
    + intros e He. apply in_arcs. eapply Permutation_in; eauto.
    + apply conn_nil.
    + intros a b Ha Hb Nab. left. eapply Permutation_in; [apply Permutation_sym, PV|]. apply in_arcs. cbn. auto.
    + rewrite cls_id; auto.
    + intros; exact Logic.I.
  - lia.
  - cbn. lia.
  - left. exists acc. csplit; auto.
  - right. exact R.
Qed.
End Kruskal.

(** ** the bounds of a state *)
(** [A]: visited by every partial tour the state stands for; [e]: the last city; [h]: the number of arcs so far *)
Record here (nv : nat) (A : N) (e h : nat) : Prop := {
  hr_A : forall c, bmem A c = true -> c < nv;
  hr_0 : bmem A 0 = true;
  hr_e : bmem A e = true;
  hr_h : h <= nv - 1;
  hr_eh : e = 0 <-> h = 0;
  hr_sz : length (blist nv A) <= h + 1 }.
(** a way home: the remaining cities, none of A *)
Record home (nv : nat) (A : N) (h : nat) (post : list nat) : Prop := {
  hm_nd : NoDup post; hm_lt : forall c, In c post -> c < nv; hm_A : forall c, In c post -> bmem A c = false; hm_len : length post = nv - 1 - h }.

Section St.
Variables (nv : nat) (d : nat -> nat -> Z).
Hypothesis Hnv : 1 <= nv.

Lemma in_tset A e c : In c (blist nv (tset nv A e)) <-> c < nv /\ (bmem A c = false \/ c = 0 \/ c = e).
Proof.
  rewrite in_blist. unfold tset. rewrite !bmem_add, bmem_diff, bmem_full. destruct (Nat.ltb_spec c nv); [|lia]. cbn [andb].
  destruct (Nat.eqb_spec e c), (Nat.eqb_spec 0 c), (bmem A c); cbn; split; intros [? ?]; split; auto; try (intuition congruence).
Qed.
Lemma nodup_blist s : NoDup (blist nv s).
Proof. apply NoDup_filter, seq_NoDup. Qed.
Notation L A e := (filter (fun i => negb (i =? 0)) (blist nv (tset nv A e))).
Lemma in_L A e c : In c (L A e) <-> c < nv /\ c <> 0 /\ (bmem A c = false \/ c = e).
Proof. rewrite filter_In, in_tset, negb_true_iff, Nat.eqb_neq. intuition. Qed.
Lemma L_len A e h : here nv A e h -> 0 < h -> nv - h <= length (L A e).
Proof.
  intros H Hh. assert (In e (L A e)) as He. { apply in_L. destruct H as [H1 H2 H3 H4 H5 H6]. csplit; auto. lia. }
  pose proof (remove_length_lt Nat.eq_dec _ _ He) as R.
  assert (nv <= length (remove Nat.eq_dec e (L A e) ++ blist nv A)).
  { rewrite <- (seq_length nv 0) at 1. apply NoDup_incl_length; [apply seq_NoDup|]. intros c Hc. apply in_seq in Hc. rewrite in_app_iff, in_blist.
    destruct (bmem A c) eqn:B; [right; split; auto; lia|left]. apply in_in_remove.
    - intros ->. rewrite (hr_e _ _ _ _ H) in B. discriminate.
    - apply in_L. csplit; auto; [lia|]. intros ->. rewrite (hr_0 _ _ _ _ H) in B. discriminate. }
  rewrite app_length in H0. pose proof (hr_sz _ _ _ _ H). lia.
Qed.
Lemma L_root A e : length (L A e) <= nv - 1.
Proof.
  rewrite <- (seq_length (nv - 1) 1). apply NoDup_incl_length; [apply NoDup_filter, nodup_blist|]. intros c Hc. apply in_L in Hc. apply in_seq. lia.
Qed.
Lemma t_len A e h : here nv A e h -> 0 < h -> nv - h < length (blist nv (tset nv A e)).
Proof.
  intros H Hh. pose proof (L_len A e h H Hh). assert (length (0 :: L A e) <= length (blist nv (tset nv A e))); [|cbn in *; lia].
  apply NoDup_incl_length.
  - constructor; [|apply NoDup_filter, nodup_blist]. rewrite in_L. tauto.
  - intros c [<-|Hc]; [apply in_tset; split; auto|]. apply filter_In in Hc. tauto.
Qed.
Lemma t_max A e : length (blist nv (tset nv A e)) <= nv.
Proof.
  assert (H : length (blist nv (tset nv A e)) <= length (seq 0 nv)); [|now rewrite seq_length in H].
  apply NoDup_incl_length; [apply nodup_blist|]. intros c Hc. apply in_tset in Hc. apply in_seq. lia.
Qed.

Definition chk (i : nat) (m : Z) (j : nat) : Z := if i =? j then m else if (m <? d i j)%Z then m else d i j.
Lemma cheapest_aux i j l : forall m, (fold_left (chk i) l m <= m)%Z /\
  (In j l -> i <> j -> (fold_left (chk i) l m <= d i j)%Z).
Proof.
  induction l as [|x l IH]; intros m; cbn [fold_left]; [split; [lia|intros []]|].
  destruct (IH (chk i m x)) as [I1 I2]. assert (C : (chk i m x <= m)%Z) by (unfold chk; destruct (i =? x); [lia|]; destruct (Z.ltb_spec m (d i x)); lia). split; [lia|].
  intros [->|Hj] N; [|now apply I2]. assert (chk i m j <= d i j)%Z; [|lia]. unfold chk. destruct (Nat.eqb_spec i j); [contradiction|]. destruct (Z.ltb_spec m (d i j)); lia.
Qed.
Lemma cheapest_le inf t i j : In j (blist nv t) -> i <> j -> (cheapest nv d inf t i <= d i j)%Z.
Proof. intros. exact (proj2 (cheapest_aux i j (blist nv t) inf) H H0). Qed.
Lemma cheapest_walk inf t : forall post e, NoDup (e :: post ++ [0]) -> incl (post ++ [0]) (blist nv t) ->
  (zsum (map (cheapest nv d inf t) (e :: post)) <= walk d e (post ++ [0%nat]))%Z.
Proof.
  induction post as [|c post IH]; intros e N I1.
  - cbn [app map walk]. unfold zsum. cbn [fold_right]. inversion N as [|? ? N1 _]; subst. assert (cheapest nv d inf t e <= d e 0)%Z; [|lia].
    apply cheapest_le; [apply I1; now left|]. intros ->. apply N1. now left.
  - inversion N as [|? ? N1 N2]; subst. change (map (cheapest nv d inf t) (e :: c :: post)) with (cheapest nv d inf t e :: map (cheapest nv d inf t) (c :: post)).
    change (zsum (cheapest nv d inf t e :: ?l)) with (cheapest nv d inf t e + zsum l)%Z. cbn [app walk].
    assert (cheapest nv d inf t e <= d e c)%Z. { apply cheapest_le; [apply I1; now left|]. intros ->. apply N1. now left. }
    specialize (IH c N2). assert (incl (post ++ [0]) (blist nv t)) as I2 by (intros x Hx; apply I1; now right). specialize (IH I2). lia.
Qed.
Lemma home_path A e h post : here nv A e h -> 0 < h -> home nv A h post ->
  NoDup (e :: post ++ [0]) /\ incl (e :: post ++ [0]) (blist nv (tset nv A e)) /\ length (post ++ [0]) = nv - h.
Proof.
  intros [H1 H2 H3 H4 H5 H6] Hh [P1 P2 P3 P4]. csplit.
  - constructor.
    + rewrite in_app_iff. cbn. intros [Q|[Q|[]]]; [apply P3 in Q; congruence|]. lia.
    + apply NoDup_app_join; auto; [repeat constructor; auto|]. intros x Hx [<-|[]]. apply P3 in Hx. congruence.
  - intros c. cbn [In]. rewrite in_app_iff. cbn [In]. intros [<-|[Q|[<-|[]]]]; apply in_tset.
    + split; auto.
    + split; auto.
    + split; auto.
  - rewrite app_length, P4. cbn. lia.
Qed.

Lemma greedy_root inf A e : greedy nv d inf A e 0 = Err UB.
Proof.
  unfold greedy. destruct (msort_swo Z.ltb 0%Z (map (cheapest nv d inf (tset nv A e)) (L A e)) zlt_swo) as [_ PM].
  apply Permutation_length in PM. rewrite map_length in PM. rewrite PM. pose proof (L_root A e). destruct (Nat.leb_spec (nv - 0) (length (L A e))); [lia|auto].
Qed.
Lemma greedy_home inf A e : greedy nv d inf A e nv = Ok 0%Z.
Proof. unfold greedy. now rewrite Nat.sub_diag. Qed.
Lemma greedy_ok inf A e h : here nv A e h -> 0 < h ->
  exists v, greedy nv d inf A e h = Ok v /\ forall post, home nv A h post -> (v <= walk d e (post ++ [0%nat]))%Z.
Proof.
  intros H Hh. unfold greedy. destruct (msort_swo Z.ltb 0%Z (map (cheapest nv d inf (tset nv A e)) (L A e)) zlt_swo) as [SS PM].
  set (edge := msort_list Z.ltb 0%Z _) in *. pose proof (Permutation_length PM) as PL. rewrite map_length in PL. rewrite PL.
  pose proof (L_len A e h H Hh). destruct (Nat.leb_spec (nv - h) (length (L A e))); [|lia]. eexists. split; [reflexivity|].
  intros post HM. destruct (home_path A e h post H Hh HM) as (N & IC & LN).
  assert (IL : incl (e :: post) (L A e)).
  { intros c Hc. apply filter_In. assert (Hc' : In c (e :: post ++ [0])) by (destruct Hc as [->|Hc]; [now left|right; apply in_or_app; now left]).
    split; [now apply IC|]. rewrite negb_true_iff, Nat.eqb_neq. intros ->.
    destruct Hc as [->|Hc]; [destruct H as [_ _ _ _ Q _]; lia|]. apply (hm_A _ _ _ _ HM) in Hc. rewrite (hr_0 _ _ _ _ H) in Hc. discriminate. }
  assert (N' : NoDup (e :: post)).
  { rewrite app_comm_cons in N. apply NoDup_remove_1 in N. now rewrite app_nil_r in N. }
  pose (rest := filter (fun x => if in_dec Nat.eq_dec x (e :: post) then false else true) (L A e)).
  assert (Pm : Permutation (L A e) ((e :: post) ++ rest)).
  { apply NoDup_Permutation.
    - apply NoDup_filter, nodup_blist.
    - apply NoDup_app_join; auto; [apply NoDup_filter, NoDup_filter, nodup_blist|]. intros x Hx. unfold rest. rewrite filter_In.
      destruct (in_dec Nat.eq_dec x (e :: post)); [intros [_ [=]]|contradiction].
    - intros x. rewrite in_app_iff. unfold rest. rewrite (filter_In _ x (L A e)). destruct (in_dec Nat.eq_dec x (e :: post)) as [Hx|Hx]; [specialize (IL x Hx); tauto|tauto]. }
  apply (Permutation_map (cheapest nv d inf (tset nv A e))) in Pm. rewrite map_app in Pm.
  pose proof (firstn_min _ _ _ SS (Permutation_trans PM Pm)) as Q. rewrite map_length in Q.
  replace (length (e :: post)) with (nv - h) in Q by (rewrite <- LN, app_length; cbn; lia).
  eapply Z.le_trans; [exact Q|]. apply cheapest_walk; auto. intros c Hc. apply IC. now right.
Qed.

Hypothesis Small : (Z.of_nat nv <= 2147483647)%Z.
Lemma mst_cases guard A e h : let t := blist nv (tset nv A e) in
  (exists acc, mst nv d guard A e h = Ok (zsum acc) /\ length acc = nv - h /\ nv - h < length t /\ forall p, incl p t -> NoDup p -> good acc (wts d p)) \/
  (length t <= nv - h /\ if guard then exists v, mst nv d guard A e h = Ok v else mst nv d guard A e h = Err UB).
Proof.
  intros t. apply kruskal.
  - apply nodup_blist.
  - pose proof (t_max A e). fold t in H |- *. lia.
  - intros Q. assert (In 0 t) as H0 by (apply in_tset; split; auto). rewrite Q in H0. destruct H0.
Qed.
Lemma mst_root A e : mst nv d false A e 0 = Err UB.
Proof. destruct (mst_cases false A e 0) as [(acc & _ & _ & L & _)|[_ E]]; auto. pose proof (t_max A e). lia. Qed.
Lemma mst_root_guard A e : exists v, mst nv d true A e 0 = Ok v.
Proof. destruct (mst_cases true A e 0) as [(acc & _ & _ & L & _)|[_ E]]; auto. pose proof (t_max A e). lia. Qed.
Lemma mst_home guard A e : mst nv d guard A e nv = Ok 0%Z.
Proof. unfold mst. rewrite Nat.sub_diag. reflexivity. Qed.
Lemma mst_ok guard A e h : here nv A e h -> 0 < h ->
  exists v, mst nv d guard A e h = Ok v /\ forall post, home nv A h post -> (v <= walk d e (post ++ [0%nat]))%Z.
Proof.
  intros H Hh. pose proof (t_len A e h H Hh). destruct (mst_cases guard A e h) as [(acc & E & LA & _ & G)|[L _]]; [|lia].
  exists (zsum acc). split; auto. intros post HM. destruct (home_path A e h post H Hh HM) as (N & IC & LN).
  rewrite <- (wts_walk d e (post ++ [0])). apply good_sum; [now apply G|]. rewrite wts_length. lia.
Qed.
End St.
