(** CQueue refines a sequence of (location, value) pairs. *)
From Verif Require Import Base QueueModel.
Local Ltac csplit := repeat match goal with |- _ /\ _ => split end.

Section QueueProofs.
Context {T : Type}.
Variable dflt : T.
Notation cq := (cq T).

(** the live slots in queue order, their locations, and the contents *)
Definition q_slot (q : cq) (i : nat) : nat := (qexit q + i) mod qmxs q.
Definition q_locs (q : cq) : list nat := map (fun i => qdata q (q_slot q i)) (seq 0 (qcnt q)).
Definition q_elems (q : cq) : list (nat * T) := map (fun l => (l, qval q l)) (q_locs q).

Record q_ok (q : cq) : Prop := {
  qk_pow : exists k, 1 <= k /\ qmxs q = 2 ^ k;
  qk_exit : qexit q < qmxs q;
  qk_enter : qenter q = q_slot q (qcnt q);
  qk_cnt : qcnt q < qmxs q;
  qk_inj : forall i j, i < qmxs q -> j < qmxs q -> qdata q i = qdata q j -> i = j;
  qk_bnd : forall i, i < qmxs q -> qdata q i < qnloc q;
  qk_pos : forall i, i < qcnt q -> qpos q (qdata q (q_slot q i)) = q_slot q i }.

Lemma transp_lt i j k n : i < n -> j < n -> k < n -> transp i j k < n.
Proof. unfold transp. intros. destruct (k =? j); auto. destruct (k =? i); auto. Qed.
Lemma pow_ge2 k : 1 <= k -> 2 <= 2 ^ k.
Proof. intros H. change 2 with (2 ^ 1) at 1. apply Nat.pow_le_mono_r; lia. Qed.
Lemma qk_mx q : q_ok q -> 2 <= qmxs q.
Proof. intros H. destruct (qk_pow q H) as (k & K & ->). now apply pow_ge2. Qed.
Lemma land_mask m x : (exists k, m = 2 ^ k) -> Nat.land x (m - 1) = x mod m.
Proof. intros (k & ->). rewrite <- Nat.land_ones. f_equal. rewrite Nat.ones_equiv. lia. Qed.
Lemma q_next_mod q x : q_ok q -> q_next q x = (x + 1) mod qmxs q.
Proof. intros H. apply land_mask. destruct (qk_pow q H) as (k & _ & E). eauto. Qed.
Lemma slot_lt q i : q_ok q -> q_slot q i < qmxs q.
Proof. intros H. apply Nat.mod_upper_bound. pose proof (qk_mx q H). lia. Qed.
Lemma slot_next q i : q_ok q -> q_next q (q_slot q i) = q_slot q (S i).
Proof.
  intros H. rewrite q_next_mod by auto. pose proof (qk_mx q H). unfold q_slot. rewrite Nat.add_mod_idemp_l by lia. f_equal. lia.
Qed.
Lemma slot_0 q : q_ok q -> q_slot q 0 = qexit q.
Proof. intros H. unfold q_slot. rewrite Nat.add_0_r. apply Nat.mod_small. apply (qk_exit q H). Qed.
Lemma mod_cases a m : m <> 0 -> a < 2 * m -> a mod m = if a <? m then a else a - m.
Proof.
  intros M L. destruct (Nat.ltb_spec a m); [now apply Nat.mod_small|]. replace a with ((a - m) + 1 * m) at 1 by lia.
  rewrite Nat.mod_add by lia. apply Nat.mod_small. lia.
Qed.
Lemma slot_inj q i j : q_ok q -> i < qmxs q -> j < qmxs q -> q_slot q i = q_slot q j -> i = j.
Proof.
  intros H Hi Hj. pose proof (qk_mx q H). pose proof (qk_exit q H). unfold q_slot. rewrite !mod_cases by lia.
  destruct (_ <? _) eqn:A; destruct (_ <? _) eqn:B in |- *; lia.
Qed.
Lemma enter_lt q : q_ok q -> qenter q < qmxs q.
Proof. intros H. rewrite (qk_enter q H). now apply slot_lt. Qed.
Lemma slot_enter q i : q_ok q -> i < qmxs q -> (q_slot q i = qenter q <-> i = qcnt q).
Proof.
  intros H Hi. rewrite (qk_enter q H). split; [|congruence]. apply slot_inj; auto. apply (qk_cnt q H).
Qed.
Lemma empty_cnt q : q_ok q -> (qenter q =? qexit q) = (qcnt q =? 0).
Proof.
  intros H. pose proof (qk_mx q H). pose proof (slot_enter q 0 H ltac:(lia)) as E. rewrite slot_0 in E by auto. lia.
Qed.

Lemma locs_nodup q : q_ok q -> NoDup (q_locs q).
Proof.
  intros H. unfold q_locs. pose proof (qk_cnt q H) as C.
  assert (G : forall n s, s + n <= qmxs q -> NoDup (map (fun i => qdata q (q_slot q i)) (seq s n))).
  { induction n as [|n IH]; intros s L; cbn; [constructor|]. constructor; [|apply IH; lia]. intros Hi. apply in_map_iff in Hi as (j & E & Hj).
    apply in_seq in Hj. apply (qk_inj q H) in E; try (now apply slot_lt). apply slot_inj in E; auto; lia. }
  apply G. lia.
Qed.
Lemma elems_locs q : map fst (q_elems q) = q_locs q.
Proof. unfold q_elems. rewrite map_map. cbn. apply map_id. Qed.
Lemma elems_len q : length (q_elems q) = qcnt q.
Proof. unfold q_elems, q_locs. now rewrite !map_length, seq_length. Qed.

(** ** construction *)
Lemma q_pow_ok : forall fuel m sz, sz < m + fuel -> (exists k, m = 2 ^ k) -> 1 <= m -> exists k, q_pow fuel m sz = 2 ^ k /\ sz < 2 ^ k /\ m <= 2 ^ k.
Proof.
  induction fuel as [|f IH]; intros m sz L (k & ->) M; cbn [q_pow].
  - exists k. lia.
  - destruct (Nat.leb_spec (2 ^ k) sz) as [A|A]; [|exists k; lia].
    destruct (IH (2 * 2 ^ k) sz) as (k' & E & B & C); try lia; [exists (S k); auto|]. exists k'. lia.
Qed.
Lemma q_new_ok sz : 1 <= sz -> q_ok (q_new dflt sz) /\ q_elems (q_new dflt sz) = [].
Proof.
  intros H. unfold q_new. destruct (q_pow_ok (S sz) 1 sz) as (k & E & L & _); [lia|exists 0; auto|lia|].
  rewrite E. assert (K : 1 <= k) by (destruct k; cbn in L; lia). pose proof (pow_ge2 k K).
  split; [|reflexivity]. constructor; cbn [qmxs qexit qenter qcnt qdata qnloc qpos]; try lia.
  - exists k. auto.
  - unfold q_slot. cbn. symmetry. apply Nat.mod_small. lia.
Qed.

(** ** resize *)
Lemma rescan_ok q : q_ok q -> forall n fuel i nd np, i + n = qcnt q -> 1 <= n -> n <= fuel ->
  (forall j, j < i -> nd j = qdata q (q_slot q j)) -> (forall j, j < i -> np (qdata q (q_slot q j)) = j) ->
  exists nd' np', q_rescan fuel q nd np i (q_slot q i) = Ok (nd', np', qcnt q, qenter q) /\
    (forall j, j < qcnt q -> nd' j = qdata q (q_slot q j)) /\ (forall j, j < qcnt q -> np' (qdata q (q_slot q j)) = j).
Proof.
  intros H. pose proof (qk_cnt q H) as C. induction n as [|n IH]; intros fuel i nd np E N1 F Hd Hp; [lia|]. destruct fuel as [|fuel]; [lia|]. cbn [q_rescan]. rewrite fupd_same.
  assert (Hd' : forall j, j < S i -> fupd nd i (qdata q (q_slot q i)) j = qdata q (q_slot q j)).
  { intros j Hj. unfold fupd. destruct (Nat.eqb_spec j i) as [->|]; auto. apply Hd. lia. }
  assert (Hp' : forall j, j < S i -> fupd np (qdata q (q_slot q i)) i (qdata q (q_slot q j)) = j).
  { intros j Hj. unfold fupd. destruct (Nat.eqb_spec (qdata q (q_slot q j)) (qdata q (q_slot q i))) as [X|X].
    - apply (qk_inj q H) in X; try now apply slot_lt. apply slot_inj in X; auto; lia.
    - apply Hp. destruct (Nat.eq_dec j i) as [->|]; [congruence|lia]. }
  rewrite slot_next by auto. destruct (Nat.eqb_spec (q_slot q (S i)) (qenter q)) as [X|X].
  - apply slot_enter in X; auto; [|lia]. do 2 eexists. split; [rewrite <- X, (qk_enter q H), <- X; reflexivity|]. rewrite <- X. auto.
  - destruct n as [|n]; [exfalso; apply X; rewrite (qk_enter q H); f_equal; lia|]. apply IH; auto; lia.
Qed.
Lemma resize_ok q : q_ok q -> qcnt q = qmxs q - 1 ->
  exists q', q_resize dflt q = Ok q' /\ q_ok q' /\ q_elems q' = q_elems q /\ qcnt q' < qmxs q' - 1.
Proof.
  intros H E. pose proof (qk_mx q H) as M. unfold q_resize.
  destruct (rescan_ok q H (qcnt q) (S (qmxs q)) 0 (fun _ => 0) (qpos q)) as (nd & np & R & Hd & Hp); try lia; try (intros; lia).
  rewrite slot_0 in R by auto. rewrite R. cbn [bind].
  match goal with |- exists q', Ok ?x = Ok q' /\ _ => set (q' := x) end. exists q'. split; auto.
  assert (L : forall i, i < 2 * qmxs q -> qdata q' i = if i <? qmxs q then qdata q (q_slot q i) else qnloc q + (i - qmxs q)).
  { intros i Hi. cbn [qdata q']. replace (S (qcnt q)) with (qmxs q) by lia. destruct (Nat.ltb_spec i (qmxs q)) as [A|A].
    - destruct (Nat.leb_spec (qmxs q) i); [lia|]. cbn [andb]. unfold fupd. destruct (Nat.eqb_spec i (qcnt q)) as [->|]; [now rewrite (qk_enter q H)|apply Hd; lia].
    - destruct (Nat.leb_spec (qmxs q) i); [|lia]. destruct (Nat.ltb_spec i (2 * qmxs q)); [|lia]. reflexivity. }
  assert (SL : forall i, i < 2 * qmxs q -> q_slot q' i = i).
  { intros i Hi. unfold q_slot. cbn [qexit qmxs q']. cbn [Nat.add]. apply Nat.mod_small. lia. }
  split; [constructor|split].
  - destruct (qk_pow q H) as (k & K & Ek). exists (S k). split; [lia|]. cbn [qmxs q']. rewrite Ek. reflexivity.
  - cbn [qexit qmxs q']. lia.
  - rewrite SL by (cbn [qcnt q']; lia). cbn [qenter qcnt q']. lia.
  - cbn [qcnt qmxs q']. lia.
  - cbn [qmxs q']. intros i j Hi Hj. rewrite !L by lia. destruct (Nat.ltb_spec i (qmxs q)), (Nat.ltb_spec j (qmxs q)); intros X.
    + apply (qk_inj q H) in X; try now apply slot_lt. apply slot_inj in X; auto.
    + pose proof (qk_bnd q H (q_slot q i) (slot_lt q i H)). lia.
    + pose proof (qk_bnd q H (q_slot q j) (slot_lt q j H)). lia.
    + lia.
  - cbn [qmxs q']. intros i Hi. rewrite L by lia. cbn [qnloc q']. destruct (Nat.ltb_spec i (qmxs q)); [|lia].
    pose proof (qk_bnd q H (q_slot q i) (slot_lt q i H)). lia.
  - cbn [qcnt q']. intros i Hi. rewrite SL by lia. rewrite L by lia. destruct (Nat.ltb_spec i (qmxs q)); [|lia]. cbn [qpos q']. now apply Hp.
  - unfold q_elems, q_locs. rewrite !map_map. cbn [qcnt q']. apply map_ext_in. intros i Hi. apply in_seq in Hi. rewrite SL by lia. rewrite L by lia.
    destruct (Nat.ltb_spec i (qmxs q)); [|lia]. f_equal. cbn [qval q']. pose proof (qk_bnd q H (q_slot q i) (slot_lt q i H)).
    destruct (Nat.leb_spec (qnloc q) (qdata q (q_slot q i))); [lia|]. reflexivity.
  - cbn [qcnt qmxs q']. lia.
Qed.

(** ** operations *)
Lemma enQueue_ok q v : q_ok q -> exists q' l, q_enQueue dflt q v = Ok (q', l) /\ q_ok q' /\ ~ In l (map fst (q_elems q)) /\ q_elems q' = q_elems q ++ [(l, v)].
Proof.
  intros H0. unfold q_enQueue.
  assert (X : exists q1, (if qcnt q =? qmxs q - 1 then q_resize dflt q else Ok q) = Ok q1 /\ q_ok q1 /\ q_elems q1 = q_elems q /\ qcnt q1 < qmxs q1 - 1).
  { destruct (Nat.eqb_spec (qcnt q) (qmxs q - 1)) as [E|E]; [now apply resize_ok|]. exists q. pose proof (qk_cnt q H0). csplit; auto. lia. }
  destruct X as (q1 & -> & H & Ee & C). cbn [bind]. do 2 eexists. split; [reflexivity|]. rewrite <- Ee. clear q H0 Ee. rename q1 into q.
  pose proof (qk_mx q H) as M. pose proof (enter_lt q H) as EL.
  assert (Fr : forall i, i < qcnt q -> qdata q (q_slot q i) <> qdata q (qenter q)).
  { intros i Hi X. apply (qk_inj q H) in X; auto; [|now apply slot_lt]. apply slot_enter in X; auto; lia. }
  split; [|split].
  - constructor; cbn [qmxs qexit qenter qcnt qdata qnloc qpos].
    + apply (qk_pow q H).
    + apply (qk_exit q H).
    + unfold q_slot. cbn [qmxs qexit]. fold (q_slot q (S (qcnt q))). rewrite (qk_enter q H). now apply slot_next.
    + lia.
    + apply (qk_inj q H).
    + apply (qk_bnd q H).
    + intros i Hi. unfold q_slot. cbn [qmxs qexit]. fold (q_slot q i). destruct (Nat.eq_dec i (qcnt q)) as [->|].
      * rewrite <- (qk_enter q H). apply fupd_same.
      * rewrite fupd_diff; [apply (qk_pos q H)|apply Fr]; lia.
  - rewrite elems_locs. unfold q_locs. intros Hin. apply in_map_iff in Hin as (i & E & Hi). apply in_seq in Hi. apply (Fr i); auto. lia.
  - unfold q_elems, q_locs. cbn [qcnt]. rewrite seq_S, !map_app. f_equal.
    + rewrite !map_map. apply map_ext_in. intros i Hi. apply in_seq in Hi. unfold q_slot. cbn [qmxs qexit qdata qval]. fold (q_slot q i).
      rewrite fupd_diff; auto. apply Fr. lia.
    + cbn [map Nat.add]. unfold q_slot. cbn [qmxs qexit qdata qval]. fold (q_slot q (qcnt q)). rewrite <- (qk_enter q H), fupd_same. reflexivity.
Qed.

Lemma slot_shift q q' i : q_ok q -> qmxs q' = qmxs q -> qexit q' = q_next q (qexit q) -> q_slot q' i = q_slot q (S i).
Proof.
  intros H E1 E2. pose proof (qk_mx q H). unfold q_slot. rewrite E1, E2, q_next_mod by auto. rewrite Nat.add_mod_idemp_l by lia. f_equal. lia.
Qed.
Lemma elems_cons q : q_ok q -> qcnt q <> 0 -> q_elems q = (qdata q (qexit q), qval q (qdata q (qexit q))) ::
  map (fun i => (qdata q (q_slot q i), qval q (qdata q (q_slot q i)))) (seq 1 (qcnt q - 1)).
Proof.
  intros H C. unfold q_elems, q_locs. rewrite map_map. destruct (qcnt q) as [|n] eqn:E; [lia|]. cbn [seq map]. rewrite slot_0 by auto.
  replace (S n - 1) with n by lia. reflexivity.
Qed.
Lemma deQueue_ok q : q_ok q -> let '(q', v) := q_deQueue dflt q in q_ok q' /\
  match q_elems q with [] => v = dflt /\ q' = q | (l, w) :: r => v = w /\ q_elems q' = r end.
Proof.
  intros H. unfold q_deQueue. rewrite (empty_cnt q H). destruct (Nat.eqb_spec (qcnt q) 0) as [C|C]; cbn [negb].
  - split; auto. pose proof (elems_len q) as L. rewrite C in L. destruct (q_elems q); [auto|discriminate].
  - rewrite (elems_cons q H C). set (q' := mkQ _ _ _ _ _ _ _ _).
    assert (SH : forall i, q_slot q' i = q_slot q (S i)) by (intros i; apply slot_shift; auto).
    split; [|split; auto].
    + constructor.
      * apply (qk_pow q H).
      * cbn [qexit qmxs q']. rewrite q_next_mod by auto. apply Nat.mod_upper_bound. pose proof (qk_mx q H). lia.
      * rewrite SH. cbn [qenter qcnt q']. replace (S (qcnt q - 1)) with (qcnt q) by lia. apply (qk_enter q H).
      * cbn [qcnt qmxs q']. pose proof (qk_cnt q H). lia.
      * apply (qk_inj q H).
      * apply (qk_bnd q H).
      * intros i Hi. rewrite SH. cbn [qcnt q'] in Hi. apply (qk_pos q H). lia.
    + unfold q_elems, q_locs. rewrite map_map. cbn [qcnt q']. rewrite <- seq_shift, map_map. apply map_ext. intros i. rewrite SH. reflexivity.
Qed.
Lemma peek_ok q : q_ok q -> q_peek dflt q = match q_elems q with [] => dflt | (_, w) :: _ => w end.
Proof.
  intros H. pose proof (deQueue_ok q H) as D. unfold q_deQueue in D. unfold q_peek. destruct (negb _); destruct D as [_ D]; destruct (q_elems q) as [|[l w] r]; destruct D; auto.
Qed.
Lemma size_ok q : q_size q = length (q_elems q).
Proof. now rewrite elems_len. Qed.
Lemma qempty_ok q : q_ok q -> (q_empty q = true <-> q_elems q = []).
Proof.
  intros H. unfold q_empty. rewrite (empty_cnt q H). pose proof (elems_len q) as L. destruct (q_elems q); cbn in L; split; intros; try discriminate; auto; lia.
Qed.
Lemma clear_ok q : q_ok q -> q_ok (q_clear q) /\ q_elems (q_clear q) = [].
Proof.
  intros H. pose proof (qk_mx q H). split; [|reflexivity]. constructor; cbn [qmxs qexit qenter qcnt qdata qnloc qpos q_clear].
  - apply (qk_pow q H).
  - lia.
  - unfold q_slot. cbn [qmxs qexit q_clear Nat.add]. rewrite Nat.mod_small; lia.
  - lia.
  - apply (qk_inj q H).
  - apply (qk_bnd q H).
  - lia.
Qed.

(** what retract does to the sequence: the head takes the place of the removed element *)
Definition unplace {A} (a : list A) (b : list A) : list A := match a with [] => b | x :: a' => a' ++ x :: b end.
Lemma nth_split_at {A} (f : nat -> A) n i : i < n -> map f (seq 0 n) = map f (seq 0 i) ++ f i :: map f (seq (S i) (n - S i)).
Proof.
  intros H. replace n with (i + (1 + (n - S i))) at 1 by lia. rewrite seq_app, map_app. cbn [Nat.add seq map]. reflexivity.
Qed.
Lemma in_locs q l : In l (map fst (q_elems q)) -> exists i, i < qcnt q /\ l = qdata q (q_slot q i).
Proof. rewrite elems_locs. unfold q_locs. intros H. apply in_map_iff in H as (i & <- & Hi). apply in_seq in Hi. exists i. split; auto. lia. Qed.

Lemma retract_ok q l : q_ok q -> In l (map fst (q_elems q)) ->
  exists q' a v b, q_retract dflt q l = Ok q' /\ q_ok q' /\ q_elems q = a ++ (l, v) :: b /\ q_elems q' = unplace a b.
Proof.
  intros H Hin. apply in_locs in Hin as (i & Hi & ->). pose proof (qk_mx q H) as M. pose proof (qk_cnt q H) as C.
  set (l := qdata q (q_slot q i)). unfold q_retract. destruct (Nat.eqb_spec (qcnt q) 0) as [|_]; [lia|].
  assert (PL : qpos q l = q_slot q i) by (apply (qk_pos q H i Hi)). cbv zeta. rewrite PL.
  assert (Fr : forall j, j < qmxs q -> j <> i -> qdata q (q_slot q j) <> l).
  { intros j Hj N X. apply (qk_inj q H) in X; try now apply slot_lt. apply slot_inj in X; auto; lia. }
  destruct (Nat.eqb_spec (q_slot q i) (qexit q)) as [E|E].
  - assert (i = 0) by (rewrite <- (slot_0 q H) in E; apply slot_inj in E; auto; lia). subst i.
    set (q' := mkQ _ _ _ _ _ _ _ _). assert (SH : forall j, q_slot q' j = q_slot q (S j)) by (intros j; apply slot_shift; auto).
    exists q', [], (qval q l), (map (fun i => (qdata q (q_slot q i), qval q (qdata q (q_slot q i)))) (seq 1 (qcnt q - 1))).
    split; [reflexivity|]. split; [|split].
    + constructor.
      * apply (qk_pow q H).
      * cbn [qexit qmxs q']. rewrite q_next_mod by auto. apply Nat.mod_upper_bound. lia.
      * rewrite SH. cbn [qenter qcnt q']. replace (S (qcnt q - 1)) with (qcnt q) by lia. apply (qk_enter q H).
      * cbn [qcnt qmxs q']. lia.
      * apply (qk_inj q H).
      * apply (qk_bnd q H).
      * intros j Hj. rewrite SH. cbn [qcnt q'] in Hj. apply (qk_pos q H). lia.
    + cbn [app]. unfold l. rewrite slot_0 by auto. apply elems_cons; auto. lia.
    + cbn [unplace]. unfold q_elems, q_locs. rewrite map_map. cbn [qcnt q']. rewrite <- seq_shift, map_map. apply map_ext_in. intros j Hj. apply in_seq in Hj. rewrite SH. cbn [qdata qval q'].
      rewrite fupd_diff; auto. apply Fr; lia.
  - destruct (Nat.eqb_spec (q_slot q i) (qenter q)) as [E2|E2]; [apply slot_enter in E2; auto; lia|].
    assert (I0 : i <> 0) by (intros ->; rewrite slot_0 in E by auto; congruence).
    set (q' := mkQ _ _ _ _ _ _ _ _). assert (SH : forall j, q_slot q' j = q_slot q (S j)) by (intros j; apply slot_shift; auto).
    set (g := fun j => (qdata q (q_slot q j), qval q (qdata q (q_slot q j)))).
    exists q', (map g (seq 0 i)), (qval q l), (map g (seq (S i) (qcnt q - S i))).
    assert (DT : forall j, j < qcnt q - 1 -> qdata q' (q_slot q' j) = if S j =? i then qdata q (qexit q) else qdata q (q_slot q (S j))).
    { intros j Hj. rewrite SH. cbn [qdata q']. rewrite fswap_transp. unfold transp.
      assert (N0 : q_slot q (S j) <> qexit q). { rewrite <- (slot_0 q H). intros X. apply slot_inj in X; try lia; auto. }
      destruct (Nat.eqb_spec (q_slot q (S j)) (qexit q)); [congruence|].
      destruct (Nat.eqb_spec (q_slot q (S j)) (q_slot q i)) as [X|X].
      - apply slot_inj in X; auto; try lia. subst i. now rewrite Nat.eqb_refl.
      - destruct (Nat.eqb_spec (S j) i) as [Y|Y]; [subst; congruence|reflexivity]. }
    split; [reflexivity|]. split; [|split].
    + constructor.
      * apply (qk_pow q H).
      * cbn [qexit qmxs q']. rewrite q_next_mod by auto. apply Nat.mod_upper_bound. lia.
      * rewrite SH. cbn [qenter qcnt q']. replace (S (qcnt q - 1)) with (qcnt q) by lia. apply (qk_enter q H).
      * cbn [qcnt qmxs q']. lia.
      * cbn [qdata qmxs q']. intros a b Ha Hb. rewrite !fswap_transp. intros X. apply (qk_inj q H) in X; [now apply transp_inj in X| |];
          apply transp_lt; auto using slot_lt, qk_exit.
      * cbn [qdata qmxs qnloc q']. intros a Ha. rewrite fswap_transp. apply (qk_bnd q H). apply transp_lt; auto using slot_lt, qk_exit.
      * intros j Hj. cbn [qcnt q'] in Hj. rewrite DT by lia. rewrite SH. cbn [qpos q']. rewrite fswap_transp. unfold transp at 1.
        destruct (Nat.eqb_spec (q_slot q i) (qexit q)); [congruence|]. rewrite Nat.eqb_refl.
        destruct (Nat.eqb_spec (S j) i) as [Y|Y].
        -- subst i. apply fupd_same.
        -- rewrite fupd_diff; [apply (qk_pos q H); lia|]. rewrite <- (slot_0 q H). intros X. apply (qk_inj q H) in X; try now apply slot_lt. apply slot_inj in X; auto; lia.
    + unfold q_elems, q_locs. rewrite map_map. apply (nth_split_at g). auto.
    + destruct i as [|i]; [lia|]. cbn [seq map unplace]. unfold q_elems, q_locs. rewrite map_map. cbn [qcnt q'].
      rewrite (nth_split_at _ (qcnt q - 1) i) by lia. f_equal; [|f_equal].
      * rewrite <- seq_shift, map_map. apply map_ext_in. intros j Hj. apply in_seq in Hj. rewrite DT by lia. destruct (Nat.eqb_spec (S j) (S i)); [lia|]. unfold g. f_equal.
        cbn [qval q']. rewrite fupd_diff; auto. apply Fr; lia.
      * rewrite DT by lia. rewrite Nat.eqb_refl. unfold g. rewrite slot_0 by auto. f_equal. cbn [qval q']. rewrite fupd_diff; auto. rewrite <- (slot_0 q H). apply Fr; lia.
      * replace (qcnt q - S (S i)) with (qcnt q - 1 - S i) by lia. rewrite <- (seq_shift _ (S i)), map_map. apply map_ext_in. intros j Hj. apply in_seq in Hj. rewrite DT by lia.
        destruct (Nat.eqb_spec (S j) (S i)); [lia|]. unfold g. f_equal. cbn [qval q']. rewrite fupd_diff; auto. apply Fr; lia.
Qed.
Lemma unplace_perm {A} (a : list A) x b : Permutation (a ++ x :: b) (x :: unplace a b).
Proof.
  destruct a as [|y a]; cbn [unplace app]; auto. symmetry. transitivity (y :: x :: a ++ b).
  - rewrite perm_swap. apply perm_skip. symmetry. apply Permutation_middle.
  - apply perm_skip. apply Permutation_middle.
Qed.

Variable teq : T -> T -> bool.
Lemma find_ok q v : q_ok q -> forall n fuel i, i + n = qcnt q -> 1 <= n -> n <= fuel ->
  q_find teq fuel q v (q_slot q i) = Ok (option_map fst (find (fun x => teq (snd x) v) (map (fun i => (qdata q (q_slot q i), qval q (qdata q (q_slot q i)))) (seq i n)))).
Proof.
  intros H. pose proof (qk_cnt q H). induction n as [|n IH]; intros fuel i E N1 F; [lia|]. destruct fuel as [|fuel]; [lia|]. cbn [q_find seq map find snd].
  destruct (teq (qval q (qdata q (q_slot q i))) v); [reflexivity|]. rewrite slot_next by auto. destruct (Nat.eqb_spec (q_slot q (S i)) (qenter q)) as [X|X].
  - apply slot_enter in X; auto; [|lia]. assert (n = 0) by lia. subst. reflexivity.
  - destruct n as [|n]; [exfalso; apply X; rewrite (qk_enter q H); f_equal; lia|]. apply IH; lia.
Qed.
Lemma retractVal_ok q v : q_ok q -> q_elems q <> [] ->
  exists q' b, q_retractVal dflt teq q v = Ok (q', b) /\ q_ok q' /\
    match find (fun x => teq (snd x) v) (q_elems q) with
    | None => b = false /\ q' = q
    | Some (l, w) => b = true /\ exists x y, q_elems q = x ++ (l, w) :: y /\ q_elems q' = unplace x y
    end.
Proof.
  intros H Ne. pose proof (elems_len q) as L. assert (C : qcnt q <> 0) by (destruct (q_elems q); [congruence|cbn in L; lia]).
  unfold q_retractVal. destruct (Nat.eqb_spec (qcnt q) 0); [congruence|]. pose proof (qk_cnt q H).
  pose proof (find_ok q v H (qcnt q) (S (qmxs q)) 0 eq_refl ltac:(lia) ltac:(lia)) as F. rewrite slot_0 in F by auto.
  assert (EE : q_elems q = map (fun i => (qdata q (q_slot q i), qval q (qdata q (q_slot q i)))) (seq 0 (qcnt q))) by (unfold q_elems, q_locs; apply map_map).
  rewrite <- EE in F. rewrite F. cbn [bind]. destruct (find (fun x => teq (snd x) v) (q_elems q)) as [[l w]|] eqn:X; cbn [option_map fst].
  - apply find_some in X as [Hin _]. destruct (retract_ok q l H) as (q' & a & u & b & R & K & E1 & E2); [apply in_map_iff; exists (l, w); auto|].
    rewrite R. cbn [bind]. exists q', true. split; auto. split; auto. split; auto.
    assert (u = w). { assert (In (l, u) (q_elems q)) by (rewrite E1; apply in_or_app; right; left; auto). unfold q_elems in *. apply in_map_iff in Hin as (z & [= <- <-] & _). apply in_map_iff in H1 as (z' & [= -> ->] & _). auto. }
    subst. eauto.
  - exists q, false. auto.
Qed.
Lemma all_ok q : q_ok q -> q_doOnAll q = map fst (q_elems q).
Proof.
  intros H. rewrite elems_locs. unfold q_doOnAll, q_locs. rewrite <- (slot_0 q H). generalize 0 as i. induction (qcnt q) as [|n IH]; intros i; cbn [q_all_from seq map]; auto.
  rewrite slot_next by auto. f_equal. apply IH.
Qed.
Fixpoint fold_until {A} (isnull : A -> bool) (f : A -> A -> A) (l : list A) (acc : A) : A :=
  match l with [] => acc | x :: r => if isnull acc then fold_until isnull f r (f acc x) else acc end.
Lemma foldl_ok isnull f q base : q_ok q -> q_foldl isnull f q base = fold_until isnull f (map snd (q_elems q)) base.
Proof.
  intros H. unfold q_foldl, q_elems, q_locs. rewrite !map_map. cbn [snd]. rewrite <- (slot_0 q H). generalize 0 as i. revert base.
  induction (qcnt q) as [|n IH]; intros base i; cbn [q_fold_from seq map fold_until]; auto. rewrite slot_next by auto. destruct (isnull base); auto.
Qed.
End QueueProofs.
