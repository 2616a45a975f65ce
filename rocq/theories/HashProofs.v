(** Proofs about the hash tables. *)
From Verif Require Import Base HashModel HashSpec.
From Coq Require Import Sorting.Sorted.

Ltac zmod := Z.div_mod_to_equations; lia.

(** * The prime list and the search *)
Definition tsz : Z := 189.
Lemma primes_length : length primes = 189%nat. Proof. reflexivity. Qed.

Fixpoint incrb (l : list N) : bool := match l with x :: ((y :: _) as l') => (x <? y)%N && incrb l' | _ => true end.
Lemma incrb_sorted l : incrb l = true -> Sorted N.lt l.
Proof.
  induction l as [|x [|y l] IH]; cbn; intros H; auto.
  apply andb_prop in H as [H1 H2]. constructor; [apply IH; exact H2|]. constructor. lia.
Qed.
Lemma primes_sorted : StronglySorted N.lt primes.
Proof. apply Sorted_StronglySorted; [intros a b c; lia|]. apply incrb_sorted. vm_compute. reflexivity. Qed.
Lemma ss_nth l : StronglySorted N.lt l -> forall i j, (i < j < length l)%nat -> (nth i l 0 < nth j l 0)%N.
Proof.
  induction 1 as [|x l Hs IH Hf]; intros i j Hij; cbn in *; [lia|].
  destruct j as [|j]; [lia|]. destruct i as [|i].
  - rewrite Forall_forall in Hf. apply Hf. apply nth_In. lia.
  - apply IH. lia.
Qed.
Definition pr (i : Z) : N := nth (Z.to_nat i) primes 0%N.
Lemma pr_mono i j : (0 <= i < j)%Z -> (j < tsz)%Z -> (pr i < pr j)%N.
Proof. intros. apply ss_nth; [apply primes_sorted|]. rewrite primes_length. unfold tsz in *. lia. Qed.

Lemma to_int_small x : (x < 2147483648)%N -> to_int x = Z.of_N x.
Proof. intros H. unfold to_int, U32. rewrite N.mod_small by lia. destruct (_ <? _)%Z eqn:E; lia. Qed.
Lemma to_size_pos x : (0 <= x < 18446744073709551616)%Z -> to_size x = Z.to_N x.
Proof. intros H. unfold to_size. rewrite Z.mod_small by lia. reflexivity. Qed.

(** invariant of the search, in unbounded integers *)
Lemma pick_loop_ok sz : (2 <= sz)%N -> forall fuel low up,
  (0 <= low)%Z -> (low <= up + 1)%Z -> (up < tsz)%Z -> (0 <= up)%Z ->
  (forall i, 0 <= i < low -> (pr i < sz)%N)%Z -> (forall i, up < i < tsz -> (sz < pr i)%N)%Z ->
  (Z.of_nat fuel > up + 1 - low)%Z ->
  exists r, pick_loop fuel sz (Z.to_N low) (Z.to_N up) = Ok (Z.to_N r) /\ (0 <= r <= tsz)%Z /\
    (forall i, 0 <= i < r -> (pr i < sz)%N)%Z /\ (forall i, r <= i < tsz -> (sz <= pr i)%N)%Z.
Proof.
  intros Hsz. induction fuel as [|f IH]; intros low up Hl Hlu Hu Hu0 Hlo Hup Hf; [lia|].
  cbn [pick_loop]. destruct (Z.to_N low <=? Z.to_N up)%N eqn:E.
  - assert (Hle : (low <= up)%Z) by lia.
    set (m := ((low + up) / 2)%Z). assert (Hm : (low <= m <= up)%Z) by (unfold m; zmod).
    assert (Em : to_int ((Z.to_N low + Z.to_N up) mod U64 / 2)%N = m).
    { unfold U64, tsz in *. rewrite N.mod_small by lia. rewrite to_int_small by zmod. unfold m. zmod. }
    rewrite Em. rewrite primes_length. unfold tsz in *.
    destruct ((m <? 0) || (Z.of_nat 189 <=? m))%Z eqn:E1; [lia|].
    fold (pr m). destruct (sz <? pr m)%N eqn:E2.
    + assert (m <> 0)%Z. { intros ->. change (pr 0) with 2%N in E2. lia. }
      rewrite to_size_pos by lia. apply IH; try lia; auto.
      intros i Hi. destruct (Z.eq_dec i m) as [->|]; [lia|].
      assert (pr m < pr i)%N by (apply pr_mono; unfold tsz; lia). lia.
    + destruct (pr m <? sz)%N eqn:E3.
      * rewrite to_size_pos by lia. apply IH; try lia; auto.
        intros i Hi. destruct (Z.eq_dec i m) as [->|]; [lia|].
        assert (pr i < pr m)%N by (apply pr_mono; unfold tsz; lia). lia.
      * rewrite to_size_pos by lia. exists m. split; [reflexivity|]. split; [lia|]. split.
        -- intros i Hi. assert (pr i < pr m)%N by (apply pr_mono; unfold tsz; lia). lia.
        -- intros i Hi. destruct (Z.eq_dec i m) as [->|]; [lia|].
           assert (pr m < pr i)%N by (apply pr_mono; unfold tsz; lia). lia.
  - exists low. split; [reflexivity|]. split; [lia|]. split; [auto|]. intros i Hi. assert (sz < pr i)%N by (apply Hup; lia). lia.
Qed.

Lemma in_primes p : In p primes <-> exists i, (0 <= i < tsz)%Z /\ pr i = p.
Proof.
  unfold tsz. split.
  - intros H. apply (In_nth _ _ 0%N) in H as [n [Hn E]]. rewrite primes_length in Hn. exists (Z.of_nat n). split; [lia|]. unfold pr. rewrite Nat2Z.id. exact E.
  - intros [i [Hi <-]]. apply nth_In. rewrite primes_length. lia.
Qed.

Lemma pick_ok sz : (2 <= sz)%N -> exists mxs, pick 512 sz = Ok mxs /\ In mxs primes /\
  ((sz <= mxs)%N /\ (forall p, In p primes -> sz <= p -> mxs <= p)%N \/ (forall p, In p primes -> p < sz /\ p <= mxs)%N).
Proof.
  intros Hsz.
  destruct (pick_loop_ok sz Hsz 512 0 188) as [r [E [Hr [H1 H2]]]]; try (unfold tsz; lia).
  unfold pick. rewrite primes_length. change (Z.to_N 0) with 0%N in E. change (Z.to_N 188) with (N.of_nat 189 - 1)%N in E. rewrite E.
  cbn [bind]. unfold tsz in *. destruct (N.of_nat 189 <=? Z.to_N r)%N eqn:E1.
  - eexists. split; [reflexivity|]. split; [apply in_primes; exists 188%Z; split; [unfold tsz; lia | reflexivity]|].
    right. intros p Hp. apply in_primes in Hp as [i [Hi <-]]. unfold tsz in *. split; [apply H1; lia|].
    change (nth (N.to_nat (N.of_nat 189 - 1)) primes 0%N) with (pr 188).
    destruct (Z.eq_dec i 188) as [->|]; [lia|]. assert (pr i < pr 188)%N by (apply pr_mono; unfold tsz; lia). lia.
  - assert (Er : nth (N.to_nat (Z.to_N r)) primes 0%N = pr r) by (unfold pr; f_equal; lia).
    rewrite Er. eexists. split; [reflexivity|]. split; [apply in_primes; exists r; split; [unfold tsz; lia | reflexivity]|].
    left. split; [apply H2; lia|]. intros p Hp Hle. apply in_primes in Hp as [i [Hi <-]]. unfold tsz in *.
    destruct (Z.lt_trichotomy i r) as [Hlt | [-> | Hgt]]; [assert (pr i < sz)%N by (apply H1; lia); lia | lia |].
    assert (pr r < pr i)%N by (apply pr_mono; unfold tsz; lia). lia.
Qed.
Lemma primes_pos p : In p primes -> (2 <= p)%N.
Proof.
  intros H. apply in_primes in H as [i [Hi <-]]. destruct (Z.eq_dec i 0) as [->|]; [change (pr 0) with 2%N; lia|].
  assert (pr 0 < pr i)%N by (apply pr_mono; unfold tsz in *; lia). change (pr 0) with 2%N in H. lia.
Qed.

(** * The dictionary *)
Section Dict.
Context {K V : Type} (hash : K -> N) (eqb : K -> K -> bool).
Hypothesis compat : forall a b, eqb a b = true -> hash a = hash b.
Notation tab := (htab K V).

Definition bucket (t : tab) (a : nat) (e : K * V) : bool := (h_at hash t (fst e) =? a)%nat.
Definition stamp (c : N) : N := ((1 + c) mod U32)%N.

(** [c]: number of clears so far *)
Record hok (t : tab) (c : N) (d : list (K * V)) : Prop := {
  ok_mxs : (0 < h_mxs t)%N;
  ok_magic : h_magic t = stamp c;
  ok_nbp : h_nbp t = (N.of_nat (length d) mod U32)%N;
  ok_old : forall a, h_tab t a = [] \/ exists c', (c' <= c)%N /\ h_mgc t a = stamp c';
  ok_chain : forall a, (a < N.to_nat (h_mxs t))%nat -> h_chain t a = filter (bucket t a) d }.

Lemma stamp_inj c c' : (c < U32)%N -> (c' < U32)%N -> stamp c = stamp c' -> c = c'.
Proof. unfold stamp, U32. intros. zmod. Qed.

Lemma h_at_lt (t : tab) k : (0 < h_mxs t)%N -> (h_at hash t k < N.to_nat (h_mxs t))%nat.
Proof. intros H. unfold h_at. assert (hash k mod h_mxs t < h_mxs t)%N by (apply N.mod_lt; lia). lia. Qed.

Lemma find_filter (P : K * V -> bool) k d : (forall e, In e d -> eqb (fst e) k = true -> P e = true) ->
  c_find eqb k (filter P d) = c_find eqb k d.
Proof.
  induction d as [|e d IH]; intros H; cbn; auto.
  destruct (eqb (fst e) k) eqn:E.
  - rewrite (H e) by (cbn; auto). cbn. now rewrite E.
  - destruct (P e); cbn; [rewrite E|]; apply IH; intros; apply H; cbn; auto.
Qed.
Lemma c_find_spec k (d : list (K * V)) : looks_up eqb d k (c_find eqb k d).
Proof.
  induction d as [|e d IH]; cbn; [intros e []|].
  destruct (eqb (fst e) k) eqn:E.
  - exists [], (fst e), d. destruct e; cbn in *. repeat split; auto. intros e [].
  - destruct (c_find eqb k d) as [v|]; cbn in *.
    + destruct IH as [d1 [k' [d2 [-> [H1 H2]]]]]. exists (e :: d1), k', d2. repeat split; auto. intros x [<-|Hx]; auto.
    + intros x [<-|Hx]; auto.
Qed.
Lemma h_get_ok t c d k : hok t c d -> looks_up eqb d k (c_find eqb k (h_chain t (h_at hash t k))).
Proof.
  intros H. rewrite (ok_chain _ _ _ H) by (apply h_at_lt, (ok_mxs _ _ _ H)).
  rewrite find_filter; [apply c_find_spec|].
  intros e _ E. unfold bucket. apply compat in E. unfold h_at. rewrite E. apply Nat.eqb_refl.
Qed.

Lemma h_insertAt_ok t c d k v : hok t c d -> hok (h_insertAt t (h_at hash t k) k v) c ((k, v) :: d).
Proof.
  intros H. pose proof (h_at_lt t k (ok_mxs _ _ _ H)) as Hlt. constructor; cbn.
  - apply (ok_mxs _ _ _ H).
  - apply (ok_magic _ _ _ H).
  - rewrite (ok_nbp _ _ _ H). unfold U32. zmod.
  - intros a. rewrite !fupd_eq. destruct (Nat.eqb_spec a (h_at hash t k)) as [->|]; [right; exists c; split; [lia | apply (ok_magic _ _ _ H)]|].
    apply (ok_old _ _ _ H).
  - intros a Ha. change (bucket (h_insertAt t (h_at hash t k) k v) a) with (bucket t a).
    replace (bucket t a (k, v)) with (a =? h_at hash t k)%nat by (unfold bucket; cbn; apply Nat.eqb_sym).
    unfold h_chain at 1; cbn. rewrite !fupd_eq.
    destruct (Nat.eqb_spec a (h_at hash t k)) as [->|].
    + rewrite N.eqb_refl. f_equal. apply (ok_chain _ _ _ H); auto.
    + apply (ok_chain _ _ _ H); auto.
Qed.

Lemma c_set_none k v (c : list (K * V)) : c_set eqb k v c = None -> forall e, In e c -> eqb (fst e) k = false.
Proof.
  induction c as [|e c IH]; cbn; intros H x []; destruct (eqb (fst e) k) eqn:E; try discriminate; destruct (c_set eqb k v c); try discriminate; subst; auto.
Qed.
Lemma c_set_some k v (c c' : list (K * V)) : c_set eqb k v c = Some c' -> overwrites eqb c k v c'.
Proof.
  revert c'. induction c as [|e c IH]; cbn; intros c' H; [discriminate|].
  destruct (eqb (fst e) k) eqn:E.
  - injection H as <-. exists [], (fst e), (snd e), c. destruct e; cbn in *. repeat split; auto. intros x [].
  - destruct (c_set eqb k v c) as [c2|] eqn:E2; [|discriminate]. injection H as <-.
    destruct (IH _ eq_refl) as [d1 [k' [w [d2 [-> [H1 [H2 ->]]]]]]]. exists (e :: d1), k', w, d2. repeat split; auto. intros x [<-|Hx]; auto.
Qed.
(** overwriting commutes with taking the bucket *)
Lemma c_set_filter (P : K * V -> bool) k v d : (forall e, In e d -> eqb (fst e) k = true -> P e = true) -> (forall a x y, P (a, x) = P (a, y)) ->
  match c_set eqb k v d with Some d' => c_set eqb k v (filter P d) = Some (filter P d') | None => c_set eqb k v (filter P d) = None end.
Proof.
  intros H HP. induction d as [|e d IH]; cbn; auto.
  assert (IH' := IH (fun x Hx => H x (or_intror Hx))). clear IH.
  destruct (eqb (fst e) k) eqn:E.
  - assert (Pe : P e = true) by (apply H; cbn; auto). rewrite Pe. cbn. rewrite E. destruct e as [a x]; cbn in *. rewrite (HP a v x), Pe. reflexivity.
  - destruct (c_set eqb k v d) as [d'|] eqn:E2.
    + cbn. destruct (P e); cbn; [rewrite E, IH'|]; auto.
    + destruct (P e); cbn; [rewrite E, IH'|]; auto.
Qed.
Lemma c_set_len k v (d d' : list (K * V)) : c_set eqb k v d = Some d' -> length d' = length d.
Proof.
  intros H. destruct (c_set_some _ _ _ _ H) as [d1 [k' [w [d2 [-> [_ [_ ->]]]]]]]. rewrite !app_length. reflexivity.
Qed.
Lemma c_set_other (P : K * V -> bool) k v d d' : (forall e, In e d -> eqb (fst e) k = true -> P e = false) -> (forall a x y, P (a, x) = P (a, y)) ->
  c_set eqb k v d = Some d' -> filter P d' = filter P d.
Proof.
  intros H HP E. destruct (c_set_some _ _ _ _ E) as [d1 [k' [w [d2 [-> [H1 [_ ->]]]]]]].
  assert (Hw : P (k', w) = false) by (apply H; [apply in_or_app; right; left; reflexivity | exact H1]).
  rewrite !filter_app. cbn. rewrite (HP k' v w), Hw. reflexivity.
Qed.

Lemma h_insert_ok t c d k v : hok t c d -> exists d', hok (h_insert hash eqb t k v) c d' /\ dict_step eqb d (HInsert k v) OUnit d'.
Proof.
  intros H. pose proof (h_at_lt t k (ok_mxs _ _ _ H)) as Hlt. unfold h_insert.
  assert (Hin : forall e, In e d -> eqb (fst e) k = true -> bucket t (h_at hash t k) e = true).
  { intros e _ E. unfold bucket. apply compat in E. unfold h_at. rewrite E. apply Nat.eqb_refl. }
  assert (HP : forall b a x y, bucket t b (a, x) = bucket t b (a, y)) by reflexivity.
  pose proof (c_set_filter (bucket t (h_at hash t k)) k v d Hin (HP _)) as Hf.
  rewrite (ok_chain _ _ _ H) by exact Hlt.
  destruct (c_set eqb k v d) as [d'|] eqn:E.
  - rewrite Hf. exists d'. split; [|apply ds_ins_old, c_set_some, E]. constructor; cbn.
    + apply (ok_mxs _ _ _ H).
    + apply (ok_magic _ _ _ H).
    + rewrite (ok_nbp _ _ _ H), (c_set_len _ _ _ _ E). reflexivity.
    + intros a. rewrite fupd_eq. destruct (Nat.eqb_spec a (h_at hash t k)) as [->|]; [|apply (ok_old _ _ _ H)].
      destruct (ok_old _ _ _ H (h_at hash t k)) as [Hn|]; [|auto]. exfalso.
      assert (Hc := ok_chain _ _ _ H _ Hlt). unfold h_chain in Hc. rewrite Hn in Hc.
      destruct (c_set_some _ _ _ _ E) as [d1 [k' [w [d2 [-> [H1 _]]]]]].
      assert (Hi : In (k', w) (filter (bucket t (h_at hash t k)) (d1 ++ (k', w) :: d2))).
      { apply filter_In. split; [apply in_or_app; cbn; auto|]. apply Hin; [apply in_or_app; cbn; auto | exact H1]. }
      rewrite <- Hc in Hi. destruct (_ =? _)%N in Hi; destruct Hi.
    + intros a Ha. unfold h_chain at 1; cbn. rewrite fupd_eq.
      assert (Hc := ok_chain _ _ _ H a Ha). unfold h_chain in Hc.
      change (bucket {| h_tab := fupd (h_tab t) (h_at hash t k) (filter (bucket t (h_at hash t k)) d'); h_mgc := h_mgc t; h_mxs := h_mxs t; h_magic := h_magic t; h_nbp := h_nbp t |} a) with (bucket t a).
      destruct (Nat.eqb_spec a (h_at hash t k)) as [->|Hne].
      * destruct (h_mgc t (h_at hash t k) =? h_magic t)%N; [reflexivity|]. exfalso.
        destruct (c_set_some _ _ _ _ E) as [d1 [k' [w [d2 [-> [H1 _]]]]]].
        assert (Hi : In (k', w) (filter (bucket t (h_at hash t k)) (d1 ++ (k', w) :: d2))).
        { apply filter_In. split; [apply in_or_app; cbn; auto|]. apply Hin; [apply in_or_app; cbn; auto | exact H1]. }
        rewrite <- Hc in Hi. destruct Hi.
      * rewrite Hc. symmetry. apply (c_set_other _ k v); auto. intros e He E'. specialize (Hin e He E'). unfold bucket in *.
        apply Nat.eqb_eq in Hin. rewrite Hin. now apply Nat.eqb_neq, not_eq_sym.
  - rewrite Hf. exists ((k, v) :: d). split; [now apply h_insertAt_ok|]. apply ds_ins_new. cbn. intros e He. exact (c_set_none _ _ _ E e He).
Qed.

Lemma h_clear_ok t c d : hok t c d -> (c + 1 < U32)%N -> hok (h_clear t) (c + 1) [].
Proof.
  intros H Hc. constructor; cbn.
  - apply (ok_mxs _ _ _ H).
  - rewrite (ok_magic _ _ _ H). unfold stamp, U32. zmod.
  - reflexivity.
  - intros a. destruct (ok_old _ _ _ H a) as [|[c' [H1 H2]]]; auto. right. exists c'. split; [lia | auto].
  - intros a Ha. unfold h_chain; cbn. destruct (N.eqb_spec (h_mgc t a) ((h_magic t + 1) mod U32)) as [E|]; [|reflexivity].
    destruct (ok_old _ _ _ H a) as [->|[c' [H1 H2]]]; [reflexivity|]. exfalso.
    rewrite H2, (ok_magic _ _ _ H) in E.
    assert (E' : stamp c' = stamp (c + 1)) by (rewrite E; unfold stamp, U32; zmod).
    apply stamp_inj in E'; lia.
Qed.

Lemma buckets_perm t (d : list (K * V)) n : (forall e, In e d -> (h_at hash t (fst e) < n)%nat) ->
  Permutation (flat_map (fun a => filter (bucket t a) d) (seq 0 n)) d.
Proof.
  induction d as [|e d IH]; intros H.
  - replace (flat_map _ _) with (@nil (K * V)); [constructor|]. symmetry. generalize (seq 0 n). induction l; cbn; auto.
  - assert (IH' := IH (fun x Hx => H x (or_intror Hx))).
    apply Permutation_trans with (e :: flat_map (fun a => filter (bucket t a) d) (seq 0 n)); [clear IH IH' | now constructor].
    set (b := h_at hash t (fst e)). assert (Hb : (b < n)%nat) by (apply H; cbn; auto).
    replace n with (b + S (n - b - 1))%nat by lia. rewrite seq_app, !flat_map_app. cbn [seq flat_map].
    assert (Hs : forall l, ~ In b l -> flat_map (fun a => filter (bucket t a) (e :: d)) l = flat_map (fun a => filter (bucket t a) d) l).
    { induction l as [|x l IHl]; intros Hn; cbn [flat_map]; auto. rewrite IHl by (cbn in Hn; tauto). f_equal. cbn [filter]. unfold bucket at 1.
      fold b. destruct (Nat.eqb_spec b x); [cbn in Hn; subst; tauto | reflexivity]. }
    rewrite !Hs by (rewrite in_seq; lia).
    cbn [filter]. unfold bucket at 2. cbn [Nat.add]. fold b. rewrite Nat.eqb_refl. cbn [app].
    symmetry. apply Permutation_middle.
Qed.
Lemma h_all_ok t c d : hok t c d -> Permutation (h_doOnAll t) d.
Proof.
  intros H. unfold h_doOnAll.
  replace (flat_map (h_chain t) (seq 0 (N.to_nat (h_mxs t)))) with (flat_map (fun a => filter (bucket t a) d) (seq 0 (N.to_nat (h_mxs t)))).
  - apply buckets_perm. intros e _. apply h_at_lt, (ok_mxs _ _ _ H).
  - rewrite !flat_map_concat_map. f_equal. apply map_ext_in. intros a Ha. apply in_seq in Ha. symmetry. apply (ok_chain _ _ _ H). lia.
Qed.

Lemma h_do_ok t c d o r t' : hok t c d -> (c + clears [o] < U32)%N -> h_do hash eqb t o = (r, t') ->
  exists d', hok t' (c + clears [o]) d' /\ dict_step eqb d o r d'.
Proof.
  intros H Hc E. destruct o; cbn [h_do clears h_getLoc fst snd] in *; injection E as <- <-; try rewrite !N.add_0_r in *.
  - exists d. split; [exact H|]. constructor. eapply h_get_ok; eauto.
  - exists ((k, v) :: d). split; [now apply h_insertAt_ok | constructor].
  - exists ((k, v) :: d). split; [now apply h_insertAt_ok | constructor].
  - now apply h_insert_ok.
  - exists []. split; [eapply h_clear_ok; eauto | constructor].
  - exists d. split; [exact H|]. unfold h_size. rewrite (ok_nbp _ _ _ H). constructor.
  - exists d. split; [exact H|]. constructor. eapply h_all_ok; eauto.
Qed.
Lemma clears_cons (o : hop K V) os : clears (o :: os) = (clears [o] + clears os)%N.
Proof. destruct o; cbn; lia. Qed.
Lemma h_run_ok os : forall t c d rs t', hok t c d -> (c + clears os < U32)%N -> h_run hash eqb t os = (rs, t') ->
  exists d', hok t' (c + clears os) d' /\ dict_run eqb d os rs d'.
Proof.
  induction os as [|o os IH]; intros t c d rs t' H Hc E; cbn [h_run] in E.
  - injection E as <- <-. exists d. cbn. rewrite N.add_0_r. split; [exact H | constructor].
  - destruct (h_do hash eqb t o) as [r t1] eqn:E1. destruct (h_run hash eqb t1 os) as [rs2 t2] eqn:E2. injection E as <- <-.
    rewrite clears_cons in Hc. destruct (h_do_ok t c d o r t1 H) as [d1 [H1 S1]]; [lia | auto |].
    destruct (IH t1 _ d1 rs2 t2 H1) as [d2 [H2 S2]]; [lia | auto |].
    exists d2. rewrite clears_cons, N.add_assoc. split; [exact H2 | econstructor; eauto].
Qed.

Lemma h_new_inv sz (t : tab) : h_new sz = Ok t -> exists mxs, pick 512 sz = Ok mxs /\ t = mkH (fun _ => []) (fun _ => 0%N) mxs 1 0.
Proof.
  unfold h_new. generalize (pick 512 sz). intros [m|e] E; cbn [bind] in E; [|discriminate]. injection E as <-. exists m. auto.
Qed.
Lemma h_new_ok sz t : (2 <= sz)%N -> @h_new K V sz = Ok t -> hok t 0 [].
Proof.
  intros Hsz E. destruct (pick_ok sz Hsz) as [mxs [Ep [Hin _]]]. apply h_new_inv in E as [m [E ->]].
  assert (Em : m = mxs) by congruence. subst m. apply primes_pos in Hin. clear E Ep.
  constructor; cbn [h_mxs h_magic h_nbp h_tab h_mgc]; auto; lia.
Qed.
Lemma dict_table sz (t : tab) os rs t' : (2 <= sz)%N -> h_new sz = Ok t -> (clears os < 4294967296)%N -> h_run hash eqb t os = (rs, t') ->
  exists d, dict_run eqb [] os rs d /\ h_size t' = (N.of_nat (length d) mod 4294967296)%N.
Proof.
  intros Hsz E Hc Er. destruct (h_run_ok os t 0 [] rs t' (h_new_ok sz t Hsz E)) as [d [Hd Hr]]; [unfold U32; lia | exact Er|].
  exists d. split; [exact Hr|]. unfold h_size. rewrite (ok_nbp _ _ _ Hd). reflexivity.
Qed.
(** the final dictionary of a history without Hashtable::insert: what was inserted since the last clear *)
Lemma dict_run_since (os : list (hop K V)) : (forall k v, ~ In (HInsert k v) os) -> forall d rs d', dict_run eqb d os rs d' -> d' = since_clear d os.
Proof.
  induction os as [|o os IH]; intros Hn d rs d' H; inversion H; subst; cbn [since_clear]; auto.
  assert (Hn' : forall k v, ~ In (HInsert k v) os) by (intros k v Hi; apply (Hn k v); cbn; auto).
  match goal with Hs : dict_step _ _ _ _ _ |- _ => inversion Hs; subst end; cbn [since_clear];
  try (eapply IH; eauto; fail); exfalso; eapply Hn; cbn; eauto.
Qed.
Lemma h_run_app os1 : forall (t : tab) os2, h_run hash eqb t (os1 ++ os2) =
  (fst (h_run hash eqb t os1) ++ fst (h_run hash eqb (snd (h_run hash eqb t os1)) os2), snd (h_run hash eqb (snd (h_run hash eqb t os1)) os2)).
Proof.
  induction os1 as [|o os1 IH]; intros t os2; cbn [h_run app fst snd].
  - destruct (h_run hash eqb t os2); reflexivity.
  - destruct (h_do hash eqb t o) as [r t1]. rewrite IH. destruct (h_run hash eqb t1 os1) as [rs t2]. cbn [fst snd]. reflexivity.
Qed.
(** the statement about a look-up after any history *)
Lemma lookup_since sz t os k : (2 <= sz)%N -> @h_new K V sz = Ok t -> (clears os < 4294967296)%N -> (forall k v, ~ In (HInsert k v) os) ->
  looks_up eqb (since_clear [] os) k (snd (h_getLoc hash eqb (snd (h_run hash eqb t os)) k)) /\
  Permutation (h_doOnAll (snd (h_run hash eqb t os))) (since_clear [] os) /\
  h_size (snd (h_run hash eqb t os)) = (N.of_nat (length (since_clear [] os)) mod 4294967296)%N.
Proof.
  intros Hsz E Hc Hn. destruct (h_run hash eqb t os) as [rs t'] eqn:Er.
  destruct (h_run_ok os t 0 [] rs t' (h_new_ok sz t Hsz E)) as [d [Hd Hr]]; [unfold U32; lia | exact Er|].
  rewrite <- (dict_run_since os Hn _ _ _ Hr). cbn [snd]. split; [|split].
  - cbn. eapply h_get_ok; eauto.
  - eapply h_all_ok; eauto.
  - unfold h_size. rewrite (ok_nbp _ _ _ Hd). reflexivity.
Qed.
(** clear() [n] times adds [n] to the magic number *)
Lemma run_clears n (t : tab) : snd (h_run hash eqb t (repeat HClear n)) =
  mkH (h_tab t) (h_mgc t) (h_mxs t) (if (n =? 0)%nat then h_magic t else (h_magic t + N.of_nat n) mod U32)%N (if (n =? 0)%nat then h_nbp t else 0%N).
Proof.
  revert t. induction n as [|n IH]; intros t; [destruct t; reflexivity|].
  cbn [repeat h_run h_do]. destruct (h_run hash eqb (h_clear t) (repeat HClear n)) as [rs t2] eqn:E. cbn [snd].
  specialize (IH (h_clear t)). rewrite E in IH. cbn [snd] in IH. rewrite IH. unfold h_clear; cbn [h_tab h_mgc h_mxs h_magic h_nbp].
  cbn [Nat.eqb]. destruct (n =? 0)%nat eqn:E0.
  - f_equal. f_equal. f_equal. lia.
  - f_equal. unfold U32. zmod.
Qed.
End Dict.
