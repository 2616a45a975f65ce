(** Proofs about Vec. *)
From Verif Require Import Base VecModel VecSpec.
From Coq Require Import Nnat.

Section VecProofs.
Context {T : Type} (junk : T) (W : N).
Hypothesis HW : (4294967296 <= W)%N.
Notation vst := (vst T).
Notation env := (nat -> option (list T)).

(** vector [i] holds [l] *)
Definition good (s : vst) (i : nat) (l : list T) : Prop :=
  let v := s_vec s i in
  v_sz v = N.of_nat (length l) /\ (v_msz v < W)%N /\
  match v_data v with
  | None => l = [] /\ v_msz v = 0%N
  | Some b => b < s_nblk s /\ length (s_blk s b) = N.to_nat (v_msz v) /\ length l <= length (s_blk s b) /\
              forall k, k < length l -> nth_error (s_blk s b) k = nth_error l k
  end.
Definition small (l : list T) : Prop := (N.of_nat (length l) < limit)%N.
Record vok (s : vst) (E : env) : Prop := {
  o_good : forall i l, E i = Some l -> good s i l /\ small l;
  o_sep : forall i j b, E i <> None -> E j <> None -> v_data (s_vec s i) = Some b -> v_data (s_vec s j) = Some b -> i = j }.

(** only vector [i] and block [d] may have changed; the block of [i] is now none, [d] or a new one *)
Definition chg (s s' : vst) (i : nat) (d : option nat) : Prop :=
  (forall j, j <> i -> s_vec s' j = s_vec s j) /\
  (forall b, b < s_nblk s -> d <> Some b -> s_blk s' b = s_blk s b) /\
  s_nblk s <= s_nblk s' /\
  match v_data (s_vec s' i) with None => True | Some b => d = Some b \/ s_nblk s <= b end.

Lemma vok_chg s s' E i d l : vok s E -> chg s s' i d -> (d = None \/ E i <> None /\ d = v_data (s_vec s i)) -> good s' i l -> small l ->
  vok s' (fupd E i (Some l)).
Proof.
  intros H [C1 [C2 [C3 C4]]] Hd Hg Hsm.
  assert (Hb : forall j lj b, j <> i -> E j = Some lj -> v_data (s_vec s j) = Some b -> b < s_nblk s /\ d <> Some b).
  { intros j lj b Hj Ej Db. destruct (o_good _ _ H j lj Ej) as [[_ [_ G]] _]. rewrite Db in G. split; [tauto|].
    destruct Hd as [->|[Hi ->]]; [discriminate|]. intros Ei. apply Hj. eapply (o_sep _ _ H); eauto. congruence. }
  constructor.
  - intros j lj. rewrite fupd_eq. destruct (Nat.eqb_spec j i) as [->|Hj]; [intros [= <-]; auto|]. intros Ej.
    destruct (o_good _ _ H j lj Ej) as [G Hs]. split; [|exact Hs]. unfold good in *. rewrite (C1 j Hj).
    destruct G as [G1 [G2 G3]]. split; [exact G1|]. split; [exact G2|].
    destruct (v_data (s_vec s j)) as [b|] eqn:Db; [|exact G3].
    destruct (Hb j lj b Hj Ej Db) as [Hlt Hne]. rewrite (C2 b Hlt Hne). split; [lia | tauto].
  - intros j k b. rewrite !fupd_eq. destruct (Nat.eqb_spec j i) as [->|Hj], (Nat.eqb_spec k i) as [->|Hk]; auto.
    + intros _ Ek Di Dk. rewrite (C1 k Hk) in Dk. destruct (E k) as [lk|] eqn:Ek'; [|congruence].
      destruct (Hb k lk b Hk Ek' Dk) as [Hlt Hne]. rewrite Di in C4. destruct C4; [contradiction | lia].
    + intros Ej _ Dj Di. rewrite (C1 j Hj) in Dj. destruct (E j) as [lj|] eqn:Ej'; [|congruence].
      destruct (Hb j lj b Hj Ej' Dj) as [Hlt Hne]. rewrite Di in C4. destruct C4; [contradiction | lia].
    + intros Ej Ek Dj Dk. rewrite (C1 j Hj) in Dj. rewrite (C1 k Hk) in Dk. eapply (o_sep _ _ H); eauto.
Qed.

Lemma upd_length l k (x : T) : length (upd l k x) = length l.
Proof. revert k. induction l; intros [|k]; cbn; auto. Qed.
Lemma upd_nth l k (x : T) j : k < length l -> nth_error (upd l k x) j = if j =? k then Some x else nth_error l j.
Proof.
  revert k j. induction l as [|a l IH]; intros k j Hk; cbn in *; [lia|].
  destruct k as [|k], j as [|j]; cbn; auto. apply IH. lia.
Qed.
Lemma nth_ok {A} (l : list A) k : k < length l -> exists x, nth_error l k = Some x.
Proof. intros H. destruct (nth_error l k) eqn:E; [eauto|]. apply nth_error_None in E. lia. Qed.
Lemma nth_ext' {A} (l m : list A) : (forall j, nth_error l j = nth_error m j) -> l = m.
Proof.
  revert m. induction l as [|a l IH]; intros [|b m] H; auto; [discriminate (H 0) | discriminate (H 0) |].
  injection (H 0) as ->. f_equal. apply IH. intros j. exact (H (S j)).
Qed.

Lemma cpy_ok n : forall (s : vst) b c i, N.to_nat i + n <= length (s_blk s b) -> N.to_nat i + n <= length (s_blk s c) ->
  exists s', cpy s (Some b) (Some c) n i = Ok s' /\ s_vec s' = s_vec s /\ s_nblk s' = s_nblk s /\
    (forall b', b' <> b -> s_blk s' b' = s_blk s b') /\ length (s_blk s' b) = length (s_blk s b) /\
    forall k, nth_error (s_blk s' b) k = if (N.to_nat i <=? k) && (k <? N.to_nat i + n) then nth_error (s_blk s c) k else nth_error (s_blk s b) k.
Proof.
  induction n as [|n IH]; intros s b c i Hb Hc; cbn [cpy].
  - exists s. repeat split; auto. intros k. destruct ((N.to_nat i <=? k) && (k <? N.to_nat i + 0)) eqn:E; [lia | reflexivity].
  - unfold rd at 1. destruct (nth_ok (s_blk s c) (N.to_nat i)) as [x Ex]; [lia|]. rewrite Ex. cbn [bind].
    unfold wr at 1. destruct (i <? N.of_nat (length (s_blk s b)))%N eqn:El; [|lia]. cbn [bind].
    set (s1 := mkVS (s_vec s) (fupd (s_blk s) b (upd (s_blk s b) (N.to_nat i) x)) (s_nblk s)).
    assert (Eb : s_blk s1 b = upd (s_blk s b) (N.to_nat i) x) by (cbn; apply fupd_same).
    assert (Ec : length (s_blk s1 c) = length (s_blk s c)) by (cbn; rewrite fupd_eq; destruct (Nat.eqb_spec c b) as [->|]; [apply upd_length | reflexivity]).
    destruct (IH s1 b c (i + 1)%N) as [s2 [E2 [V2 [N2 [O2 [L2 K2]]]]]].
    { rewrite Eb, upd_length. lia. } { rewrite Ec. lia. }
    rewrite E2. exists s2. split; [reflexivity|]. split; [exact V2|]. split; [exact N2|]. split.
    { intros b' Hb'. rewrite (O2 b' Hb'). cbn. apply fupd_diff, Hb'. } split; [rewrite L2, Eb; apply upd_length|].
    intros k. rewrite K2, Eb, upd_nth by lia.
    assert (Ek : nth_error (s_blk s1 c) k = if (c =? b) && (k =? N.to_nat i) then Some x else nth_error (s_blk s c) k).
    { cbn. rewrite fupd_eq. destruct (Nat.eqb_spec c b) as [->|]; cbn [andb]; [apply upd_nth; lia | reflexivity]. }
    rewrite Ek. clear Ek. destruct (Nat.eqb_spec k (N.to_nat i)) as [Hk|Hk]; [subst k|].
    + destruct ((N.to_nat (i + 1) <=? N.to_nat i) && (N.to_nat i <? N.to_nat (i + 1) + n)) eqn:E3; [lia|].
      destruct ((N.to_nat i <=? N.to_nat i) && (N.to_nat i <? N.to_nat i + S n)) eqn:E4; [auto | lia].
    + rewrite andb_false_r.
      destruct ((N.to_nat (i + 1) <=? k) && (k <? N.to_nat (i + 1) + n)) eqn:E3, ((N.to_nat i <=? k) && (k <? N.to_nat i + S n)) eqn:E4; auto; lia.
Qed.

(** the doubling *)
Lemma grow_ok fuel : forall p n, (p < limit)%N -> (1 <= n < W)%N -> (p < n * 2 ^ N.of_nat fuel)%N ->
  exists m, grow W fuel p n = Ok m /\ (p < m < W)%N /\ (n <= m)%N /\ (n = m \/ n <= p)%N.
Proof.
  induction fuel as [|f IH]; intros p n Hp Hn Hf; cbn [grow].
  - change (2 ^ N.of_nat 0)%N with 1%N in Hf. destruct (n <=? p)%N eqn:E; [lia|]. exists n. repeat split; try lia.
  - destruct (n <=? p)%N eqn:E; [|exists n; repeat split; lia].
    unfold limit in *. rewrite N.mod_small by lia.
    destruct (IH p (2 * n)%N) as [m [E1 [H1 [H2 _]]]]; [lia | lia | |].
    + rewrite Nat2N.inj_succ, N.pow_succ_r' in Hf. lia.
    + exists m. split; [exact E1|]. repeat split; try lia.
Qed.

Lemma makeValid_ok s i l p : good s i l -> (p < limit)%N ->
  exists s', makeValid junk W s i p = Ok s' /\ chg s s' i (v_data (s_vec s i)) /\ good s' i l /\ (p < v_msz (s_vec s' i))%N.
Proof.
  intros [G1 [G2 G3]] Hp. unfold makeValid. set (v := s_vec s i) in *.
  destruct (grow_ok 65 p (if (v_msz v =? 0)%N then 1 else v_msz v)%N Hp) as [m [Em [Hm1 [Hm2 Hm3]]]].
  { destruct (v_msz v =? 0)%N eqn:E0; lia. }
  { change (2 ^ N.of_nat 65)%N with 36893488147419103232%N. unfold limit in *. destruct (v_msz v =? 0)%N eqn:E0; lia. }
  rewrite Em. cbn [bind]. destruct (m =? v_msz v)%N eqn:Ee.
  - exists s. split; [reflexivity|]. split; [|split; [unfold good; fold v; auto | fold v; lia]].
    split; [auto|]. split; [auto|]. split; [lia|]. fold v. destruct (v_data v); auto.
  - unfold alloc. cbn [fst snd].
    set (s1 := mkVS (s_vec s) (fupd (s_blk s) (s_nblk s) (repeat junk (N.to_nat m))) (S (s_nblk s))).
    assert (E1 : s_blk s1 (s_nblk s) = repeat junk (N.to_nat m)) by (cbn; apply fupd_same).
    assert (Hle : (v_msz v <= m)%N) by (destruct (v_msz v =? 0)%N eqn:E0; lia).
    assert (Hcp : exists s2, cpy s1 (Some (s_nblk s)) (v_data v) (N.to_nat (v_msz v)) 0 = Ok s2 /\ s_vec s2 = s_vec s1 /\ s_nblk s2 = s_nblk s1 /\
      (forall b', b' <> s_nblk s -> s_blk s2 b' = s_blk s1 b') /\ length (s_blk s2 (s_nblk s)) = N.to_nat m /\
      (forall k, k < length l -> nth_error (s_blk s2 (s_nblk s)) k = nth_error l k)).
    { destruct (v_data v) as [b|] eqn:Db.
      - destruct G3 as [Hb [Hlen [Hll Hk]]].
        assert (Eb : s_blk s1 b = s_blk s b) by (cbn; apply fupd_diff; lia).
        destruct (cpy_ok (N.to_nat (v_msz v)) s1 (s_nblk s) b 0%N) as [s2 [E2 [V2 [N2 [O2 [L2 K2]]]]]].
        { rewrite E1, repeat_length. lia. } { rewrite Eb. lia. }
        exists s2. split; [exact E2|]. split; [exact V2|]. split; [exact N2|]. split; [exact O2|]. split; [rewrite L2, E1; apply repeat_length|].
        intros k Hkl. rewrite K2, Eb. destruct ((N.to_nat 0 <=? k) && (k <? N.to_nat 0 + N.to_nat (v_msz v))) eqn:E3; [auto | lia].
      - destruct G3 as [-> G3]. rewrite G3. exists s1. split; [reflexivity|]. split; [reflexivity|]. split; [reflexivity|]. split; [auto|].
        split; [rewrite E1; apply repeat_length|]. cbn; lia. }
    destruct Hcp as [s2 [E2 [V2 [N2 [O2 [L2 K2]]]]]]. rewrite E2. cbn [bind].
    eexists. split; [reflexivity|]. change (s_nblk s1) with (S (s_nblk s)) in N2. split; [|split].
    + unfold chg, set_vec; cbn [s_vec s_blk s_nblk]. rewrite fupd_same. cbn [v_data]. split; [|split; [|split]].
      * intros j Hj. rewrite fupd_diff by auto. rewrite V2. reflexivity.
      * intros b Hb _. rewrite O2 by lia. cbn. apply fupd_diff. lia.
      * lia.
      * right. lia.
    + unfold good, set_vec; cbn [s_vec s_blk s_nblk]. rewrite fupd_same. cbn [v_sz v_msz v_data]. split; [exact G1|]. split; [lia|].
      split; [lia|]. split; [exact L2|]. split; [|exact K2]. rewrite L2.
      destruct (v_data v); [destruct G3 as [_ [Hlen [Hll _]]]; lia | destruct G3 as [-> _]; cbn; lia].
    + unfold set_vec; cbn [s_vec]. rewrite fupd_same. cbn. lia.
Qed.

(** write inside the allocation *)
Lemma at_ok s i k x l : good s i l -> (k < v_msz (s_vec s i))%N ->
  exists s' b, v_data (s_vec s i) = Some b /\ b < s_nblk s /\ at_ s i k x = Ok s' /\ s_vec s' = s_vec s /\ s_nblk s' = s_nblk s /\
    (forall b', b' <> b -> s_blk s' b' = s_blk s b') /\ length (s_blk s' b) = length (s_blk s b) /\ length (s_blk s b) = N.to_nat (v_msz (s_vec s i)) /\
    forall j, nth_error (s_blk s' b) j = if j =? N.to_nat k then Some x else nth_error (s_blk s b) j.
Proof.
  intros [G1 [G2 G3]] Hk. unfold at_, wr. destruct (v_data (s_vec s i)) as [b|]; [|lia].
  destruct G3 as [Hb [Hlen [Hll Hkk]]]. destruct (k <? N.of_nat (length (s_blk s b)))%N eqn:E; [|lia].
  eexists. exists b. split; [reflexivity|]. split; [exact Hb|]. split; [reflexivity|]. cbn [s_vec s_nblk s_blk]. split; [reflexivity|]. split; [reflexivity|].
  split; [intros b' Hb'; apply fupd_diff, Hb'|]. rewrite fupd_same. split; [apply upd_length|]. split; [exact Hlen|]. intros j. apply upd_nth. lia.
Qed.

Lemma chg_trans s s1 s2 i d : chg s s1 i d -> chg s1 s2 i (v_data (s_vec s1 i)) -> chg s s2 i d.
Proof.
  intros [A1 [A2 [A3 A4]]] [B1 [B2 [B3 B4]]]. split; [|split; [|split]].
  - intros j Hj. rewrite B1, A1; auto.
  - intros b Hb Hd. rewrite B2; [apply A2; auto | lia|]. intros E. rewrite E in A4. destruct A4; [contradiction | lia].
  - lia.
  - destruct (v_data (s_vec s2 i)) as [b|]; [|exact I]. destruct B4 as [E|Hge]; [|right; lia].
    rewrite E in A4. destruct A4 as [A4|A4]; [left; exact A4 | right; lia].
Qed.

(** after writing [x] at position [k] and setting the size to n *)
Lemma at_sz_good s i k x l n l' : good s i l -> (k < v_msz (s_vec s i))%N -> n = N.of_nat (length l') -> (n <= v_msz (s_vec s i))%N ->
  (forall b, v_data (s_vec s i) = Some b -> forall j, j < length l' -> nth_error l' j = if j =? N.to_nat k then Some x else nth_error (s_blk s b) j) ->
  exists s', at_ s i k x = Ok s' /\ s_vec s' = s_vec s /\ chg s (set_sz s' i n) i (v_data (s_vec s i)) /\ good (set_sz s' i n) i l'.
Proof.
  intros G Hk -> Hn Hl'. destruct (at_ok s i k x l G Hk) as [s' [b [Db [Hb [E [V [Nb [O [L1 [L2 K]]]]]]]]]].
  exists s'. split; [exact E|]. split; [exact V|]. split.
  - unfold chg, set_sz, set_vec; cbn [s_vec s_blk s_nblk]. rewrite fupd_same. cbn [v_data]. split; [|split; [|split]].
    + intros j Hj. rewrite fupd_diff by auto. rewrite V. reflexivity.
    + intros b' Hb' Hd. apply O. congruence.
    + lia.
    + rewrite V, Db. left; reflexivity.
  - unfold good, set_sz, set_vec; cbn [s_vec s_blk s_nblk]. rewrite fupd_same. cbn [v_sz v_msz v_data]. rewrite V.
    destruct G as [_ [G2 _]]. split; [reflexivity|]. split; [exact G2|]. rewrite Db. split; [lia|]. split; [lia|]. split; [lia|].
    intros j Hj. rewrite K. symmetry. apply (Hl' b Db j Hj).
Qed.
(** only the size changes *)
Lemma sz_good s i n l l' : good s i l -> n = N.of_nat (length l') -> length l' <= length l -> (forall j, j < length l' -> nth_error l' j = nth_error l j) ->
  chg s (set_sz s i n) i (v_data (s_vec s i)) /\ good (set_sz s i n) i l'.
Proof.
  intros [G1 [G2 G3]] -> Hle Hk. split.
  - unfold chg, set_sz, set_vec; cbn [s_vec s_blk s_nblk]. rewrite fupd_same. cbn [v_data]. split; [|split; [|split]]; auto.
    + intros j Hj. now rewrite fupd_diff by auto.
    + destruct (v_data (s_vec s i)); auto.
  - unfold good, set_sz, set_vec; cbn [s_vec s_blk s_nblk]. rewrite fupd_same. cbn [v_sz v_msz v_data].
    split; [reflexivity|]. split; [exact G2|]. destruct (v_data (s_vec s i)) as [b|].
    + destruct G3 as [Hb [Hlen [Hll Hkk]]]. split; [exact Hb|]. split; [exact Hlen|]. split; [lia|]. intros j Hj. rewrite Hkk by lia. symmetry. auto.
    + destruct G3 as [-> G3]. destruct l'; [auto | cbn in Hle; lia].
Qed.
Lemma rd_ok s i l k : good s i l -> N.to_nat k < length l -> exists x, rd s (v_data (s_vec s i)) k = Ok x /\ nth_error l (N.to_nat k) = Some x.
Proof.
  intros [G1 [G2 G3]] Hk. unfold rd. destruct (v_data (s_vec s i)) as [b|].
  - destruct G3 as [_ [_ [_ Hkk]]]. rewrite Hkk by auto. destruct (nth_ok l _ Hk) as [x ->]. eauto.
  - destruct G3 as [-> _]. cbn in Hk. lia.
Qed.
Lemma walk_ok s i l : good s i l -> forall n k, N.to_nat k + n = length l -> v_walk s (v_data (s_vec s i)) n k = Ok (skipn (N.to_nat k) l).
Proof.
  intros G. induction n as [|n IH]; intros k Hk; cbn [v_walk].
  - rewrite skipn_all2 by lia. reflexivity.
  - destruct (rd_ok s i l k G) as [x [E Ex]]; [lia|]. rewrite E. cbn [bind]. rewrite IH by lia. cbn [bind].
    replace (N.to_nat (k + 1)) with (S (N.to_nat k)) by lia. f_equal.
    clear - Ex. revert Ex. generalize (N.to_nat k). intros m. revert l. induction m as [|m IHm]; intros [|a l] Ex; cbn in *; try discriminate.
    + injection Ex as ->. reflexivity.
    + apply IHm, Ex.
Qed.
Lemma split_at {A} (l : list A) k : k < length l -> exists l1 y l2, l = l1 ++ y :: l2 /\ length l1 = k.
Proof.
  intros H. destruct (nth_ok l k H) as [y Ey]. apply nth_error_split in Ey as [l1 [l2 [E L]]]. exists l1, y, l2. auto.
Qed.
Lemma split_last {A} (l : list A) : 0 < length l -> exists l1 x, l = l1 ++ [x].
Proof. intros H. destruct (exists_last (l := l)) as [l1 [x ->]]; [destruct l; [cbn in H; lia | discriminate]|]. eauto. Qed.
Lemma dec_pos n : (0 < n)%N -> dec W n = (n - 1)%N.
Proof. intros H. unfold dec. destruct (n =? 0)%N eqn:E; [lia | reflexivity]. Qed.

(** fresh arrays *)
Lemma new_arr_ok s n : exists d s', new_arr junk s n = (d, s') /\ s_vec s' = s_vec s /\ s_nblk s <= s_nblk s' /\
  (forall b, b < s_nblk s -> s_blk s' b = s_blk s b) /\
  match d with None => n = 0%N | Some b => s_nblk s <= b < s_nblk s' /\ s_blk s' b = repeat junk (N.to_nat n) /\ (0 < n)%N end.
Proof.
  unfold new_arr, alloc. destruct (0 <? n)%N eqn:E.
  - do 2 eexists. split; [reflexivity|]. cbn [s_vec s_nblk s_blk]. split; [reflexivity|]. split; [lia|]. split; [intros b Hb; apply fupd_diff; lia|].
    split; [lia|]. split; [apply fupd_same | lia].
  - do 2 eexists. split; [reflexivity|]. split; [reflexivity|]. split; [lia|]. split; [auto | lia].
Qed.

(** lengths of an environment *)
Definition shape (E : env) (sh : nat -> option N) : Prop := forall i, sh i = match E i with Some l => Some (N.of_nat (length l)) | None => None end.
Lemma shape_upd E sh i l : shape E sh -> shape (fupd E i (Some l)) (fupd sh i (Some (N.of_nat (length l)))).
Proof. intros H j. rewrite !fupd_eq. destruct (j =? i); auto. Qed.
Lemma shape_none E sh i : shape E sh -> shape (fupd E i None) (fupd sh i None).
Proof. intros H j. rewrite !fupd_eq. destruct (j =? i); auto. Qed.
Lemma shape_some E sh i n : shape E sh -> sh i = Some n -> exists l, E i = Some l /\ n = N.of_nat (length l).
Proof. intros H Hs. rewrite H in Hs. destruct (E i) as [l|]; [injection Hs as <-; eauto | discriminate]. Qed.
Lemma shape_upd' E sh i l n : shape E sh -> n = N.of_nat (length l) -> shape (fupd E i (Some l)) (fupd sh i (Some n)).
Proof. intros H ->. apply shape_upd, H. Qed.

(** fields of a vector taken over from [j] *)
Lemma vok_kill s E i : vok s E -> vok s (fupd E i None).
Proof.
  intros H. constructor.
  - intros j l. rewrite fupd_eq. destruct (j =? i); [discriminate | apply (o_good _ _ H)].
  - intros j k b. rewrite !fupd_eq. destruct (j =? i); [congruence|]. destruct (k =? i); [congruence|]. apply (o_sep _ _ H).
Qed.

Lemma assign_ok s i j li l : good s i li -> good s j l -> small l -> (i <> j -> forall b, v_data (s_vec s i) = Some b -> v_data (s_vec s j) = Some b -> False) ->
  exists s', v_assign junk s i j = Ok s' /\ chg s s' i (v_data (s_vec s i)) /\ good s' i l.
Proof.
  intros Gi Gj Hsm Hsep. unfold v_assign.
  assert (Hl32 : loop32 (v_sz (s_vec s j)) = Ok tt).
  { unfold loop32. destruct Gj as [-> _]. unfold small, limit in Hsm. destruct (_ <=? _)%N eqn:E; [reflexivity | lia]. }
  rewrite Hl32. cbn [bind].
  assert (Hsz : v_sz (s_vec s j) = N.of_nat (length l)) by apply Gj. rewrite Hsz, Nat2N.id.
  destruct (v_msz (s_vec s i) <? v_msz (s_vec s j))%N eqn:Elt.
  - (* a new array *)
    assert (Hij : i <> j) by (intros ->; lia).
    destruct (new_arr_ok s (v_msz (s_vec s j))) as [d [s1 [E1 [V1 [N1 [B1 D1]]]]]]. rewrite E1.
    cbn [s_vec set_vec]. rewrite V1, fupd_same. rewrite (fupd_diff _ i _ j) by auto. cbn [v_data].
    destruct d as [b|]; [|lia]. destruct D1 as [Hb [Eb _]].
    destruct Gj as [_ [Gj2 Gj3]]. destruct (v_data (s_vec s j)) as [c|] eqn:Dc.
    + destruct Gj3 as [Hc [Hlen [Hll Hk]]].
      set (s2 := mkVS (fupd (s_vec s) i (mkV (v_sz (s_vec s i)) (v_msz (s_vec s j)) (Some b))) (s_blk s1) (s_nblk s1)).
      destruct (cpy_ok (length l) s2 b c 0%N) as [s3 [E3 [V3 [N3 [O3 [L3 K3]]]]]].
      { cbn. rewrite Eb, repeat_length. lia. } { cbn. rewrite (B1 c Hc). lia. }
      fold (set_vec s1 i (mkV (v_sz (s_vec s i)) (v_msz (s_vec s j)) (Some b))).
      replace (set_vec s1 i (mkV (v_sz (s_vec s i)) (v_msz (s_vec s j)) (Some b))) with s2 by (unfold set_vec, s2; rewrite V1; reflexivity).
      rewrite E3. cbn [bind]. eexists. split; [reflexivity|].
      unfold chg, good, set_sz, set_vec; cbn [s_vec s_blk s_nblk]. rewrite fupd_same, V3. cbn [s_vec s2]. rewrite fupd_same. cbn [v_data v_sz v_msz].
      cbn [s_nblk s_blk s2] in *. rewrite N3. split; [split; [|split; [|split]]|].
      * intros k Hki. rewrite !fupd_diff by auto. reflexivity.
      * intros b' Hb' _. rewrite O3 by lia. apply B1. exact Hb'.
      * exact N1.
      * right. lia.
      * split; [reflexivity|]. split; [exact Gj2|]. split; [lia|]. split; [rewrite L3, Eb; apply repeat_length|]. split; [rewrite L3, Eb, repeat_length; lia|].
        intros k Hkl. rewrite K3. rewrite (B1 c Hc). destruct ((N.to_nat 0 <=? k) && (k <? N.to_nat 0 + length l)) eqn:E4; [apply Hk; exact Hkl | lia].
    + lia.
  - (* the array is large enough *)
    destruct Gi as [Gi1 [Gi2 Gi3]]. destruct Gj as [_ [Gj2 Gj3]].
    destruct (v_data (s_vec s j)) as [c|] eqn:Dc.
    + destruct Gj3 as [Hc [Hlen [Hll Hk]]]. destruct (v_data (s_vec s i)) as [b|] eqn:Db.
      * destruct Gi3 as [Hb [Hlenb [Hllb Hkb]]].
        destruct (cpy_ok (length l) s b c 0%N) as [s3 [E3 [V3 [N3 [O3 [L3 K3]]]]]]; [lia | lia|].
        rewrite E3. cbn [bind]. eexists. split; [reflexivity|].
        unfold chg, good, set_sz, set_vec; cbn [s_vec s_blk s_nblk]. rewrite fupd_same, V3. cbn [v_data v_sz v_msz]. rewrite Db, N3.
        split; [split; [|split; [|split]]|].
        -- intros k Hki. rewrite fupd_diff by auto. reflexivity.
        -- intros b' Hb' Hd. apply O3. congruence.
        -- lia.
        -- left; reflexivity.
        -- split; [reflexivity|]. split; [exact Gi2|]. split; [exact Hb|]. split; [lia|]. split; [lia|].
           intros k Hkl. rewrite K3. destruct ((N.to_nat 0 <=? k) && (k <? N.to_nat 0 + length l)) eqn:E4; [apply Hk; exact Hkl | lia].
      * destruct Gi3 as [-> Gi3]. assert (v_msz (s_vec s j) = 0)%N by lia. assert (length l = 0) by lia.
        destruct l; [|cbn in *; lia]. cbn [length cpy bind]. eexists. split; [reflexivity|].
        unfold chg, good, set_sz, set_vec; cbn [s_vec s_blk s_nblk]. rewrite fupd_same. cbn [v_data v_sz v_msz length]. rewrite Db.
        split; [split; [|split; [|split]]|]; auto. intros k Hki. rewrite fupd_diff by auto. reflexivity.
    + destruct Gj3 as [-> Gj3]. cbn [length cpy bind]. eexists. split; [reflexivity|].
      unfold chg, good, set_sz, set_vec; cbn [s_vec s_blk s_nblk]. rewrite fupd_same. cbn [v_data v_sz v_msz length].
      split; [split; [|split; [|split]]|]; auto.
      * intros k Hki. rewrite fupd_diff by auto. reflexivity.
      * destruct (v_data (s_vec s i)); auto.
      * split; [reflexivity|]. split; [exact Gi2|]. destruct (v_data (s_vec s i)) as [b|].
        -- destruct Gi3 as [Hb [Hlenb _]]. split; [exact Hb|]. split; [exact Hlenb|]. cbn. split; [lia|]. intros k Hk. lia.
        -- destruct Gi3 as [_ Gi3]. auto.
Qed.

Lemma copy_ok s i j l : good s j l -> small l -> exists s', v_copy junk s i j = Ok s' /\ chg s s' i None /\ good s' i l.
Proof.
  intros Gj Hsm. unfold v_copy.
  assert (Hl32 : loop32 (v_sz (s_vec s j)) = Ok tt).
  { unfold loop32. destruct Gj as [-> _]. unfold small, limit in Hsm. destruct (_ <=? _)%N eqn:E; [reflexivity | lia]. }
  destruct (new_arr_ok s (v_msz (s_vec s j))) as [d [s1 [E1 [V1 [N1 [B1 D1]]]]]]. rewrite E1, Hl32. cbn [bind].
  destruct Gj as [Gj1 [Gj2 Gj3]]. rewrite Gj1, Nat2N.id.
  assert (Hc : exists s2, cpy s1 d (v_data (s_vec s j)) (length l) 0 = Ok s2 /\ s_vec s2 = s_vec s1 /\ s_nblk s2 = s_nblk s1 /\
    (forall b', b' < s_nblk s -> s_blk s2 b' = s_blk s1 b') /\
    match d with None => l = [] | Some b => length (s_blk s2 b) = N.to_nat (v_msz (s_vec s j)) /\ length l <= length (s_blk s2 b) /\ forall k, k < length l -> nth_error (s_blk s2 b) k = nth_error l k end).
  { destruct (v_data (s_vec s j)) as [c|].
    - destruct Gj3 as [Hcb [Hlen [Hll Hk]]]. destruct d as [b|].
      + destruct D1 as [Hb [Eb _]]. destruct (cpy_ok (length l) s1 b c 0%N) as [s3 [E3 [V3 [N3 [O3 [L3 K3]]]]]].
        { rewrite Eb, repeat_length. lia. } { rewrite (B1 c Hcb). lia. }
        exists s3. split; [exact E3|]. split; [exact V3|]. split; [exact N3|]. split; [intros b' Hb'; apply O3; lia|].
        split; [rewrite L3, Eb; apply repeat_length|]. split; [rewrite L3, Eb, repeat_length; lia|].
        intros k Hkl. rewrite K3, (B1 c Hcb). destruct ((N.to_nat 0 <=? k) && (k <? N.to_nat 0 + length l)) eqn:E4; [apply Hk; exact Hkl | lia].
      + assert (length l = 0) by lia. destruct l; [|cbn in *; lia]. exists s1. cbn. auto.
    - destruct Gj3 as [-> Gj3]. exists s1. cbn [length cpy]. split; [reflexivity|]. split; [reflexivity|]. split; [reflexivity|]. split; [auto|].
      destruct d as [b|]; [lia | reflexivity]. }
  destruct Hc as [s2 [E2 [V2 [N2 [B2 D2]]]]]. rewrite E2. cbn [bind]. eexists. split; [reflexivity|].
  unfold chg, good, set_vec; cbn [s_vec s_blk s_nblk]. rewrite fupd_same. cbn [v_data v_sz v_msz]. rewrite N2. split; [split; [|split; [|split]]|].
  - intros k Hk. rewrite fupd_diff by auto. rewrite V2, V1. reflexivity.
  - intros b Hb _. rewrite B2 by auto. auto.
  - exact N1.
  - destruct d as [b|]; [right; lia | exact I].
  - split; [reflexivity|]. split; [exact Gj2|]. destruct d as [b|]; [|auto]. destruct D1 as [Hb _]. destruct D2 as [A [B C]]. repeat split; auto; lia.
Qed.

(** one operation *)
Lemma v_do_ok s E sh o sh' : vok s E -> shape E sh -> allowed W sh o = Some sh' ->
  exists r s' E', v_do junk W s o = Ok (r, s') /\ seq_step E o r E' /\ vok s' E' /\ shape E' sh'.
Proof.
  intros H Hs Ha. destruct o as [i n|i j|i j|i j|i j|i|i|i x|i|i k|i k|i k x|i k x|i]; cbn [allowed v_do] in *.
  - (* VNew *)
    destruct (n <? W)%N eqn:En; [|discriminate]. injection Ha as <-.
    unfold v_new. destruct (new_arr_ok s n) as [d [s1 [E1 [V1 [N1 [B1 D1]]]]]]. rewrite E1.
    do 3 eexists. split; [reflexivity|]. split; [constructor|]. split; [|apply shape_upd'; auto].
    apply (vok_chg s _ E i None); auto.
    + unfold chg, set_vec; cbn [s_vec s_blk s_nblk]. rewrite fupd_same. cbn [v_data]. split; [|split; [|split]]; auto.
      * intros k Hk. rewrite fupd_diff by auto. now rewrite V1.
      * destruct d; [right; lia | exact I].
    + unfold good, set_vec; cbn [s_vec s_blk s_nblk]. rewrite fupd_same. cbn [v_data v_sz v_msz]. split; [reflexivity|]. split; [lia|].
      destruct d as [b|]; [|auto]. destruct D1 as [Hb [Eb Hn]]. split; [lia|]. split; [rewrite Eb; apply repeat_length|]. cbn. split; [lia|]. intros; lia.
    + unfold small, limit. cbn. lia.
  - (* VCopy *)
    destruct (sh j) as [n|] eqn:Ej; [|discriminate]. injection Ha as <-. destruct (shape_some _ _ _ _ Hs Ej) as [l [El ->]].
    destruct (o_good _ _ H j l El) as [G Hsm]. destruct (copy_ok s i j l G Hsm) as [s' [E1 [C1 G1]]]. rewrite E1. cbn [bind].
    do 3 eexists. split; [reflexivity|]. split; [constructor; exact El|]. split; [|apply shape_upd; exact Hs].
    eapply vok_chg; eauto.
  - (* VMove *)
    destruct (Nat.eqb_spec i j) as [|Hij]; [discriminate|]. destruct (sh j) as [n|] eqn:Ej; [|discriminate]. injection Ha as <-.
    destruct (shape_some _ _ _ _ Hs Ej) as [l [El ->]]. destruct (o_good _ _ H j l El) as [G Hsm].
    do 3 eexists. split; [reflexivity|]. split; [constructor; [exact Hij | exact El]|].
    split; [|apply shape_none, shape_upd; exact Hs].
    unfold v_move. constructor.
    + intros k lk. rewrite !fupd_eq. destruct (Nat.eqb_spec k j) as [->|Hkj]; [discriminate|]. destruct (Nat.eqb_spec k i) as [->|Hki].
      * intros [= <-]. split; [|exact Hsm]. unfold good, set_vec in *; cbn [s_vec s_blk s_nblk] in *. rewrite fupd_same. exact G.
      * intros Ek. destruct (o_good _ _ H k lk Ek) as [Gk Hk]. split; [|exact Hk]. unfold good, set_vec in *; cbn [s_vec s_blk s_nblk] in *. rewrite fupd_diff by auto. exact Gk.
    + intros k m b. unfold set_vec; cbn [s_vec]. rewrite !fupd_eq.
      destruct (Nat.eqb_spec k j) as [->|Hkj]; [congruence|]. destruct (Nat.eqb_spec m j) as [->|Hmj]; [congruence|].
      destruct (Nat.eqb_spec k i) as [->|Hki], (Nat.eqb_spec m i) as [->|Hmi]; auto.
      * intros _ Em Dj Dm. exfalso. apply Hmj. symmetry. eapply (o_sep _ _ H); eauto. congruence.
      * intros Ek _ Dk Dj. exfalso. apply Hkj. eapply (o_sep _ _ H); eauto. congruence.
      * apply (o_sep _ _ H).
  - (* VAssign *)
    destruct (sh i) as [ni|] eqn:Ei; [|discriminate]. destruct (sh j) as [n|] eqn:Ej; [|discriminate]. injection Ha as <-.
    destruct (shape_some _ _ _ _ Hs Ej) as [l [El ->]]. destruct (shape_some _ _ _ _ Hs Ei) as [li [Eli ->]].
    destruct (o_good _ _ H j l El) as [G Hsm]. destruct (o_good _ _ H i li Eli) as [Gi _].
    destruct (assign_ok s i j li l Gi G Hsm) as [s' [E1 [C1 G1]]].
    { intros Hij b Di Dj. apply Hij. eapply (o_sep _ _ H); eauto; congruence. }
    rewrite E1. cbn [bind]. do 3 eexists. split; [reflexivity|]. split; [constructor; exact El|]. split; [|apply shape_upd; exact Hs].
    eapply vok_chg; eauto. right. split; [congruence | reflexivity].
  - (* VMoveAssign *)
    destruct (Nat.eqb_spec i j) as [|Hij]; [discriminate|]. destruct (sh j) as [n|] eqn:Ej; [|discriminate]. injection Ha as <-.
    destruct (shape_some _ _ _ _ Hs Ej) as [l [El ->]]. destruct (o_good _ _ H j l El) as [G Hsm].
    do 3 eexists. split; [reflexivity|]. split; [constructor; [exact Hij | exact El]|].
    split; [|apply shape_upd'; [apply shape_upd; exact Hs | reflexivity]].
    unfold v_moveAssign, set_vec. cbn [s_vec s_blk s_nblk]. constructor; cbn [s_vec s_blk s_nblk].
    + intros k lk. rewrite !fupd_eq. destruct (Nat.eqb_spec k j) as [->|Hkj].
      * intros [= <-]. split; [|unfold small, limit; cbn; lia]. unfold good; cbn [s_vec]. rewrite fupd_same. cbn. split; [reflexivity|]. split; [lia | auto].
      * destruct (Nat.eqb_spec k i) as [->|Hki].
        -- intros [= <-]. split; [|exact Hsm]. unfold good in *; cbn [s_vec s_blk s_nblk] in *. rewrite fupd_diff, fupd_same by auto. exact G.
        -- intros Ek. destruct (o_good _ _ H k lk Ek) as [Gk Hk]. split; [|exact Hk]. unfold good in *; cbn [s_vec s_blk s_nblk] in *. rewrite !fupd_diff by auto. exact Gk.
    + intros k m b. rewrite !fupd_eq.
      destruct (Nat.eqb_spec k j) as [->|Hkj]; [discriminate|]. destruct (Nat.eqb_spec m j) as [->|Hmj]; [discriminate|].
      destruct (Nat.eqb_spec k i) as [->|Hki], (Nat.eqb_spec m i) as [->|Hmi]; auto.
      * intros _ Em Dj Dm. exfalso. apply Hmj. symmetry. eapply (o_sep _ _ H); eauto. congruence.
      * intros Ek _ Dk Dj. exfalso. apply Hkj. eapply (o_sep _ _ H); eauto. congruence.
      * apply (o_sep _ _ H).
  - (* VClear *)
    destruct (sh i) as [n|] eqn:Ei; [|discriminate]. injection Ha as <-. destruct (shape_some _ _ _ _ Hs Ei) as [l [El ->]].
    destruct (o_good _ _ H i l El) as [G Hsm].
    destruct (sz_good s i 0%N l [] G) as [C1 G1]; [reflexivity | cbn; lia | cbn; lia |].
    do 3 eexists. split; [reflexivity|]. split; [constructor|]. split; [|apply shape_upd'; auto].
    eapply vok_chg; eauto; [right; split; [congruence | reflexivity] | unfold small, limit; cbn; lia].
  - (* VSize *)
    destruct (sh i) as [n|] eqn:Ei; [|discriminate]. injection Ha as <-. destruct (shape_some _ _ _ _ Hs Ei) as [l [El ->]].
    destruct (o_good _ _ H i l El) as [G Hsm]. exists (RN (v_sz (s_vec s i))), s, E. split; [reflexivity|]. split; [|auto].
    destruct G as [-> _]. constructor. exact El.
  - (* VPush *)
    destruct (sh i) as [n|] eqn:Ei; [|discriminate]. destruct (n + 1 <? limit)%N eqn:En; [|discriminate]. injection Ha as <-.
    destruct (shape_some _ _ _ _ Hs Ei) as [l [El ->]]. destruct (o_good _ _ H i l El) as [G Hsm].
    unfold v_push. assert (Hsz : v_sz (s_vec s i) = N.of_nat (length l)) by apply G. rewrite Hsz.
    destruct (makeValid_ok s i l (N.of_nat (length l)) G) as [s1 [E1 [C1 [G1 Hlt]]]]; [lia|]. rewrite E1. cbn [bind].
    assert (Hsz1 : v_sz (s_vec s1 i) = N.of_nat (length l)) by apply G1. rewrite Hsz1.
    destruct (at_sz_good s1 i (N.of_nat (length l)) x l (N.of_nat (length l) + 1) (l ++ [x]) G1) as [s2 [E2 [V2 [C2 G2]]]].
    + exact Hlt.
    + rewrite app_length. cbn. lia.
    + lia.
    + intros b Db k Hk. rewrite app_length in Hk. cbn in Hk. rewrite Nat2N.id. destruct (Nat.eqb_spec k (length l)) as [->|Hne].
      * rewrite nth_error_app2, Nat.sub_diag by lia. reflexivity.
      * rewrite nth_error_app1 by lia. destruct G1 as [_ [_ G3]]. rewrite Db in G3. destruct G3 as [_ [_ [_ Hkk]]]. symmetry. apply Hkk. lia.
    + rewrite E2. cbn [bind]. rewrite V2, Hsz1. unfold limit in En. rewrite N.mod_small by lia.
      do 3 eexists. split; [reflexivity|]. split; [constructor; exact El|]. split; [|apply shape_upd'; [exact Hs | rewrite app_length; cbn; lia]].
      eapply (vok_chg s _ E i (v_data (s_vec s i))); eauto; [eapply chg_trans; eauto | right; split; [congruence | reflexivity] | unfold small, limit; rewrite app_length; cbn; lia].
  - (* VPop *)
    destruct (sh i) as [n|] eqn:Ei; [|discriminate]. destruct (0 <? n)%N eqn:En; [|discriminate]. injection Ha as <-.
    destruct (shape_some _ _ _ _ Hs Ei) as [l [El ->]]. destruct (o_good _ _ H i l El) as [G Hsm].
    destruct (split_last l) as [l1 [x ->]]; [lia|]. rewrite app_length in *. cbn [length] in *.
    unfold v_pop. assert (Hsz : v_sz (s_vec s i) = N.of_nat (length l1 + 1)) by (destruct G as [-> _]; rewrite app_length; reflexivity).
    rewrite Hsz, dec_pos by lia. destruct (rd_ok s i (l1 ++ [x]) (N.of_nat (length l1 + 1) - 1) G) as [y [Ey Hy]]; [rewrite app_length; cbn; lia|].
    assert (y = x) as ->.
    { replace (N.to_nat (N.of_nat (length l1 + 1) - 1)) with (length l1) in Hy by lia. rewrite nth_error_app2, Nat.sub_diag in Hy by lia. cbn in Hy. congruence. }
    rewrite Ey. cbn [bind].
    destruct (sz_good s i (N.of_nat (length l1 + 1) - 1) (l1 ++ [x]) l1 G) as [C1 G1].
    + lia.
    + rewrite app_length; lia.
    + intros k Hk. rewrite nth_error_app1 by lia. reflexivity.
    + do 3 eexists. split; [reflexivity|]. split; [constructor; exact El|]. split; [|apply shape_upd'; [exact Hs | lia]].
      eapply vok_chg; eauto; [right; split; [congruence | reflexivity] | unfold small, limit in *; rewrite app_length in Hsm; cbn in Hsm; lia].
  - (* VRemove *)
    destruct (sh i) as [n|] eqn:Ei; [|discriminate]. destruct (k <? n)%N eqn:En; [|discriminate]. injection Ha as <-.
    destruct (shape_some _ _ _ _ Hs Ei) as [l [El ->]]. destruct (o_good _ _ H i l El) as [G Hsm].
    destruct (split_last l) as [l0 [x ->]]; [lia|].
    assert (Hlen : length (l0 ++ [x]) = length l0 + 1) by (rewrite app_length; reflexivity).
    unfold v_remove. assert (Hsz : v_sz (s_vec s i) = N.of_nat (length l0 + 1)) by (destruct G as [-> _]; rewrite Hlen; reflexivity).
    rewrite Hsz, dec_pos by lia. replace (N.of_nat (length l0 + 1) - 1)%N with (N.of_nat (length l0)) by lia.
    destruct (k <? N.of_nat (length l0))%N eqn:Ek.
    + (* the last element moves *)
      destruct (split_at l0 (N.to_nat k)) as [l1 [y [l2 [-> Hl1]]]]; [lia|].
      destruct (rd_ok s i _ (N.of_nat (length (l1 ++ y :: l2))) G) as [x' [Ex' Hx']]; [lia|].
      assert (x' = x) as ->.
      { rewrite Nat2N.id in Hx'. rewrite nth_error_app2, Nat.sub_diag in Hx' by lia. cbn in Hx'. congruence. }
      rewrite Ex'. cbn [bind].
      assert (Hmsz : (N.of_nat (length ((l1 ++ y :: l2) ++ [x])) <= v_msz (s_vec s i))%N).
      { destruct G as [_ [_ G3]]. destruct (v_data (s_vec s i)) as [b|]; [destruct G3 as [_ [Hb [Hle _]]]; lia|]. destruct G3 as [G3 _]. destruct (l1 ++ y :: l2); discriminate. }
      assert (Hlen2 : length (l1 ++ x :: l2) = length (l1 ++ y :: l2)) by (rewrite !app_length; reflexivity).
      assert (Hnth : forall j, j < length (l1 ++ x :: l2) -> nth_error (l1 ++ x :: l2) j = if j =? N.to_nat k then Some x else nth_error ((l1 ++ y :: l2) ++ [x]) j).
      { intros j Hj. destruct (Nat.eqb_spec j (N.to_nat k)) as [->|Hne]; [rewrite <- Hl1, nth_error_app2, Nat.sub_diag by lia; reflexivity|].
        rewrite (nth_error_app1 (l1 ++ y :: l2)) by lia. destruct (Nat.lt_ge_cases j (length l1)) as [Hlt|Hge].
        - rewrite !nth_error_app1 by lia. reflexivity.
        - rewrite !nth_error_app2 by lia. destruct (j - length l1) eqn:Ej; [lia | reflexivity]. }
      destruct (at_sz_good s i k x _ (N.of_nat (length (l1 ++ y :: l2))) (l1 ++ x :: l2) G) as [s2 [E2 [V2 [C2 G2]]]].
      * lia.
      * lia.
      * lia.
      * intros b Db j Hj. rewrite (Hnth j Hj). destruct (j =? N.to_nat k); [reflexivity|].
        destruct G as [_ [_ G3]]. rewrite Db in G3. destruct G3 as [_ [_ [_ Hkk]]]. symmetry. apply Hkk. lia.
      * rewrite E2. cbn [bind].
        assert (Er : rd s2 (v_data (s_vec s i)) k = Ok x).
        { destruct (rd_ok _ i _ k G2) as [x2 [Ex2 Hx2]]; [lia|].
          rewrite Hnth, Nat.eqb_refl in Hx2 by lia. injection Hx2 as <-. rewrite <- Ex2. unfold set_sz, set_vec, rd; cbn [s_vec s_blk]. rewrite fupd_same. cbn [v_data]. rewrite V2. reflexivity. }
        rewrite Er. cbn [bind]. do 3 eexists. split; [reflexivity|]. split.
        -- assert (Hst := q_remove E i l1 y l2 x). rewrite Hl1, N2Nat.id, Hlen2 in Hst. apply Hst. rewrite El. f_equal. rewrite <- app_assoc. reflexivity.
        -- split; [|apply shape_upd'; [exact Hs | lia]].
           eapply vok_chg; eauto; [right; split; [congruence | reflexivity] | unfold small, limit in *; lia].
    + (* the last element itself *)
      assert (k = N.of_nat (length l0)) as -> by lia. cbn [bind].
      destruct (rd_ok s i _ (N.of_nat (length l0)) G) as [x' [Ex' Hx']]; [lia|].
      assert (x' = x) as ->.
      { rewrite Nat2N.id in Hx'. rewrite nth_error_app2, Nat.sub_diag in Hx' by lia. cbn in Hx'. congruence. }
      rewrite Ex'. cbn [bind].
      destruct (sz_good s i (N.of_nat (length l0)) (l0 ++ [x]) l0 G) as [C1 G1].
      * reflexivity.
      * lia.
      * intros j Hj. rewrite nth_error_app1 by lia. reflexivity.
      * do 3 eexists. split; [reflexivity|]. split; [apply q_remove_last; exact El|]. split; [|apply shape_upd'; [exact Hs | lia]].
        eapply vok_chg; eauto; [right; split; [congruence | reflexivity] | unfold small, limit in *; lia].
  - (* VGet *)
    destruct (sh i) as [n|] eqn:Ei; [|discriminate]. destruct (k <? n)%N eqn:En; [|discriminate]. injection Ha as <-.
    destruct (shape_some _ _ _ _ Hs Ei) as [l [El ->]]. destruct (o_good _ _ H i l El) as [G Hsm].
    unfold v_get. destruct (rd_ok s i l k G) as [x [Ex Hx]]; [lia|]. rewrite Ex. cbn [bind].
    exists (RT x), s, E. split; [reflexivity|]. split; [|auto].
    apply nth_error_split in Hx as [l1 [l2 [-> L1]]]. assert (Hst := q_get E i l1 x l2 El). rewrite L1, N2Nat.id in Hst. exact Hst.
  - (* VSet *)
    destruct (sh i) as [n|] eqn:Ei; [|discriminate]. destruct (k + 1 <? limit)%N eqn:En; [|discriminate]. injection Ha as <-.
    destruct (shape_some _ _ _ _ Hs Ei) as [l [El ->]]. destruct (o_good _ _ H i l El) as [G Hsm].
    unfold v_set. destruct (makeValid_ok s i l k G) as [s1 [E1 [C1 [G1 Hlt]]]]; [lia|]. rewrite E1. cbn [bind].
    assert (HB : exists b, v_data (s_vec s1 i) = Some b /\ length (s_blk s1 b) = N.to_nat (v_msz (s_vec s1 i)) /\ length l <= length (s_blk s1 b) /\
              forall k, k < length l -> nth_error (s_blk s1 b) k = nth_error l k).
    { destruct G1 as [_ [_ G3]]. destruct (v_data (s_vec s1 i)) as [b|]; [|lia]. exists b. tauto. }
    destruct HB as [b [Db [Lb [Hlb Hkb]]]].
    set (l' := firstn (N.to_nat k) (s_blk s1 b) ++ [x]).
    assert (Hlen' : length l' = N.to_nat k + 1) by (unfold l'; rewrite app_length, firstn_length_le by lia; reflexivity).
    assert (Hfn : forall (A : list T) m j, j < m -> nth_error (firstn m A) j = nth_error A j).
    { clear. induction A as [|a A IH]; intros [|m] [|j] Hj; cbn; auto; try lia. apply IH. lia. }
    destruct (at_sz_good s1 i k x l (k + 1) l' G1) as [s2 [E2 [V2 [C2 G2]]]].
    + exact Hlt.
    + lia.
    + lia.
    + intros b' Db' j Hj. rewrite Db in Db'. injection Db' as <-. unfold l'. destruct (Nat.eqb_spec j (N.to_nat k)) as [->|Hne].
      * rewrite nth_error_app2, firstn_length_le, Nat.sub_diag by (rewrite ?firstn_length_le; lia). reflexivity.
      * rewrite nth_error_app1 by (rewrite firstn_length_le; lia). apply Hfn. lia.
    + rewrite E2. cbn [bind]. unfold limit in En. rewrite N.mod_small by lia. exists RUnit, (set_sz s2 i (k + 1)), (fupd E i (Some l')). split; [reflexivity|].
      split; [|split; [|apply shape_upd'; [exact Hs | lia]]].
      * destruct (Nat.le_gt_cases (N.to_nat k) (length l)) as [Hle|Hgt].
        -- assert (Hfst : firstn (N.to_nat k) (s_blk s1 b) = firstn (N.to_nat k) l).
           { apply nth_ext'. intros j. destruct (Nat.lt_ge_cases j (N.to_nat k)) as [Hj|Hj].
             - rewrite !Hfn by lia. apply Hkb. lia.
             - rewrite (proj2 (nth_error_None _ _)) by (rewrite firstn_length; lia). symmetry. apply nth_error_None. rewrite firstn_length; lia. }
           assert (Hst := q_set_in E i (firstn (N.to_nat k) l) (skipn (N.to_nat k) l) x). rewrite firstn_skipn, firstn_length_le, N2Nat.id in Hst by lia.
           unfold l'. rewrite Hfst. apply Hst. exact El.
        -- assert (Hst := q_set_out E i l (firstn (N.to_nat k - length l) (skipn (length l) (s_blk s1 b))) x El).
           rewrite firstn_length_le in Hst by (rewrite skipn_length; lia).
           replace (N.of_nat (length l + (N.to_nat k - length l))) with k in Hst by lia.
           assert (Hfst : firstn (N.to_nat k) (s_blk s1 b) = l ++ firstn (N.to_nat k - length l) (skipn (length l) (s_blk s1 b))).
           { rewrite <- (firstn_skipn (length l) (s_blk s1 b)) at 1. rewrite firstn_app, firstn_length_le by lia. rewrite firstn_firstn, Nat.min_r by lia. f_equal.
             apply nth_ext'. intros j. destruct (Nat.lt_ge_cases j (length l)) as [Hj|Hj].
             - rewrite Hfn by lia. apply Hkb. lia.
             - rewrite (proj2 (nth_error_None _ _)) by (rewrite firstn_length; lia). symmetry. apply nth_error_None. lia. }
           unfold l'. rewrite Hfst, <- app_assoc. exact Hst.
      * eapply (vok_chg s _ E i (v_data (s_vec s i))); eauto; [eapply chg_trans; eauto | right; split; [congruence | reflexivity] | unfold small, limit; lia].
  - (* VAt *)
    destruct (sh i) as [n|] eqn:Ei; [|discriminate]. destruct (k <? n)%N eqn:En; [|discriminate]. injection Ha as <-.
    destruct (shape_some _ _ _ _ Hs Ei) as [l [El ->]]. destruct (o_good _ _ H i l El) as [G Hsm].
    destruct (split_at l (N.to_nat k)) as [l1 [y [l2 [-> Hl1]]]]; [lia|].
    assert (Hlen2 : length (l1 ++ x :: l2) = length (l1 ++ y :: l2)) by (rewrite !app_length; reflexivity).
    assert (Hsz : v_sz (s_vec s i) = N.of_nat (length (l1 ++ y :: l2))) by apply G.
    assert (Hmsz : (N.of_nat (length (l1 ++ y :: l2)) <= v_msz (s_vec s i))%N).
    { destruct G as [_ [_ G3]]. destruct (v_data (s_vec s i)) as [b|]; [destruct G3 as [_ [Hb [Hle _]]]; lia|]. destruct G3 as [G3 _]. destruct l1; discriminate. }
    destruct (at_sz_good s i k x _ (N.of_nat (length (l1 ++ y :: l2))) (l1 ++ x :: l2) G) as [s2 [E2 [V2 [C2 G2]]]]; try lia.
    + intros b Db j Hj. destruct G as [_ [_ G3]]. rewrite Db in G3. destruct G3 as [_ [_ [_ Hkk]]]. rewrite Hkk by lia.
      destruct (Nat.eqb_spec j (N.to_nat k)) as [->|Hne]; [rewrite <- Hl1, nth_error_app2, Nat.sub_diag by lia; reflexivity|].
      destruct (Nat.lt_ge_cases j (length l1)) as [Hlt|Hge].
      * rewrite !nth_error_app1 by lia. reflexivity.
      * rewrite !nth_error_app2 by lia. destruct (j - length l1) eqn:Ej; [lia | reflexivity].
    + rewrite E2. cbn [bind].
      assert (Hid : set_sz s2 i (N.of_nat (length (l1 ++ y :: l2))) = set_vec s2 i (s_vec s2 i)) by (unfold set_sz; rewrite V2, <- Hsz; destruct (s_vec s i); reflexivity).
      rewrite Hid in *. do 3 eexists. split; [reflexivity|]. split; [assert (Hst := q_at E i l1 y l2 x El); rewrite Hl1, N2Nat.id in Hst; exact Hst|].
      assert (Hvok : vok (set_vec s2 i (s_vec s2 i)) (fupd E i (Some (l1 ++ x :: l2)))).
      { eapply vok_chg; eauto; [right; split; [congruence | reflexivity] | unfold small, limit in *; lia]. }
      assert (Hsame : forall j, s_vec (set_vec s2 i (s_vec s2 i)) j = s_vec s2 j) by (intros j; cbn; rewrite fupd_eq; destruct (Nat.eqb_spec j i) as [->|]; reflexivity).
      split.
      * constructor.
        -- intros j lj Ej. destruct (o_good _ _ Hvok j lj Ej) as [Gj Hj]. split; [|exact Hj]. unfold good in *. rewrite Hsame in Gj. exact Gj.
        -- intros j m b. assert (Hsep := o_sep _ _ Hvok j m b). rewrite !Hsame in Hsep. exact Hsep.
      * intros j. rewrite fupd_eq. destruct (Nat.eqb_spec j i) as [->|]; [rewrite Ei, Hlen2; reflexivity | apply Hs].
  - (* VAll *)
    destruct (sh i) as [n|] eqn:Ei; [|discriminate]. injection Ha as <-. destruct (shape_some _ _ _ _ Hs Ei) as [l [El ->]].
    destruct (o_good _ _ H i l El) as [G Hsm]. unfold v_all. assert (Hsz : v_sz (s_vec s i) = N.of_nat (length l)) by apply G. rewrite Hsz, Nat2N.id.
    rewrite (walk_ok s i l G (length l) 0) by lia. cbn [bind]. exists (RL (skipn (N.to_nat 0) l)), s, E. split; [reflexivity|]. split; [|auto].
    change (skipn (N.to_nat 0) l) with l. constructor. exact El.
Qed.

Lemma v_run_ok os : forall s E sh, vok s E -> shape E sh -> allowed_run W sh os = true ->
  exists rs s' E', v_run junk W s os = Ok (rs, s') /\ seq_run E os rs E' /\ vok s' E'.
Proof.
  induction os as [|o os IH]; intros s E sh H Hs Ha; cbn [v_run allowed_run] in *.
  - exists [], s, E. split; [reflexivity|]. split; [constructor | exact H].
  - destruct (allowed W sh o) as [sh1|] eqn:E1; [|discriminate].
    destruct (v_do_ok s E sh o sh1 H Hs E1) as [r [s1 [E' [Ed [Hst [H1 Hs1]]]]]]. rewrite Ed. cbn [bind].
    destruct (IH s1 E' sh1 H1 Hs1 Ha) as [rs [s2 [E2 [Er [Hr H2]]]]]. rewrite Er. cbn [bind].
    exists (r :: rs), s2, E2. split; [reflexivity|]. split; [econstructor; eauto | exact H2].
Qed.
Lemma vec_sequences os : allowed_run W (fun _ => None) os = true -> exists rs s E, v_run junk W vst0 os = Ok (rs, s) /\ seq_run (fun _ => None) os rs E.
Proof.
  intros Ha. destruct (v_run_ok os vst0 (fun _ => None) (fun _ => None)) as [rs [s [E [Er [Hr _]]]]]; eauto.
  - constructor; [intros i l; discriminate | congruence].
  - intros i. reflexivity.
Qed.
End VecProofs.
