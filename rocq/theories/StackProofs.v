(** Specification and proofs for the bump allocator (C82). *)
From Coq Require Import NArith List Bool Lia Sorted ZifyBool ZifyNat ZifyN.
From Verif Require Import Base StackModel.
Import ListNotations.
Open Scope N_scope.

(** ** specification *)
(** the blocks of buffer i, in the order in which they were handed out *)
Fixpoint blocks (i : nat) (xs : list ans) : list (N * N) :=
  match xs with
  | [] => []
  | Block p n :: r => if Nat.eqb (fst p) i then (snd p, n) :: blocks i r else blocks i r
  | _ :: r => blocks i r
  end.
(** the blocks lie one after the other, from [a] on, without gaps, and end at [b] *)
Fixpoint packed (a : N) (bs : list (N * N)) (b : N) : Prop :=
  match bs with
  | [] => a = b
  | (p, n) :: r => p = a /\ packed (a + n) r b
  end.
Definition no_copy (os : list op) : Prop := forall i, ~ In (Copy i) os.
(** bytes asked for: of allocator i, by a line of the program *)
Definition asks (o : op) : option (nat * N) :=
  match o with Alloc i n => Some (i, n) | AdAlloc (Some i) sz n => Some (i, bytes n sz) | _ => None end.
(** every allocator a program uses exists: [k] of them at the start *)
Fixpoint uses_made (k : nat) (os : list op) : Prop :=
  match os with
  | [] => True
  | New :: r => uses_made (S k) r
  | Copy i :: r => (i < k)%nat /\ uses_made (S k) r
  | Alloc i _ :: r => (i < k)%nat /\ uses_made k r
  | AdAlloc a _ _ :: r => (exists i, a = Some i /\ (i < k)%nat) /\ uses_made k r
  | Free _ :: r => uses_made k r
  end.
(** two ranges of bytes have none in common *)
Definition apart (x y : N * N) : Prop := fst x + snd x <= fst y \/ fst y + snd y <= fst x.

(** ** proofs *)
Ltac conj := repeat match goal with |- _ /\ _ => split end.
Lemma packed_ge : forall bs a b, packed a bs b -> a <= b.
Proof. induction bs as [|[p n] r IH]; cbn; intros a b H; [lia|]. destruct H as [-> H]. apply IH in H. lia. Qed.
Lemma packed_app : forall bs a b p n, packed a bs b -> p = b -> packed a (bs ++ [(p, n)]) (b + n).
Proof. induction bs as [|[q m] r IH]; cbn; intros a b p n H ->; [subst; auto|]. destruct H as [-> H]. split; auto. Qed.
Lemma packed_in : forall bs a b p n, packed a bs b -> In (p, n) bs -> a <= p /\ p + n <= b.
Proof.
  induction bs as [|[q m] r IH]; cbn; intros a b p n H Hi; [easy|]. destruct H as [-> H]. pose proof (packed_ge _ _ _ H). destruct Hi as [[= <- <-]|Hi]; [lia|].
  destruct (IH _ _ _ _ H Hi). lia.
Qed.
Lemma packed_apart : forall bs a b i j x y, packed a bs b -> nth_error bs i = Some x -> nth_error bs j = Some y -> i <> j -> apart x y.
Proof.
  induction bs as [|[q m] r IH]; intros a b i j x y H Hx Hy N; [now destruct i|]. cbn in H. destruct H as [-> H]. unfold apart.
  destruct i as [|i], j as [|j]; cbn in Hx, Hy; [easy|..].
  - injection Hx as <-. destruct y as [p n]. apply nth_error_In in Hy. destruct (packed_in _ _ _ _ _ H Hy). cbn. lia.
  - injection Hy as <-. destruct x as [p n]. apply nth_error_In in Hx. destruct (packed_in _ _ _ _ _ H Hx). cbn. lia.
  - eapply IH; eauto.
Qed.

Section Stack.
Variable cap : N.
(** allocator i points into its own buffer *)
Definition own (cs : cores) (used : nat -> N) : Prop :=
  forall i c, nth_error cs i = Some c -> c = mkCore (i, cap) (i, used i) /\ used i <= cap.
Lemma upd_length : forall cs i c, length (upd cs i c) = length cs.
Proof. induction cs; intros [|i] c; cbn; auto. Qed.
Lemma upd_nth : forall cs i c j, (i < length cs)%nat -> nth_error (upd cs i c) j = if Nat.eqb i j then Some c else nth_error cs j.
Proof. induction cs as [|x r IH]; intros [|i] c [|j] H; cbn in *; auto; try lia. apply IH. lia. Qed.

Lemma alloc_own cs used i n : own cs used -> (i < length cs)%nat ->
  core_alloc cs i n = if n <=? cap - used i then Ok (upd cs i (mkCore (i, cap) (i, used i + n)), Some (i, used i)) else Ok (cs, None).
Proof.
  intros O L. unfold core_alloc. destruct (nth_error cs i) as [c|] eqn:E; [|apply nth_error_None in E; lia].
  destruct (O _ _ E) as [-> U]. cbn. rewrite Nat.eqb_refl. cbn. reflexivity.
Qed.
Lemma upd_own cs used i n : own cs used -> (i < length cs)%nat -> used i + n <= cap ->
  own (upd cs i (mkCore (i, cap) (i, used i + n))) (fun j => if Nat.eqb i j then used i + n else used j).
Proof.
  intros O L U j c. rewrite upd_nth by auto. destruct (Nat.eqb_spec i j) as [<-|N]; [intros [= <-]; auto|]. intros E. now apply O.
Qed.
Lemma new_own cs used : own cs used -> own (fst (core_new cap cs)) (fun j => if Nat.eqb (length cs) j then 0 else used j).
Proof.
  intros O j c E. cbn in E. destruct (Nat.eqb_spec (length cs) j) as [<-|N].
  - rewrite nth_error_app2, Nat.sub_diag in E by lia. injection E as <-. split; [reflexivity|lia].
  - destruct (Nat.lt_ge_cases j (length cs)) as [L|L]; [rewrite nth_error_app1 in E by lia; now apply O|].
    rewrite nth_error_app2 in E by lia. destruct (j - length cs)%nat eqn:X; [lia|]. cbn in E. destruct n; discriminate.
Qed.

(** one request *)
Lemma ask_ok cs used o i n : own cs used -> asks o = Some (i, n) -> (i < length cs)%nat ->
  (n <= cap - used i -> exists cs', step cap cs o = Ok (cs', Block (i, used i) n) /\ own cs' (fun j => if Nat.eqb i j then used i + n else used j) /\ length cs' = length cs) /\
  (cap - used i < n -> step cap cs o = Ok (cs, Bad)).
Proof.
  intros O E L. assert (U : used i <= cap). { destruct (nth_error cs i) as [c|] eqn:X; [now apply (O _ _ X)|apply nth_error_None in X; lia]. }
  pose proof (alloc_own cs used i n O L) as A. split; intros H.
  - exists (upd cs i (mkCore (i, cap) (i, used i + n))). rewrite upd_length. split; [|split; auto; apply upd_own; auto; lia].
    replace (n <=? cap - used i) with true in A by lia.
    destruct o as [|j|j m|[j|] sz m|j]; cbn [asks] in E; try discriminate; injection E as <- <-; cbn [step ad_alloc]; rewrite A; reflexivity.
  - replace (n <=? cap - used i) with false in A by lia.
    destruct o as [|j|j m|[j|] sz m|j]; cbn [asks] in E; try discriminate; injection E as <- <-; cbn [step ad_alloc]; rewrite A; reflexivity.
Qed.

Lemma run_own : forall os cs used, own cs used -> no_copy os -> uses_made (length cs) os ->
  exists cs' xs used', steps cap cs os = Ok (cs', xs) /\ own cs' used' /\ length xs = length os /\
    (forall i, (i < length cs)%nat -> packed (used i) (blocks i xs) (used' i)) /\
    (forall i, (length cs <= i < length cs')%nat -> packed 0 (blocks i xs) (used' i)) /\ (length cs <= length cs')%nat /\
    (forall i, (length cs' <= i)%nat -> blocks i xs = []).
Proof.
  induction os as [|o os IH]; intros cs used O NC UM.
  - exists cs, [], used. cbn. conj; auto; intros; try lia; now apply (O _ _ H).
  - assert (NC' : no_copy os) by (intros i H; apply (NC i); now right).
    assert (Hk : (exists n i, asks o = Some (i, n) /\ (i < length cs)%nat /\ uses_made (length cs) os) \/
      (exists j, o = Free j /\ uses_made (length cs) os) \/ (o = New /\ uses_made (S (length cs)) os)).
    { destruct o as [|j|j m|a sz m|j]; cbn in UM; [auto|exfalso; apply (NC j); now left|left|left|eauto].
      - exists m, j. cbn. tauto.
      - destruct UM as [(i & -> & L) UM]. eexists; exists i; cbn; eauto. }
    cbn [steps]. destruct Hk as [(n & i & A & L & UM')|[(j & -> & UM')|[-> UM']]].
    + destruct (ask_ok cs used o i n O A L) as [Q1 Q2]. destruct (N.le_gt_cases n (cap - used i)) as [H|H].
      * destruct (Q1 H) as (cs1 & E & O1 & L1). rewrite E. cbn [bind].
        destruct (IH cs1 _ O1 NC') as (cs' & xs & u & E' & O' & Lx & P1 & P2 & P3 & P4); [now rewrite L1|]. rewrite E'. cbn [bind].
        exists cs', (Block (i, used i) n :: xs), u. rewrite L1 in *. cbn [length blocks fst snd]. conj; auto; try (now apply O').
        -- intros j Hj. specialize (P1 j Hj). cbn in P1. destruct (Nat.eq_dec i j) as [E1|E1]; [subst j; rewrite Nat.eqb_refl in *; cbn; auto|]. rewrite (proj2 (Nat.eqb_neq i j) E1) in *. exact P1.
        -- intros j Hj. destruct (Nat.eqb_spec i j) as [->|]; [lia|now apply P2].
        -- intros j Hj. destruct (Nat.eqb_spec i j) as [->|]; [lia|now apply P4].
      * rewrite (Q2 H). unfold bind at 1. destruct (IH cs used O NC' UM') as (cs' & xs & u & E' & O' & Lx & P1 & P2 & P3 & P4). rewrite E'. cbn [bind].
        exists cs', (Bad :: xs), u. cbn [length blocks]. conj; auto; now apply O'.
    + cbn [step]. unfold core_free. cbn [bind]. destruct (IH cs used O NC' UM') as (cs' & xs & u & E' & O' & Lx & P1 & P2 & P3 & P4). rewrite E'. cbn [bind].
      exists cs', (Nothing :: xs), u. cbn [length blocks]. conj; auto; now apply O'.
    + cbn [step]. unfold core_new. cbn [bind]. pose proof (new_own cs used O) as O1. cbn [core_new fst] in O1.
      destruct (IH _ _ O1 NC') as (cs' & xs & u & E' & O' & Lx & P1 & P2 & P3 & P4); [rewrite app_length, Nat.add_1_r; exact UM'|]. rewrite E'. cbn [bind].
      rewrite app_length, Nat.add_1_r in *. exists cs', (Made (length cs) :: xs), u. cbn [length blocks]. conj; auto; try (now apply O'); try lia.
      * intros j Hj. specialize (P1 j ltac:(lia)). destruct (Nat.eqb_spec (length cs) j) as [|]; [lia|exact P1].
      * intros j Hj. destruct (Nat.eq_dec j (length cs)) as [->|]; [|apply P2; lia]. specialize (P1 (length cs) ltac:(lia)). now rewrite Nat.eqb_refl in P1.
Qed.

(** ** the statements of PropStack.v *)
Lemma stack_program os : no_copy os -> uses_made 0 os -> exists cs xs, steps cap [] os = Ok (cs, xs) /\ length xs = length os /\
  forall i, exists b, packed 0 (blocks i xs) b /\ b <= cap /\
    (forall j k x y, nth_error (blocks i xs) j = Some x -> nth_error (blocks i xs) k = Some y -> j <> k -> apart x y) /\
    (forall x, In x (blocks i xs) -> fst x + snd x <= cap).
Proof.
  intros NC UM. destruct (run_own os [] (fun _ => 0)) as (cs & xs & u & E & O & L & _ & P & _ & Q); auto.
  { intros [|i] c H; discriminate. }
  exists cs, xs. conj; auto. intros i. destruct (Nat.lt_ge_cases i (length cs)) as [Hi|Hi].
  - exists (u i). specialize (P i ltac:(cbn; lia)). destruct (nth_error cs i) as [c|] eqn:X; [|apply nth_error_None in X; lia]. destruct (O _ _ X) as [_ U].
    conj; auto. { intros; eapply packed_apart; eauto. } intros [p n] Hx. destruct (packed_in _ _ _ _ _ P Hx). cbn. lia.
  - exists 0. rewrite (Q i Hi). cbn. conj; auto; try lia; intros; try easy. now destruct j.
Qed.
(** after any program: the next request is served exactly if it fits behind the blocks handed out before *)
Lemma stack_next os o i n : no_copy os -> uses_made 0 os -> asks o = Some (i, n) -> uses_made 0 (os ++ [o]) -> forall cs xs, steps cap [] os = Ok (cs, xs) ->
  exists b, packed 0 (blocks i xs) b /\ (b + n <= cap -> exists cs', step cap cs o = Ok (cs', Block (i, b) n)) /\ (cap < b + n -> step cap cs o = Ok (cs, Bad)).
Proof.
  intros NC UM A UM' cs xs E. destruct (run_own os [] (fun _ => 0)) as (cs' & xs' & u & E' & O & L & _ & P & _ & Q); auto.
  { intros [|j] c H; discriminate. }
  rewrite E in E'. injection E' as <- <-.
  assert (Len : (i < length cs)%nat).
  { assert (G : forall os k cs0 cs1 ys, uses_made k (os ++ [o]) -> length cs0 = k -> no_copy os -> steps cap cs0 os = Ok (cs1, ys) -> (i < length cs1)%nat).
    { clear - A. induction os as [|x os IH]; intros k cs0 cs1 ys U Lk NC E.
      - cbn in E. injection E as <- <-. destruct o as [|j|j m|[j|] sz m|j]; cbn [asks] in A; try discriminate; injection A as <- <-; cbn in U; [lia|].
        destruct U as [(q & [= ->] & U) _]. lia.
      - cbn [steps] in E. destruct (step cap cs0 x) as [[cs2 y]|] eqn:X; [|discriminate]. cbn [bind] in E.
        destruct (steps cap cs2 os) as [[cs3 zs]|] eqn:Y; [|discriminate]. injection E as <- <-.
        assert (NC' : no_copy os) by (intros q H; apply (NC q); now right).
        assert (AL : forall j m p c, core_alloc cs0 j m = Ok (c, p) -> length c = length cs0).
        { intros j m p c. unfold core_alloc. destruct (nth_error cs0 j) as [d|]; [|discriminate]. destruct (negb _); [discriminate|].
          destruct (m <=? _); intros [= <- <-]; auto using upd_length. }
        destruct x as [|j|j m|a sz m|j]; cbn [step core_new] in X; cbn in U.
        + injection X as <- <-. eapply IH; eauto. rewrite app_length. cbn. lia.
        + exfalso. apply (NC j). now left.
        + destruct (core_alloc cs0 j m) as [[c p]|] eqn:Z; [|discriminate]. cbn in X. injection X as <- <-. destruct U as [_ U]. apply (IH k c cs3 zs); auto. rewrite (AL _ _ _ _ Z). exact Lk.
        + destruct U as [(q & -> & Hq) U]. cbn [ad_alloc] in X. destruct (core_alloc cs0 q _) as [[c p]|] eqn:Z; [|discriminate]. cbn in X. injection X as <- <-.
          apply (IH k c cs3 zs); auto. rewrite (AL _ _ _ _ Z). exact Lk.
        + injection X as <- <-. eapply IH; eauto. }
    apply (G os 0%nat [] cs xs); auto. }
  exists (u i). split; [apply P; cbn; lia|]. destruct (ask_ok cs u o i n O A Len) as [Q1 Q2].
  assert (U : u i <= cap). { destruct (nth_error cs i) as [c|] eqn:X; [now apply (O _ _ X)|apply nth_error_None in X; lia]. }
  split; intros H; [destruct (Q1 ltac:(lia)) as (c & Z & _); eauto|apply Q2; lia].
Qed.
(** an adapter asks for n times the size of T as long as n is at most max_size *)
Lemma adapter_size i sz n m : cap < 2 ^ 64 -> 0 < sz -> ad_max_size cap (Some i) sz = Ok m -> n <= m -> bytes n sz = n * sz /\ n * sz <= cap.
Proof.
  intros C S [= <-] H. assert (n * sz <= cap). { transitivity (cap / sz * sz); [apply N.mul_le_mono_r; auto|]. rewrite N.mul_comm. apply N.mul_div_le. lia. }
  split; auto. unfold bytes. apply N.mod_small. lia.
Qed.
End Stack.

Lemma adapter_eq (a b : adapter) : ad_eqb a b = true <-> a = b.
Proof.
  destruct a as [i|], b as [j|]; cbn; split; intros H; try discriminate; auto.
  - apply Nat.eqb_eq in H. now subst.
  - injection H as ->. apply Nat.eqb_refl.
Qed.
