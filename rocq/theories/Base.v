(** Shared vocabulary of the model: outcomes, finite stores as functions, small list lemmas. *)
From Coq Require Export List Arith ZArith Lia Bool Permutation.
From Coq Require Export ZifyBool ZifyNat ZifyN.
Export ListNotations.

(** Outcome of a modelled C++ function.  [UB] stands for undefined behaviour or a failed guard (null
    dereference, out-of-bounds access, ...); [OutOfFuel] for a loop that the model stopped following;
    [Unmodelled] for a situation the model deliberately does not follow.
    None of them is ever turned into a normal-looking value. *)
Inductive err := UB | OutOfFuel | Unmodelled.
Inductive res (A : Type) := Ok (a : A) | Err (e : err).
Arguments Ok {A} a.
Arguments Err {A} e.

Definition bind {A B} (m : res A) (f : A -> res B) : res B :=
  match m with Ok a => f a | Err e => Err e end.
Notation "'do' x <- m ; k" := (bind m (fun x => k)) (at level 200, x pattern, m at level 100, k at level 200, right associativity).

Definition isOk {A} (m : res A) : Prop := exists a, m = Ok a.

Lemma bind_ok {A B} (m : res A) (f : A -> res B) b :
  bind m f = Ok b -> exists a, m = Ok a /\ f a = Ok b.
Proof. destruct m as [a|e]; cbn; intros H; [eauto | discriminate]. Qed.

(** C++ memory indexed by small integers (object ids, array slots) is a total function; a store
    writes one slot.  Which slots are valid is tracked by explicit counters in each model. *)
Definition fupd {A} (f : nat -> A) (i : nat) (x : A) : nat -> A :=
  fun j => if Nat.eqb j i then x else f j.

Lemma fupd_same {A} (f : nat -> A) i x : fupd f i x i = x.
Proof. unfold fupd; now rewrite Nat.eqb_refl. Qed.

Lemma fupd_diff {A} (f : nat -> A) i x j : j <> i -> fupd f i x j = f j.
Proof. unfold fupd; intros H; apply Nat.eqb_neq in H; now rewrite H. Qed.

Lemma fupd_eq {A} (f : nat -> A) i x j :
  fupd f i x j = if Nat.eqb j i then x else f j.
Proof. reflexivity. Qed.

(** exchange of two slots *)
Definition fswap {A} (f : nat -> A) (i j : nat) : nat -> A :=
  fupd (fupd f i (f j)) j (f i).

Definition transp (i j k : nat) : nat := if k =? j then i else if k =? i then j else k.

Lemma fswap_transp {A} (f : nat -> A) i j k : fswap f i j k = f (transp i j k).
Proof.
  unfold fswap, fupd, transp.
  destruct (Nat.eqb_spec k j), (Nat.eqb_spec k i); subst; auto.
Qed.

Lemma transp_inj i j a b : transp i j a = transp i j b -> a = b.
Proof.
  unfold transp.
  destruct (Nat.eqb_spec a j), (Nat.eqb_spec a i), (Nat.eqb_spec b j), (Nat.eqb_spec b i); subst; intros; subst; congruence.
Qed.

Lemma transp_perm i j s n :
  s <= i < s + n -> s <= j < s + n -> Permutation (map (transp i j) (seq s n)) (seq s n).
Proof.
  intros Hi Hj. apply NoDup_Permutation_bis.
  - apply FinFun.Injective_map_NoDup; [intros a b; apply transp_inj | apply seq_NoDup].
  - rewrite map_length; lia.
  - intros x Hx. apply in_map_iff in Hx as [y [<- Hy]]. apply in_seq in Hy. apply in_seq.
    unfold transp. destruct (Nat.eqb_spec y j), (Nat.eqb_spec y i); lia.
Qed.

Lemma fswap_perm {A} (f : nat -> A) i j s n :
  s <= i < s + n -> s <= j < s + n ->
  Permutation (map (fswap f i j) (seq s n)) (map f (seq s n)).
Proof.
  intros Hi Hj.
  rewrite (map_ext _ (fun k => f (transp i j k))) by (intros; apply fswap_transp).
  rewrite <- (map_map (transp i j) f).
  apply Permutation_map, transp_perm; auto.
Qed.

Lemma map_seq_ext {A} (f g : nat -> A) s n :
  (forall i, s <= i < s + n -> f i = g i) -> map f (seq s n) = map g (seq s n).
Proof. intros H. apply map_ext_in. intros a Ha. apply in_seq in Ha. auto. Qed.

Lemma seq_snoc s n : seq s (S n) = seq s n ++ [s + n].
Proof. replace (S n) with (n + 1) by lia. now rewrite seq_app. Qed.
