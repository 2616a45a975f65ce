(** Counterexamples and examples for the hash tables. *)
From Verif Require Import Base HashModel HashSpec HashProofs.
From Coq Require Import Nnat.

(** requested sizes 0 and 1: the search reads _primes[-1] *)
Lemma pick_small : forall sz fuel, (sz < 2)%N -> (9 <= fuel)%nat -> pick fuel sz = Err UB.
Proof.
  intros sz fuel Hsz Hf. do 9 (destruct fuel as [|fuel]; [lia|]).
  assert (H : sz = 0%N \/ sz = 1%N) by lia. clear Hf Hsz. destruct H as [-> | ->]; vm_compute; reflexivity.
Qed.

(** after 2^32 calls of clear() a stale entry is found again *)
Definition t2 : htab nat nat := match h_new 2 with Ok t => t | Err _ => mkH (fun _ => []) (fun _ => 0%N) 0 0 0 end.
Definition idh (k : nat) : N := N.of_nat k.
Definition os_stale (n : nat) : list (hop nat nat) := HInsertAt 7%nat 70%nat :: repeat HClear n.
Lemma stale_empty n : n <> 0%nat -> since_clear [] (os_stale n) = [].
Proof.
  intros Hn. unfold os_stale. cbn [since_clear]. generalize [(7%nat, 70%nat)]. revert Hn.
  induction n as [|n IH]; intros Hn d; [lia|]. cbn [repeat since_clear]. destruct n; [reflexivity | apply IH; lia].
Qed.
Lemma stale_found n : n <> 0%nat -> ((1 + N.of_nat n) mod U32 = 1)%N ->
  snd (h_getLoc idh Nat.eqb (snd (h_run idh Nat.eqb t2 (os_stale n))) 7%nat) = Some 70%nat.
Proof.
  intros Hn Hw. unfold os_stale. cbn [h_run h_do].
  set (t1 := h_insertAt t2 (fst (h_getLoc idh Nat.eqb t2 7%nat)) 7%nat 70%nat).
  pose proof (run_clears idh Nat.eqb n t1) as H.
  destruct (h_run idh Nat.eqb t1 (repeat HClear n)) as [rs t3]. cbn [snd] in *. rewrite H.
  replace (n =? 0)%nat with false by (symmetry; apply Nat.eqb_neq; exact Hn).
  replace (h_magic t1) with 1%N by (vm_compute; reflexivity). rewrite Hw. vm_compute. reflexivity.
Qed.
Lemma magic_wrap_refuted : exists (hash : nat -> N) (eqb : nat -> nat -> bool) sz (t : htab nat nat) os k v,
  (forall a b, eqb a b = true -> hash a = hash b) /\ (2 <= sz)%N /\ h_new sz = Ok t /\ (forall k v, ~ In (HInsert k v) os) /\
  since_clear [] os = [] /\ snd (h_getLoc hash eqb (snd (h_run hash eqb t os)) k) = Some v.
Proof.
  assert (Hn : exists n, n <> 0%nat /\ ((1 + N.of_nat n) mod U32 = 1)%N).
  { exists (N.to_nat 4294967296). split; [lia|]. rewrite N2Nat.id. vm_compute. reflexivity. }
  destruct Hn as [n [Hn Hw]]. exists idh, Nat.eqb, 2%N, t2, (os_stale n), 7%nat, 70%nat.
  split; [intros a b H; apply Nat.eqb_eq in H; now subst|]. split; [lia|]. split; [vm_compute; reflexivity|]. split; [|split; [now apply stale_empty | now apply stale_found]].
  intros k v [H|H]; [discriminate|]. apply repeat_spec in H. discriminate.
Qed.

(** primality of the listed numbers, by trial division *)
Fixpoint no_div (fuel : nat) (p d : N) : bool :=
  match fuel with O => false | S f => if (p <? d * d)%N then true else negb (p mod d =? 0)%N && no_div f p (d + 1) end.
Lemma no_div_ok fuel : forall p d, no_div fuel p d = true -> forall a, (d <= a)%N -> (a * a <= p)%N -> (p mod a <> 0)%N.
Proof.
  induction fuel as [|f IH]; intros p d H a Ha Hp; cbn in H; [discriminate|].
  destruct (p <? d * d)%N eqn:E; [nia|]. apply andb_prop in H as [H1 H2].
  destruct (N.eq_dec a d) as [->|]; [lia|]. apply (IH p (d + 1)%N H2); [lia | exact Hp].
Qed.
Lemma primes_checked : forallb (fun p => no_div 500 p 2) primes = true.
Proof. vm_compute. reflexivity. Qed.
Lemma primes_prime : forall p, In p primes -> (2 <= p)%N /\ forall a b, (p = a * b)%N -> a = 1%N \/ b = 1%N.
Proof.
  intros p Hp. assert (H2 := primes_pos p Hp). split; [exact H2|]. intros a b E.
  pose proof primes_checked as H. rewrite forallb_forall in H. specialize (H p Hp).
  assert (Ha : a <> 0%N) by (intros ->; lia). assert (Hb : b <> 0%N) by (intros ->; lia).
  destruct (N.eq_dec a 1) as [|Ha1]; [auto|]. destruct (N.eq_dec b 1) as [|Hb1]; [auto|]. exfalso.
  destruct (N.le_ge_cases a b) as [Hab|Hab].
  - apply (no_div_ok _ _ _ H a); [lia | nia|]. rewrite E, N.mul_comm. apply N.mod_mul. exact Ha.
  - apply (no_div_ok _ _ _ H b); [lia | nia|]. rewrite E. apply N.mod_mul. exact Hb.
Qed.
