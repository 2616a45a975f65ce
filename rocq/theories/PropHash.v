(** Properties C40, C41: the hash tables of src/lighthash.hpp and src/hashtable.hpp. *)
From Verif Require Import Base HashModel HashSpec HashProofs HashEnd.

(** C40 hypotheses on a concrete history: two buckets (requested size 2), keys that collide, a key inserted twice, overwriting, two clears *)
Definition exH : list (hop nat nat) :=
  [HInsertAt 7 70; HInsertAt 9 90; HInsertAt 4 40; HGet 9; HGet 5; HSize; HInsert 9 91; HGet 9; HInsert 11 110; HSafeInsert 7 71; HGet 7; HAll; HClear; HGet 7; HAll; HSize; HInsertAt 7 72; HGet 7; HClear;
   HInsertAt 8 80; HGet 7; HGet 8]%nat.
Example exH_runs : h_new 2 = Ok t2 /\ (clears exH < 4294967296)%N /\ (forall a b, Nat.eqb a b = true -> idh a = idh b) /\
  fst (h_run idh Nat.eqb t2 exH) =
    [OUnit; OUnit; OUnit; OFound (Some 90); OFound None; OSize 3; OUnit; OFound (Some 91); OUnit; OUnit; OFound (Some 71); OAll [(4, 40); (7, 71); (11, 110); (9, 91); (7, 70)];
     OUnit; OFound None; OAll []; OSize 0; OUnit; OFound (Some 72); OUnit; OUnit; OFound None; OFound (Some 80)]%nat.
Proof.
  split; [vm_compute; reflexivity|]. split; [vm_compute; reflexivity|]. split; [|vm_compute; reflexivity].
  intros a b H. apply Nat.eqb_eq in H. now subst.
Qed.

(** C40: with fewer than 2^32 calls of clear(), every history of a table is a history of a dictionary (getLoc gives the latest entry with
    an equal key inserted since the last clear, doOnAll visits each live entry once, size counts them modulo 2^32) *)
Theorem C40_table_is_dictionary : forall K V (hash : K -> N) (eqb : K -> K -> bool), (forall a b, eqb a b = true -> hash a = hash b) ->
  forall sz (t : htab K V) os rs t', (2 <= sz)%N -> h_new sz = Ok t -> (clears os < 4294967296)%N -> h_run hash eqb t os = (rs, t') ->
  exists d, dict_run eqb [] os rs d /\ h_size t' = (N.of_nat (length d) mod 4294967296)%N.
Proof. exact @dict_table. Qed.
Print Assumptions C40_table_is_dictionary.

(** C40, look-ups of LHashtable: after any history of getLoc / insertAt / safeInsert / clear / size / doOnAll *)
Theorem C40_lookup_since_clear : forall K V (hash : K -> N) (eqb : K -> K -> bool), (forall a b, eqb a b = true -> hash a = hash b) ->
  forall sz (t : htab K V) os k, (2 <= sz)%N -> h_new sz = Ok t -> (clears os < 4294967296)%N -> (forall k v, ~ In (HInsert k v) os) ->
  looks_up eqb (since_clear [] os) k (snd (h_getLoc hash eqb (snd (h_run hash eqb t os)) k)) /\
  Permutation (h_doOnAll (snd (h_run hash eqb t os))) (since_clear [] os) /\
  h_size (snd (h_run hash eqb t os)) = (N.of_nat (length (since_clear [] os)) mod 4294967296)%N.
Proof. exact @lookup_since. Qed.
Print Assumptions C40_lookup_since_clear.

(** C40 fails for 2^32 calls of clear(): an entry inserted before them is found although nothing was inserted since the last clear *)
Theorem C40_magic_wrap_refuted : exists (hash : nat -> N) (eqb : nat -> nat -> bool) sz (t : htab nat nat) os k v,
  (forall a b, eqb a b = true -> hash a = hash b) /\ (2 <= sz)%N /\ h_new sz = Ok t /\ (forall k v, ~ In (HInsert k v) os) /\
  since_clear [] os = [] /\ snd (h_getLoc hash eqb (snd (h_run hash eqb t os)) k) = Some v.
Proof. exact magic_wrap_refuted. Qed.
Print Assumptions C40_magic_wrap_refuted.

(** C41 *)
Theorem C41_table_size : forall sz, (2 <= sz)%N -> exists mxs, pick 512 sz = Ok mxs /\ In mxs primes /\
  ((sz <= mxs)%N /\ (forall p, In p primes -> sz <= p -> mxs <= p)%N \/ (forall p, In p primes -> p < sz /\ p <= mxs)%N).
Proof. exact pick_ok. Qed.
Print Assumptions C41_table_size.
Example C41_nontrivial : pick 512 548 = Ok 1229%N /\ pick 512 547 = Ok 547%N /\ pick 512 1000000 = Ok 209939%N /\ pick 512 2 = Ok 2%N.
Proof. vm_compute. repeat split. Qed.

(** the listed sizes are prime numbers *)
Theorem C41_listed_sizes_are_prime : forall p, In p primes -> (2 <= p)%N /\ forall a b, (p = a * b)%N -> a = 1%N \/ b = 1%N.
Proof. exact primes_prime. Qed.
Print Assumptions C41_listed_sizes_are_prime.

(** C41 fails for the requested sizes 0 and 1: the search reads _primes[-1], however long it runs *)
Theorem C41_tiny_size_refuted : forall sz fuel, (sz < 2)%N -> (9 <= fuel)%nat -> pick fuel sz = Err UB.
Proof. exact pick_small. Qed.
Print Assumptions C41_tiny_size_refuted.
