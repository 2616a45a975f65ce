(** C82: the bump allocator and its adapter (src/stlAllocAdapter.hpp).
      [packed a bs b]: the blocks bs (start, size) lie one after the other from a to b;  [blocks i xs]: the blocks handed out in the buffer of allocator i;
      [uses_made k os]: the program os uses allocators that exist;  [no_copy os]: it copies none. *)
From Coq Require Import NArith List.
From Verif Require Import Base StackModel StackProofs.
Import ListNotations.
Open Scope N_scope.

(** every program: no failure; the blocks of each buffer lie one after the other inside it, so they are apart *)
Theorem C82_blocks_apart : forall cap os, no_copy os -> uses_made 0 os -> exists cs xs, steps cap [] os = Ok (cs, xs) /\ length xs = length os /\
  forall i, exists b, packed 0 (blocks i xs) b /\ b <= cap /\
    (forall j k x y, nth_error (blocks i xs) j = Some x -> nth_error (blocks i xs) k = Some y -> j <> k -> apart x y) /\
    (forall x, In x (blocks i xs) -> fst x + snd x <= cap).
Proof. exact stack_program. Qed.
Print Assumptions C82_blocks_apart.
(** a request is answered with a block exactly if it fits behind all blocks handed out before: giving blocks back makes no room *)
Theorem C82_full : forall cap os o i n, no_copy os -> uses_made 0 os -> asks o = Some (i, n) -> uses_made 0 (os ++ [o]) -> forall cs xs, steps cap [] os = Ok (cs, xs) ->
  exists b, packed 0 (blocks i xs) b /\ (b + n <= cap -> exists cs', step cap cs o = Ok (cs', Block (i, b) n)) /\ (cap < b + n -> step cap cs o = Ok (cs, Bad)).
Proof. exact stack_next. Qed.
Print Assumptions C82_full.
(** up to max_size an adapter asks for as many bytes as the elements need *)
Theorem C82_adapter_size : forall cap i sz n m, cap < 2 ^ 64 -> 0 < sz -> ad_max_size cap (Some i) sz = Ok m -> n <= m -> bytes n sz = n * sz /\ n * sz <= cap.
Proof. exact adapter_size. Qed.
Print Assumptions C82_adapter_size.
(** two adapters compare equal exactly if they share their allocator *)
Theorem C82_equality : forall a b : adapter, ad_eqb a b = true <-> a = b.
Proof. exact adapter_eq. Qed.
Print Assumptions C82_equality.
Example C82_equality_case : ad_eqb (Some 1%nat) (Some 1%nat) = true /\ ad_eqb (Some 1%nat) None = false /\ ad_eqb None None = true.
Proof. auto. Qed.
Example C82_nontrivial : let os := [New; New; Alloc 0 10; AdAlloc (Some 1%nat) 8 3; Free 0; Alloc 0 6; AdAlloc (Some 0%nat) 8 1; Alloc 1 40] in
  no_copy os /\ uses_made 0 os /\ exists cs, steps 20 [] os = Ok (cs, [Made 0; Made 1; Block (0%nat, 0) 10; Bad; Nothing; Block (0%nat, 10) 6; Bad; Bad]).
Proof.
  cbv zeta. split; [intros i H; cbn in H; intuition discriminate|]. split; [cbn; repeat split; eauto; try (eexists; split; [reflexivity|auto])|]. eexists. reflexivity.
Qed.
(** (a) beyond max_size the number of bytes wraps: 2^61+1 elements of eight bytes are granted eight bytes *)
Theorem C82_wrap_refuted : exists cap os cs p, no_copy os /\ uses_made 0 os /\ os = [New; AdAlloc (Some 0%nat) 8 (2 ^ 61 + 1)] /\ cap = 16 /\
  steps cap [] os = Ok (cs, [Made 0; Block p 8]).
Proof.
  exists 16. do 3 eexists. split; [|split; [|split; [reflexivity|split; [reflexivity|vm_compute; reflexivity]]]];
    [intros i H; cbn in H; intuition discriminate|cbn; repeat split; eauto].
Qed.
Print Assumptions C82_wrap_refuted.
(** (b) no alignment: after a block of one byte the next block, for an element of eight bytes, starts at byte 1 *)
Theorem C82_alignment_refuted : exists cap os cs, no_copy os /\ uses_made 0 os /\ os = [New; AdAlloc (Some 0%nat) 1 1; AdAlloc (Some 0%nat) 8 1] /\
  steps cap [] os = Ok (cs, [Made 0; Block (0%nat, 0) 1; Block (0%nat, 1) 8]) /\ 1 mod 8 <> 0.
Proof.
  exists 64. do 2 eexists. split; [|split; [|split; [reflexivity|split; [vm_compute; reflexivity|discriminate]]]];
    [intros i H; cbn in H; intuition discriminate|cbn; repeat split; eauto].
Qed.
Print Assumptions C82_alignment_refuted.
(** (c) a copy hands out the memory of the original: both give the same bytes away *)
Theorem C82_copy_refuted : exists cap os cs, uses_made 0 os /\ os = [New; Copy 0; Alloc 0 8; Alloc 1 8] /\
  steps cap [] os = Ok (cs, [Made 0; Made 1; Block (0%nat, 0) 8; Block (0%nat, 0) 8]) /\ ~ apart (0, 8) (0, 8).
Proof.
  exists 64. do 2 eexists. split; [|split; [reflexivity|split; [vm_compute; reflexivity|intros [H|H]; apply H; reflexivity]]]. cbn. repeat split; auto.
Qed.
Print Assumptions C82_copy_refuted.
