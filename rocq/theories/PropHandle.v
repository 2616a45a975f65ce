(** Property C90: the smart pointers of src/handle.hpp (the type of every node and arc pointer).  [alloc] is any allocator: it never yields nullptr or the address of a live
    object, but may use addresses again.  The specification (HandleSpec.v) has no addresses: a handle refers to an object, and objects are never confused. *)
From Verif Require Import Base HandleModel HandleSpec HandleProofs.

(** C90: a program that uses no object after its end sees what the specification says, whatever the allocator *)
Theorem C90_handles_are_references : forall alloc, allocator alloc -> forall os t obs, o_run o_empty os = Some (t, obs) -> exists s, h_run alloc h_empty os = Ok (s, obs).
Proof. exact handles_refine. Qed.
Print Assumptions C90_handles_are_references.
(** C90: a program that ends no object (the use the header describes) sees what the specification says, and its only fault is a use of nullptr, which is undefined *)
Theorem C90_without_free : forall alloc, allocator alloc -> forall os, no_free os ->
  match o_run o_empty os with Some (_, obs) => exists s, h_run alloc h_empty os = Ok (s, obs) | None => h_run alloc h_empty os = Err UB end.
Proof. exact handles_no_free. Qed.
Print Assumptions C90_without_free.
(** C90, refuted: "a handle that converts to true can be used".  A second handle to an ended object still converts to true. *)
Theorem C90_true_means_alive_refuted : exists alloc, allocator alloc /\ exists os h s obs, h_run alloc h_empty (os ++ [HBool h]) = Ok (s, obs ++ [OBool true]) /\
  h_run alloc h_empty (os ++ [HRead h]) = Err UB.
Proof. exists bump. split; [exact bump_ok|]. exists [HMake 0 5; HCopy 1 0; HFree 0], 1. do 2 eexists. split; [|reflexivity]. instantiate (1 := []). reflexivity. Qed.
Print Assumptions C90_true_means_alive_refuted.
(** C90, refuted: "equal handles were made for the same object", and a fault is noticed.  After free, a later object gets the same address: the old handle equals the new
    one and reads the new object, where the specification says that the program is at fault. *)
Theorem C90_equal_means_same_refuted : exists alloc, allocator alloc /\ exists os h g s, o_run o_empty (os ++ [HEq h g; HRead h]) = None /\
  (exists t i j, o_run o_empty os = Some (t, []) /\ o_ref t h = Some i /\ o_ref t g = Some j /\ i <> j) /\
  h_run alloc h_empty (os ++ [HEq h g; HRead h]) = Ok (s, [OBool true; OVal 7]).
Proof.
  exists bump. split; [exact bump_ok|]. exists [HMake 0 5; HCopy 1 0; HFree 0; HMake 2 7], 1, 2. eexists. split; [reflexivity|]. split; [|reflexivity].
  do 3 eexists. split; [reflexivity|]. split; [reflexivity|]. split; [reflexivity|discriminate].
Qed.
Print Assumptions C90_equal_means_same_refuted.
(** C90, refuted: "a handle that was moved from is null, so an object has one owner".  Ending it through both handles is undefined. *)
Theorem C90_move_gives_up_refuted : exists alloc, allocator alloc /\ exists os h g s, h_run alloc h_empty (os ++ [HMove g h; HBool h]) = Ok (s, [OBool true]) /\
  h_run alloc h_empty (os ++ [HMove g h; HFree g; HFree h]) = Err UB.
Proof. exists bump. split; [exact bump_ok|]. exists [HMake 0 5], 0, 1. eexists. split; reflexivity. Qed.
Print Assumptions C90_move_gives_up_refuted.
(** C90, refuted: "of two different handles one is less than the other", as an ordered container or a sort needs.  There is no operator<, and the comparison of two handles
    compares their conversions to bool. *)
Theorem C90_order_refuted : exists alloc, allocator alloc /\ exists os h g s, h_run alloc h_empty (os ++ [HEq h g; HLess h g; HLess g h]) = Ok (s, [OBool false; OBool false; OBool false]).
Proof. exists bump. split; [exact bump_ok|]. exists [HMake 0 5; HMake 1 6], 0, 1. eexists. reflexivity. Qed.
Print Assumptions C90_order_refuted.

(** two objects, three handles: a write through one handle is read through its copy; one object ends and its address is used again; the conditions hold *)
Example C90_nontrivial : allocator bump /\
  (let os := [HMake 0 5; HCopy 1 0; HMake 2 6; HWrite 1 8; HRead 0; HRead 2; HEq 0 1; HEq 0 2; HFree 2; HBool 2; HMake 3 9; HRead 3; HEq 3 1; HRead 1; HFree 2] in
   exists t s, o_run o_empty os = Some (t, [OVal 8; OVal 6; OBool true; OBool false; OBool false; OVal 9; OBool false; OVal 8]) /\
     h_run bump h_empty os = Ok (s, [OVal 8; OVal 6; OBool true; OBool false; OBool false; OVal 9; OBool false; OVal 8])) /\
  (let os := [HMake 0 5; HMove 1 0; HRead 1; HNull 1; HRead 1] in no_free os /\ o_run o_empty os = None /\ h_run bump h_empty os = Err UB).
Proof.
  split; [exact bump_ok|]. split; [do 2 eexists; split; reflexivity|]. cbn zeta. split; [|split; reflexivity]. intros h H. cbn in H. intuition discriminate.
Qed.
