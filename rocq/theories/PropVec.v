(** Property C37: Vec (src/vec.hpp) behaves like a sequence. *)
From Verif Require Import Base VecModel VecSpec VecProofs VecEnd.

(** a history with growth from capacity 0, removal in the middle and at the end, copy, both assignments, move construction, clear and
    a write past the end *)
Definition exV : list (vop nat) := [VNew 0 0; VPush 0 10; VPush 0 11; VPush 0 12; VPush 0 13; VRemove 0 1; VAll 0; VCopy 1 0; VAt 0 0 99; VAll 1; VNew 2 1; VAssign 2 0; VAll 2;
  VMove 3 2; VRemove 3 2; VPop 3; VAll 3; VMoveAssign 1 3; VSize 3; VAll 1; VClear 1; VSet 1 1 7; VSize 1; VGet 1 1; VAssign 1 1; VSize 1]%nat.
Example exV_runs : allowed_run 4294967296 (fun _ => None) exV = true /\ exists s, v_run 0 4294967296 vst0 exV = Ok ([RUnit; RN 0; RN 1; RN 2; RN 3; RTN 13 3; RL [10; 13; 12];
  RUnit; RUnit; RL [10; 13; 12]; RUnit; RUnit; RL [99; 13; 12]; RUnit; RTN 12 2; RT 13; RL [99]; RUnit; RN 0; RL [99]; RUnit; RUnit; RN 2; RT 7; RUnit; RN 2], s).
Proof. split; [vm_compute; reflexivity | eexists; vm_compute; reflexivity]. Qed.

(** C37: every history of operations on any number of vectors is a history of independent sequences, whatever the unwritten memory contains.
    Sequences stay shorter than 2^31 elements; the index type has at least 32 bits.  One clause of the property is false and appears in
    the specification as the code behaves: v[k]=x for k < size() cuts the sequence after position k (see C37_set_truncates_refuted).
    A vector that was moved from by the move constructor must not be used (see C37_move_alias_refuted). *)
Theorem C37_vec_is_sequence_partial : forall (T : Type) (junk : T) (W : N) (os : list (vop T)), (4294967296 <= W)%N -> allowed_run W (fun _ => None) os = true ->
  exists rs s E, v_run junk W vst0 os = Ok (rs, s) /\ seq_run (fun _ => None) os rs E.
Proof. intros. apply vec_sequences; assumption. Qed.
Print Assumptions C37_vec_is_sequence_partial.

(** v[i]=x for i < size() should change only element i; it also drops all later elements *)
Theorem C37_set_truncates_refuted : exists (os : list (vop nat)) l x s rs, os = rs ++ [VAll 0; VSet 0 0 x; VAll 0]%nat /\ length l = 3 /\
  exists rr, v_run 0 4294967296 vst0 os = Ok (rr ++ [RL l; RUnit; RL [x]], s).
Proof.
  destruct cutV_runs as [s E]. exists cutV, [5; 6; 7], 9, s, [VNew 0 4; VPush 0 5; VPush 0 6; VPush 0 7]%nat.
  split; [reflexivity|]. split; [reflexivity|]. eexists [_; _; _; _]. exact E.
Qed.
Print Assumptions C37_set_truncates_refuted.

(** move construction leaves the source pointing at the array of the new vector: clearing and refilling the source changes the new vector *)
Theorem C37_move_alias_refuted : exists s, v_run 0 4294967296 vst0 [VNew 0 4; VPush 0 5; VMove 1 0; VAll 1; VClear 0; VPush 0 8; VAll 1]%nat =
  Ok ([RUnit; RN 0%N; RUnit; RL [5]; RUnit; RN 0%N; RL [8]], s).
Proof. exact aliasV_runs. Qed.
Print Assumptions C37_move_alias_refuted.
