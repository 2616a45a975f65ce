(** Counterexamples for Vec. *)
From Verif Require Import Base VecModel VecSpec VecProofs.
Local Open Scope N_scope.

(** three elements; v[0]=9 leaves one *)
Definition cutV : list (vop nat) := [VNew 0 4; VPush 0 5; VPush 0 6; VPush 0 7; VAll 0; VSet 0 0 9; VAll 0]%nat.
Lemma cutV_runs : exists s, v_run 0%nat 4294967296 vst0 cutV = Ok ([RUnit; RN 0; RN 1; RN 2; RL [5; 6; 7]; RUnit; RL [9]]%nat, s).
Proof. eexists. vm_compute. reflexivity. Qed.

(** [Vec b(std::move(a)); a.clear(); a.push_back(8);] changes b *)
Definition aliasV : list (vop nat) := [VNew 0 4; VPush 0 5; VMove 1 0; VAll 1; VClear 0; VPush 0 8; VAll 1]%nat.
Lemma aliasV_runs : exists s, v_run 0%nat 4294967296 vst0 aliasV = Ok ([RUnit; RN 0; RUnit; RL [5]; RUnit; RN 0; RL [8]]%nat, s).
Proof. eexists. vm_compute. reflexivity. Qed.
