(** Properties C42, C55: union-find (src/uf.hpp). *)
From Verif Require Import Base UFModel UFSpec UFProofs UFEnd.
From Coq Require Import Relation_Operators.

(** a history with chains of merges, a merge within a class, path compression and a set made late *)
Definition exU : list uop := [UMake; UMake; UMake; UMake; UMake; UMerge 0 1; UMerge 2 3; UMerge 3 0; UMerge 1 2; UFind 0; UMake; UMerge 5 4; UFind 2]%nat.
Example exU_runs : exists u, u_run u_new exU = Ok ([0; 1; 2; 3; 4; 0; 2; 3; 1; 1; 5; 5; 1]%nat, u) /\ legal 0 exU /\ made exU = 6%nat /\ u_sz u 1%nat = 4%Z /\
  (exists u1, u_same u 0 2 = Ok (u1, true)) /\ (exists u1, u_same u 0 4 = Ok (u1, false)) /\ connected (merges exU) 0 2.
Proof.
  eexists. split; [vm_compute; reflexivity|]. split; [cbn; repeat split; lia|]. split; [reflexivity|]. split; [vm_compute; reflexivity|].
  split; [eexists; vm_compute; reflexivity|]. split; [eexists; vm_compute; reflexivity|].
  apply rst_trans with 3%nat; [apply rst_sym|apply rst_sym]; apply rst_step; cbn; auto.
Qed.

(** every history that names only nodes made before runs to its end (up to 2^31-1 nodes) *)
Theorem C42_uf_defined : forall os, legal 0 os -> (Z.of_nat (made os) <= 2147483647)%Z -> exists rs u, u_run u_new os = Ok (rs, u).
Proof. exact uf_defined. Qed.
Print Assumptions C42_uf_defined.

(** C42: setFor(a) == setFor(b) iff a and b are connected by merges *)
Theorem C42_uf_same_iff_connected : forall os rs u a b, (Z.of_nat (made os) <= 2147483647)%Z -> u_run u_new os = Ok (rs, u) -> a < made os -> b < made os ->
  exists u' c, u_same u a b = Ok (u', c) /\ (c = true <-> connected (merges os) a b).
Proof. exact uf_same. Qed.
Print Assumptions C42_uf_same_iff_connected.

(** C42: setFor gives a member of the class, a root, and the size stored there is the number of members *)
Theorem C42_uf_representative : forall os rs u a u' r, (Z.of_nat (made os) <= 2147483647)%Z -> u_run u_new os = Ok (rs, u) -> a < made os ->
  u_setFor (S (made os)) u a = Ok (u', r) ->
  r < made os /\ connected (merges os) a r /\ u_par u' r = None /\ exists l, class_of (merges os) (made os) r l /\ u_sz u' r = Z.of_nat (length l).
Proof. exact uf_repr. Qed.
Print Assumptions C42_uf_representative.

(** C42, merge: it returns a member of the class of its first argument; this is the representative of the merged class exactly when the
    classes were already the same or the first one was strictly larger *)
Theorem C42_uf_merge_result : forall os rs u a b u' r, (Z.of_nat (made os) <= 2147483647)%Z -> u_run u_new os = Ok (rs, u) -> a < made os -> b < made os ->
  u_merge (S (made os)) u a b = Ok (u', r) ->
  r < made os /\ connected (merges os) a r /\
  (u_par u' r = None <-> (connected (merges os) a b \/
     exists la lb, class_of (merges os) (made os) a la /\ class_of (merges os) (made os) b lb /\ length lb < length la)).
Proof. exact uf_merge. Qed.
Print Assumptions C42_uf_merge_result.

(** so the claim "merge returns the representative" is false: two singletons *)
Theorem C42_merge_result_refuted : exists os rs u a b u' r u2 r2, u_run u_new os = Ok (rs, u) /\ a < made os /\ b < made os /\
  u_merge (S (made os)) u a b = Ok (u', r) /\ u_par u' r <> None /\ u_setFor (S (made os)) u' r = Ok (u2, r2) /\ r2 <> r.
Proof. exact merge_returns_child. Qed.
Print Assumptions C42_merge_result_refuted.

(** C55: setFor never recurses deeper than log2 of the number of nodes (plus the call itself) *)
Theorem C55_uf_depth_logarithmic : forall os rs u a d, (Z.of_nat (made os) <= 2147483647)%Z -> u_run u_new os = Ok (rs, u) -> a < made os -> Nat.log2 (made os) < d ->
  exists u' r, u_setFor d u a = Ok (u', r).
Proof. exact uf_depth. Qed.
Print Assumptions C55_uf_depth_logarithmic.
Example C55_nontrivial : exists rs u, u_run u_new [UMake; UMake; UMake; UMake; UMerge 0 1; UMerge 2 3; UMerge 1 3]%nat = Ok (rs, u) /\
  u_setFor 2 u 0 = Err OutOfFuel /\ isOk (u_setFor 3 u 0).
Proof. do 2 eexists. split; [vm_compute; reflexivity|]. split; [vm_compute; reflexivity|]. eexists. vm_compute. reflexivity. Qed.
