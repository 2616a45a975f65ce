(** Counterexample for union-find. *)
From Verif Require Import Base UFModel UFSpec UFProofs.

(** two singletons: merge returns the first root although it has just been put below the second *)
Definition uf2 : uf := match u_run u_new [UMake; UMake] with Ok (_, u) => u | Err _ => u_new end.
Definition uf2m : uf := match u_merge 3 uf2 0 1 with Ok (u, _) => u | Err _ => u_new end.
Lemma merge_returns_child : exists os rs u a b u' r u2 r2, u_run u_new os = Ok (rs, u) /\ a < made os /\ b < made os /\
  u_merge (S (made os)) u a b = Ok (u', r) /\ u_par u' r <> None /\ u_setFor (S (made os)) u' r = Ok (u2, r2) /\ r2 <> r.
Proof.
  exists [UMake; UMake], [0; 1], uf2, 0, 1, uf2m, 0, (match u_setFor 3 uf2m 0 with Ok (u, _) => u | Err _ => u_new end), 1.
  split; [reflexivity|]. split; [cbn; lia|]. split; [cbn; lia|]. split; [reflexivity|]. split; [vm_compute; discriminate|]. split; [reflexivity|]. lia.
Qed.
