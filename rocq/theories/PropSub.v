(** Property C30: ofs - S for NatSet (src/util.hpp:160-260). *)
From Verif Require Import Base BitModel SetModel SetSpec SubModel SubProofs SubEnd.
Local Open Scope Z_scope.
Local Ltac vsplit := repeat match goal with |- _ /\ _ => split; [vm_compute; reflexivity|] end; try match goal with |- _ = _ => vm_compute; reflexivity end.

(** full statement, false in general: C30_sub_refuted *)
Definition C30_full : Prop := forall n t A ofs, nat_built n t A -> (1 <= n <= 512)%nat -> (forall v, A v -> 0 <= ofs - v < 64 * Z.of_nat n) ->
  exists r l, ns_sub ofs t = Ok r /\ ns_list r = Ok l /\ lists l (fun q => exists v, A v /\ q = ofs - v).
Theorem C30_sub_refuted : ~ C30_full.
Proof. exact sub_refuted. Qed.
Print Assumptions C30_sub_refuted.
(** elements are lost; a word is written past the end; a word is shifted by 64 *)
Theorem C30_sub_wrong_refuted :
  (exists t r, ns_ofList 4 [0; 64] = Ok t /\ ns_sub 194 t = Ok r /\ ns_list r = Ok [130]) /\
  (exists t, ns_ofList 2 [70] = Ok t /\ ns_sub 134 t = Err UB) /\
  (exists t, ns_ofList 4 [0; 64] = Ok t /\ ns_sub 64 t = Err UB).
Proof. exact sub_wrong. Qed.
Print Assumptions C30_sub_wrong_refuted.
(** it holds for sets of one word *)
Theorem C30_sub_one_word : forall t A ofs, nat_built 1 t A -> (forall v, A v -> 0 <= ofs - v < 64) ->
  exists r l, ns_sub ofs t = Ok r /\ ns_list r = Ok l /\ lists l (fun q => exists v, A v /\ q = ofs - v).
Proof. exact sub_one_word. Qed.
Print Assumptions C30_sub_one_word.
(** and if ofs exceeds the largest member lv by less than 64, unless ofs = lv is a multiple of 64 *)
Theorem C30_sub_near : forall n t A ofs lv, nat_built n t A -> (1 <= n <= 512)%nat -> A lv -> (forall v, A v -> v <= lv) -> (forall v, A v -> 0 <= ofs - v < 64 * Z.of_nat n) ->
  ofs - lv < 64 -> ~ (ofs = lv /\ lv mod 64 = 0) ->
  exists r l, ns_sub ofs t = Ok r /\ ns_list r = Ok l /\ lists l (fun q => exists v, A v /\ q = ofs - v).
Proof. exact sub_near. Qed.
Print Assumptions C30_sub_near.
(** more generally under sub_ok *)
Theorem C30_sub_partial : forall n t A ofs, nat_built n t A -> (1 <= n <= 512)%nat -> (forall v, A v -> 0 <= ofs - v < 64 * Z.of_nat n) ->
  (forall lv, A lv -> (forall v, A v -> v <= lv) -> sub_ok n ofs lv) ->
  exists r l, ns_sub ofs t = Ok r /\ ns_list r = Ok l /\ lists l (fun q => exists v, A v /\ q = ofs - v).
Proof. exact sub_built. Qed.
Print Assumptions C30_sub_partial.
Example C30_nontrivial : (exists t r, ns_ofList 1 [1; 5; 20] = Ok t /\ ns_sub 20 t = Ok r /\ ns_list r = Ok [0; 15; 19]) /\
  (exists t r, ns_ofList 2 [1; 5; 90] = Ok t /\ ns_sub 100 t = Ok r /\ ns_list r = Ok [10; 95; 99]) /\
  (exists t r, ns_ofList 4 [0; 10; 70] = Ok t /\ ns_sub 140 t = Ok r /\ ns_list r = Ok [70; 130; 140] /\ sub_ok 4 140 70) /\
  (exists t r, ns_ofList 4 [3; 66; 126] = Ok t /\ ns_sub 200 t = Ok r /\ ns_list r = Ok [74; 134; 197]).
Proof.
  split; [do 2 eexists; vsplit|]. split; [do 2 eexists; vsplit|]. split; [do 2 eexists|do 2 eexists; vsplit].
  split; [vm_compute; reflexivity|]. split; [vm_compute; reflexivity|]. split; [vm_compute; reflexivity|].
  right. split; [intros [X _]; vm_compute in X; discriminate|]. intros _ _. split; [left; lia|]. vm_compute. reflexivity.
Qed.
