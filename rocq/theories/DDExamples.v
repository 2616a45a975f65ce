(** Concrete instances used as examples next to the theorems about diagrams. *)
From Verif Require Import Base MSortModel DDModel DDSpec DDFrame DDExpand KnapModel KnapProofs.

(** knapsack2.cpp on four items, capacity 9 *)
Definition exP : prob sks := knapsack2 [2; 3; 4; 5]%Z [6; 7; 8; 5]%Z 9%Z frac_exact.
Definition exI : sks -> Prop := kn_inv [2; 3; 4; 5]%Z.
Lemma exP_len : 1 <= kn_I [2; 3; 4; 5]%Z.
Proof. unfold kn_I. cbn. lia. Qed.
Lemma exP_valid : valid_model exP exI fst 4.
Proof.
  apply (knapsack2_valid [2; 3; 4; 5]%Z [6; 7; 8; 5]%Z 9%Z exP_len); auto.
  - repeat constructor; lia.
  - cbn. repeat constructor; unfold ratio_ge; cbn; lia.
  - repeat constructor; cbn; lia.
Qed.
Lemma exP_like : knap_like [2; 3; 4; 5]%Z [6; 7; 8; 5]%Z 9%Z exP.
Proof. apply knapsack2_like. apply exP_len. Qed.
Lemma exP_init : exI (p_init exP) /\ p_init exP <> p_target exP.
Proof. split; [left; cbn; unfold kn_I; cbn; lia|discriminate]. Qed.
Lemma exP_range : in_range exP (p_init exP) 0.
Proof. apply (kn_in_range _ _ _ exP_len _ exP_like); [repeat constructor; lia|lia]. Qed.

(** an order in which std::list::sort may leave a layer: by bound, worst first (dd.hpp:231-247) *)
Definition exSrt {St} (P : prob St) (d : dd St) (l : list nat) : list nat :=
  msort_list (fun a b => negb (isBetter P (n_bound (d_nd d a)) (n_bound (d_nd d b)))) 0 l.

(** observable result of a compilation: sink value, sink labels, exactness flag, number of nodes *)
Definition outcome {St} (r : res (dd St)) : res (Z * list Z * bool * nat) :=
  do d <- r ; do t <- trg_node d ; Ok (n_bound t, n_lab t, d_exact d, d_nn d).
