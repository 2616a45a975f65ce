(** The TSP example: a search that misses the best tour. *)
From Verif Require Import Base DDModel DDSpec DDFrame DDRestricted DDExact DDExamples SearchModel SearchProofs SearchEx TspModel TspSpec TspProofs.

(** a symmetric distance matrix on six cities *)
Definition tdist (a b : nat) : Z :=
  nth b (nth a [[5; 7; 7; 9; 4; 8]; [7; 3; 6; 1; 3; 9]; [7; 6; 9; 2; 9; 9]; [9; 1; 2; 5; 3; 9]; [4; 3; 9; 3; 9; 9]; [8; 9; 9; 9; 9; 7]]%Z []) 0%Z.
Lemma tdist_fits : fits 6 tdist.
Proof.
  assert (B : forall a b, (tdist a b <= 9)%Z).
  { intros a b. unfold tdist. do 6 (destruct a as [|a]; [do 6 (destruct b as [|b]; [cbn; lia|]); destruct b; cbn; lia|]). destruct a; cbn; destruct b; lia. }
  assert (W : forall l a, (walk tdist a l <= 9 * Z.of_nat (length l))%Z).
  { induction l as [|b l IH]; intros a; cbn [walk length]; [lia|]. specialize (B a b). specialize (IH b). lia. }
  intros a l _ _ L. specialize (W l a). lia.
Qed.
Lemma tsp_misses : exists s, search (tsp_prob 6 tdist) (exSrt (tsp_prob 6 tdist)) 20 nolim 100 1 None = Ok (s, Emptied) /\ b_primal (s_b s) = 30%Z /\ s_seen s = 9 /\
  tour 6 [3; 2; 5; 0; 4; 1] /\ walk tdist 1 [3; 2; 5; 0; 4; 1] = 27%Z.
Proof.
  destruct (so_inv (tsp_prob 6 tdist) (run_ (tsp_prob 6 tdist) 1 None nolim)
    (mkObs 30 [4; 5; 0; 2; 3; 1] [[4; 5; 0; 2; 3; 1]; [2; 3; 4; 0; 5; 1]; [4; 0; 2; 3; 5; 1]; [0; 2; 3; 4; 5; 1]] 40 9 0 0 false 19 false true None)%Z)
    as (s & H & H1 & _ & _ & _ & H5 & _); [intros; now apply tsp_eqb_eq|vm_compute; reflexivity|].
  exists s. split; [exact H|]. split; [exact H1|]. split; [exact H5|]. split; [|reflexivity].
  exists [3; 2; 5; 0; 4]. csplit; auto.
  - repeat constructor; cbn; lia.
  - intros c. cbn. lia.
Qed.
(** the tours on three cities *)
Lemma tour3 : tour 3 [2; 0; 1] /\ walk tdist 1 [2; 0; 1] = 20%Z /\ fits 3 tdist.
Proof.
  csplit.
  - exists [2; 0]. csplit; auto. + repeat constructor; cbn; lia. + intros c. cbn. lia.
  - reflexivity.
  - intros a l Ha Hl L. apply tdist_fits; try lia. eapply Forall_impl; [|exact Hl]. cbn. lia.
Qed.
