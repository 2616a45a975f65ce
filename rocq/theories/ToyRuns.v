(** The toy programs on their own instances. *)
From Verif Require Import Base DDModel DDSpec DDFrame DDMerge DDRestricted DDExact DDWide DDExamples DDRelaxedEnd SearchModel SearchProofs SearchEx TspModel TspSpec TspProofs MispModel MispSpec TourEnd ToyModel ToySpec ToyProofs ToyTwo ToyFoo ToyEnd.
From Coq Require Import NArith Nnat Permutation.

(** the search ends with an empty queue and this value *)
Definition ends_with {St} (P : prob St) (v : Z) (r : res (@sst St * ending)) : bool :=
  match so P r with Ok o => (o_primal o =? v)%Z && (match o_end o with None => true | Some _ => false end) | Err _ => false end.
Lemma ends_with_inv {St} (P : prob St) v r : (forall a, p_eqb P a a = true) -> ends_with P v r = true -> exists s, r = Ok (s, Emptied) /\ b_primal (s_b s) = v.
Proof.
  intros HE. unfold ends_with. destruct (so P r) as [o|] eqn:E; [|discriminate]. intros H. apply andb_true_iff in H as [H1 H2].
  destruct (so_inv P r o HE E) as (s & Er & Ep & _). exists s. destruct (o_end o); [discriminate|]. split; auto. rewrite Ep. lia.
Qed.
(** tsptoy reports the shortest tour for every width from 30 on, the default 64 included *)
Lemma toy_result w : 30 <= w -> (N.of_nat w < 4294967296)%N -> exists s, trun toyP w = Ok (s, Emptied) /\ b_primal (s_b s) = 94%Z /\
  exists l, tour1 6 l /\ b_inc (s_b s) = map Z.of_nat l /\ walk toy_d 1 l = 94%Z.
Proof.
  intros L Hw. pose proof (y_setting 6 toy_d ltac:(lia) (exSrt toyP) 40 w toy_fits (exSrt_perm toyP) ltac:(lia) Hw) as SE.
  assert (B0 : be toyP (sentinel toyP) (sentinel toyP)) by (unfold be; lia).
  assert (G : forall s, trun toyP w = Ok (s, Emptied) -> b_primal (s_b s) <> 2147483647%Z ->
    exists l, tour1 6 l /\ b_inc (s_b s) = map Z.of_nat l /\ b_primal (s_b s) = walk toy_d 1 l).
  { intros s E N. destruct (search_genuine toyP (y_inv 6) t_h 5 (exSrt toyP) 40 w SE nolim None B0 400 s Emptied E) as [G _].
    destruct (G N) as (ls & u & E1 & E2 & H). apply y_solutions in H as (l & T & E3 & E4); [|lia]. exists l. csplit; auto; [now rewrite E1, E3|now rewrite E2, E4]. }
  assert (Q : exists s, trun toyP w = Ok (s, Emptied) /\ b_primal (s_b s) = 94%Z).
  { destruct (y_search_wide 6 toy_d ltac:(lia) (exSrt toyP) 40 w nolim toy_fits (exSrt_perm toyP) ltac:(lia) Hw) with (fuel := 400) as (s & E & _ & O).
    - intros l _. pose proof (toy_low l 1). lia.
    - reflexivity.
    - now apply toy_narrow.
    - lia.
    - exists s. split; auto. destruct tour1_94 as [T W]. apply O in T. rewrite W in T.
      destruct (G s E) as (l & T1 & _ & T3); [lia|]. apply toy_shortest in T1. lia. }
  destruct Q as (s & E & V). exists s. csplit; auto. destruct (G s E) as (l & T1 & T2 & T3); [rewrite V; lia|]. exists l. csplit; auto. lia.
Qed.
(** tsptoy2 with its default width 64 *)
Lemma toy2_run : ends_with toy2P 94 (trun toy2P 64) = true.
Proof. vm_cast_no_check (eq_refl true). Qed.
(** foo with its own width 1: the cut set of the first relaxed diagram contains the root, which is refused as seen *)
Lemma foo_run1 : so fooP (trun fooP 1) = Ok (mkObs 10 [1; 5]%Z [[1; 5]%Z] 1 1 0 0 false 1 true true None).
Proof. vm_cast_no_check (eq_refl (Ok (mkObs 10 [1; 5]%Z [[1; 5]%Z] 1 1 0 0 false 1 true true None))). Qed.
Lemma foo_result : exists s, trun fooP 1 = Ok (s, Emptied) /\ b_primal (s_b s) = 10%Z /\ b_inc (s_b s) = [1; 5]%Z /\ s_seen s = 1.
Proof.
  destruct (so_inv fooP _ _ N.eqb_refl foo_run1) as (s & E & H1 & H2 & _ & _ & H3 & _). exists s. csplit; auto.
Qed.
