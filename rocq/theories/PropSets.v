(** Properties C24-C29, C31, C52: Range, NatSet, GNSet and the helpers on sets (src/util.hpp). *)
From Verif Require Import Base BitModel BitProofs SetModel SetSpec SetProofs GSetProofs SetEnd.
Local Open Scope Z_scope.
Local Ltac vsplit := repeat match goal with |- _ /\ _ => split; [vm_compute; reflexivity|] end; try match goal with |- _ = _ => vm_compute; reflexivity end.

(** a non-trivial history: {1,3} | {70,200} (grown twice), minus {3}, and a removal *)
Definition got (r : res gset) : gset := match r with Ok s => s | Err _ => g_new 0 end.
Definition ga := got (g_ofList [1; 3]).
Definition ga1 := got (g_insert ga 70).
Definition ga2 := got (g_insert ga1 200).
Definition gb := got (g_ofList [3]).
Definition gb1 := got (g_insert gb 300).
Definition gc := got (g_diff (g_copy ga2) gb1).
Definition gd := got (g_union (g_copy gc) gb1).
Definition ge := got (g_remove gd 300).
Example exG : g_mxw ge = 8 /\ g_list ge = Ok [1; 3; 70; 200] /\ g_eq ge ga2 = true /\
  gn_built ge (fun q => q <> 300 /\ (((q = 200 \/ q = 70 \/ In q [1; 3]) /\ ~ (q = 300 \/ In q [3])) \/ (q = 300 \/ In q [3]))).
Proof.
  split; [vm_compute; reflexivity|]. split; [vm_compute; reflexivity|]. split; [vm_compute; reflexivity|].
  assert (B : gn_built gb1 (fun q => q = 300 \/ In q [3])) by (apply (gb_insert gb (fun q => In q [3])); [apply gb_list|]; vm_compute; reflexivity).
  assert (A : gn_built ga2 (fun q => q = 200 \/ q = 70 \/ In q [1; 3])).
  { apply (gb_insert ga1 (fun q => q = 70 \/ In q [1; 3])); [apply (gb_insert ga (fun q => In q [1; 3])); [apply gb_list|]|]; vm_compute; reflexivity. }
  apply (gb_remove gd (fun q => ((q = 200 \/ q = 70 \/ In q [1; 3]) /\ ~ (q = 300 \/ In q [3])) \/ (q = 300 \/ In q [3]))); [|vm_compute; reflexivity].
  apply (gb_union (g_copy gc) (fun q => (q = 200 \/ q = 70 \/ In q [1; 3]) /\ ~ (q = 300 \/ In q [3])) gb1 (fun q => q = 300 \/ In q [3])); [|exact B|vm_compute; reflexivity].
  apply gb_copy. apply (gb_diff (g_copy ga2) (fun q => q = 200 \/ q = 70 \/ In q [1; 3]) gb1 (fun q => q = 300 \/ In q [3])); [|exact B|vm_compute; reflexivity]. now apply gb_copy.
Qed.

(** C24: whatever the history of constructors and operations, contains answers membership in the mathematical set *)
Theorem C24_contains : forall s A p, gn_built s A -> 0 <= p -> exists b, g_contains s p = Ok b /\ (b = true <-> A p).
Proof. exact g_contains_built. Qed.
Print Assumptions C24_contains.
(** the operations are defined on every set with at least one word (insert up to 2^20 - 1), so the theorem above is not empty *)
Theorem C24_progress : forall s A u B, gn_built s A -> gn_built u B -> g_mxw s <= 32767 -> g_mxw u <= 32767 ->
  (forall p, 0 < g_mxw s -> 0 <= p < 1048576 -> exists s', g_insert s p = Ok s') /\ (forall p, exists s', g_remove s p = Ok s') /\ (exists s', g_complement s = Ok s') /\
  (exists s', g_union s u = Ok s') /\ (exists s', g_inter s u = Ok s') /\ (exists s', g_diff s u = Ok s') /\ (forall p, exists s', g_removeBelow s p = Ok s').
Proof. exact g_progress. Qed.
Print Assumptions C24_progress.
(** but insert never ends on a set with zero words (such as an empty interval), or for values from 2^21 on *)
Theorem C24_insert_refuted : (exists s, gn_built s (fun q => 1 <= q <= 0) /\ g_insert s 5 = Err OutOfFuel) /\
  (exists s, gn_built s (fun q => In q [1]) /\ g_insert s 4194304 = Err OutOfFuel).
Proof. exact g_insert_diverges. Qed.
Print Assumptions C24_insert_refuted.
(** and contains of a negative number reads outside the words *)
Theorem C24_contains_negative_refuted : exists s, gn_built s (fun q => In q [1]) /\ g_contains s (-1) = Err UB.
Proof. exact g_contains_negative. Qed.
Print Assumptions C24_contains_negative_refuted.

(** C25: iteration lists the members in increasing order, once each; size is their number; empty holds iff there is none.
    Hypotheses: members fit the short delivered by the iterator; the set is not a copy of a set of zero words. *)
Theorem C25_iteration : forall s A, gn_built s A -> (forall q, A q -> q < 32768) -> (g_mxw s = 0 -> g_null s = true) -> g_mxw s <= 32767 ->
  exists l, g_list s = Ok l /\ lists l A /\ g_size s = Ok (length l) /\ exists b, g_empty s = Ok b /\ (b = true <-> forall q, ~ A q).
Proof. exact g_iteration. Qed.
Print Assumptions C25_iteration.
(** in particular no hypothesis on the words for sets with a member *)
Theorem C25_iteration_nonempty : forall s A q0, gn_built s A -> A q0 -> (forall q, A q -> q < 32768) -> exists l, g_list s = Ok l /\ lists l A.
Proof. exact g_iteration_nonempty. Qed.
Print Assumptions C25_iteration_nonempty.
(** without the hypotheses: a copy of a set of zero words iterates over garbage; members from 32768 on are delivered negative *)
Theorem C25_iteration_refuted : (exists s, gn_built s (fun q => 1 <= q <= 0) /\ g_size s = Ok 0%nat /\ g_list s = Err UB) /\
  (exists s, gn_built s (fun q => q = 40000 \/ In q [1]) /\ g_list s = Ok [1; -25536]).
Proof. exact g_iteration_bad. Qed.
Print Assumptions C25_iteration_refuted.
Example C25_nontrivial : exists s, g_ofList [200; 5; 70; 5] = Ok s /\ g_mxw s = 4 /\ g_list s = Ok [5; 70; 200] /\ g_size s = Ok 3%nat /\ g_empty s = Ok false.
Proof. eexists. vsplit. Qed.

(** C26: == decides equality of the sets, != its negation, whatever the capacities *)
Theorem C26_equality : forall s A u B, gn_built s A -> gn_built u B -> (g_eq s u = true <-> forall q, A q <-> B q) /\ g_ne s u = negb (g_eq s u).
Proof. exact g_equality. Qed.
Print Assumptions C26_equality.
Example C26_nontrivial : exists s u v, g_ofList [5] = Ok s /\ g_insert s 200 = Ok u /\ g_remove u 200 = Ok v /\ g_mxw s = 1 /\ g_mxw v = 4 /\ g_eq s v = true /\ g_eq u s = false /\ g_ne u s = true.
Proof. do 3 eexists. vsplit. Qed.

(** C27 is false: equal sets of different capacities have different hashes *)
Theorem C27_hash_refuted : exists s u (A : Z -> Prop), gn_built s A /\ gn_built u A /\ g_eq s u = true /\ g_hash s <> g_hash u.
Proof. exact g_hash_differs. Qed.
Print Assumptions C27_hash_refuted.
(** it holds for equal capacities *)
Theorem C27_hash_partial : forall s A u B, gn_built s A -> gn_built u B -> g_mxw s = g_mxw u -> g_eq s u = true -> g_hash s = g_hash u.
Proof. exact g_hash_same. Qed.
Print Assumptions C27_hash_partial.
Example C27_nontrivial : exists s u v w, g_ofList [5; 9] = Ok s /\ g_ofList [5; 9] = Ok u /\ g_insert u 17 = Ok v /\ g_remove v 17 = Ok w /\ g_mxw s = g_mxw w /\ g_eq s w = true /\ g_hash s = 544%N.
Proof. do 4 eexists. vsplit. Qed.

(** C28: removeBelow keeps exactly the members >= p *)
Theorem C28_removeBelow : forall s A p, gn_built s A -> exists s', g_removeBelow s p = Ok s' /\ gn_built s' (fun q => p <= q /\ A q).
Proof. exact g_removeBelow_built. Qed.
Print Assumptions C28_removeBelow.
(** removeAbove keeps exactly the members <= p if largestPossible() (_nbp) is at least every member, and the words reach it *)
Theorem C28_removeAbove_partial : forall s A p, gn_built s A -> 0 <= p -> (forall q, A q -> q <= g_nbp s) -> (p < g_nbp s -> p + 1 < 64 * g_mxw s) ->
  exists s', g_removeAbove s p = Ok s' /\ gn_built s' (fun q => q <= p /\ A q).
Proof. exact g_removeAbove_built. Qed.
Print Assumptions C28_removeAbove_partial.
(** both conditions hold for sets made from a list of values below 65536 by insertions and removals *)
Theorem C28_removeAbove_inserted : forall l s p, g_ofList l = Ok s -> (forall q, In q l -> q < 65536) -> (length l < 64)%nat -> 0 <= p < 65535 ->
  exists s', g_removeAbove s p = Ok s' /\ gn_built s' (fun q => q <= p /\ In q l).
Proof. exact g_removeAbove_list. Qed.
Print Assumptions C28_removeAbove_inserted.
(** otherwise false: after {1} | {50}, removeAbove(10) keeps 50; GNSet(0,63).removeAbove(63) writes past its words *)
Theorem C28_removeAbove_refuted : (exists s u v w, g_ofList [1] = Ok s /\ g_ofList [50] = Ok u /\ g_or s u = Ok v /\ g_removeAbove v 10 = Ok w /\ g_contains w 50 = Ok true) /\
  (exists s, g_interval 0 63 = Ok s /\ g_removeAbove s 63 = Err UB) /\ g_removeAbove (g_new 64) 63 = Err UB.
Proof. exact g_removeAbove_bad. Qed.
Print Assumptions C28_removeAbove_refuted.
Example C28_nontrivial : exists s u v, g_ofList [200; 5; 70; 64; 63] = Ok s /\ g_removeAbove s 69 = Ok u /\ g_list u = Ok [5; 63; 64] /\ g_removeBelow u 63 = Ok v /\ g_list v = Ok [63; 64] /\
  g_nbp s = 200 /\ g_mxw s = 4.
Proof. do 3 eexists. vsplit. Qed.

(** C29: NatSet<n> *)
Theorem C29_contains : forall n t A p, nat_built n t A -> 0 <= p < 64 * Z.of_nat n -> exists b, ns_contains t p = Ok b /\ (b = true <-> A p).
Proof. exact ns_contains_built. Qed.
Print Assumptions C29_contains.
Theorem C29_insert_defined : forall n t A p, nat_built n t A -> 0 <= p < 64 * Z.of_nat n -> exists t', ns_insert t p = Ok t'.
Proof. exact ns_insert_built. Qed.
Print Assumptions C29_insert_defined.
Theorem C29_iteration : forall n t A, nat_built n t A -> (1 <= n <= 512)%nat ->
  exists l, ns_list t = Ok l /\ lists l A /\ ns_size t = length l /\ (ns_empty t = true <-> forall q, ~ A q).
Proof. exact ns_iteration. Qed.
Print Assumptions C29_iteration.
Theorem C29_largest : forall n t A, nat_built n t A -> (ns_empty t = true -> ns_largest t = -1) /\ (ns_empty t = false -> A (ns_largest t)) /\ forall q, A q -> q <= ns_largest t.
Proof. exact ns_largest_built. Qed.
Print Assumptions C29_largest.
Theorem C29_equality_hash : forall n t A u B, nat_built n t A -> nat_built n u B -> (ns_eq t u = true <-> forall q, A q <-> B q) /\ (ns_eq t u = true -> ns_hash t = ns_hash u).
Proof. exact ns_equality. Qed.
Print Assumptions C29_equality_hash.
(** the interval constructor asserts more than it needs: NatSet<1>(0,63) aborts in a debug build *)
Theorem C29_interval_refuted : exists n lb ub, 0 <= lb <= ub /\ ub < 64 * Z.of_nat n /\ ns_interval n lb ub = Err UB.
Proof. exact ns_interval_bad. Qed.
Print Assumptions C29_interval_refuted.
Example C29_nontrivial : exists t u v, ns_ofList 3 [150; 5; 70] = Ok t /\ ns_interval 3 60 72 = Ok u /\ ns_insert (ns_inter (ns_complement u) (ns_union t u)) 64 = Ok v /\
  ns_list v = Ok [5; 64; 150] /\ ns_largest v = 150 /\ nat_built 3 v (fun q => q = 64 \/ (0 <= q < 64 * Z.of_nat 3 /\ ~ 60 <= q <= 72) /\ (In q [150; 5; 70] \/ 60 <= q <= 72)).
Proof.
  do 3 eexists. split; [vm_compute; reflexivity|]. split; [vm_compute; reflexivity|]. split; [vm_compute; reflexivity|]. split; [vm_compute; reflexivity|]. split; [vm_compute; reflexivity|].
  eapply nb_insert; [apply nb_inter; [apply nb_complement; apply nb_interval|apply nb_union; [apply nb_list|apply nb_interval]]|]; vm_compute; reflexivity.
Qed.

(** C31: a Range lists the integers from [from] to [to] (excluded) one by one, in either direction; size is their number *)
Theorem C31_iteration : forall r, exists l, r_list (Z.to_nat (r_size r)) r = Ok l /\ Z.of_nat (length l) = r_size r /\ (forall q, In q l <-> in_range_of r q) /\
  (r_from r <= r_to r -> StronglySorted Z.lt l) /\ (r_to r <= r_from r -> StronglySorted Z.gt l).
Proof. exact range_iteration. Qed.
Print Assumptions C31_iteration.
(** close includes both ends *)
Theorem C31_close : forall f t q, in_range_of (r_close f t) q <-> f <= q <= t \/ t <= q <= f.
Proof. exact range_close. Qed.
Print Assumptions C31_close.
Theorem C31_increasing : forall f t q, (in_range_of (r_openInc f t) q <-> f <= q < t) /\ (in_range_of (r_closeInc f t) q <-> f <= q <= t).
Proof. exact range_inc. Qed.
Print Assumptions C31_increasing.
(** flip lists the same values in the other order, for forward ranges *)
Theorem C31_flip_partial : forall r, r_from r <= r_to r -> exists l, r_list (Z.to_nat (r_size r)) r = Ok l /\ r_list (Z.to_nat (r_size (r_flip r))) (r_flip r) = Ok (rev l).
Proof. exact range_flip. Qed.
Print Assumptions C31_flip_partial.
(** for a backward range flip is off by two *)
Theorem C31_flip_refuted : exists r l l', r_list (Z.to_nat (r_size r)) r = Ok l /\ r_list (Z.to_nat (r_size (r_flip r))) (r_flip r) = Ok l' /\ l' <> rev l.
Proof. exact range_flip_bad. Qed.
Print Assumptions C31_flip_refuted.
(** contains includes the excluded end, and a backward range contains nothing although it lists values *)
Theorem C31_contains_refuted : (exists r p, r_contains r p = true /\ ~ in_range_of r p) /\ (exists r p, r_contains r p = false /\ in_range_of r p).
Proof. exact range_contains_bad. Qed.
Print Assumptions C31_contains_refuted.
Theorem C31_contains_partial : forall r p, r_from r <= r_to r -> p <> r_to r -> (r_contains r p = true <-> in_range_of r p).
Proof. exact range_contains_ok. Qed.
Print Assumptions C31_contains_partial.
(** GNSet(Range) has exactly the listed members, for ranges within 0..65535 *)
Theorem C31_gnset : forall r, (forall q, in_range_of r q -> 0 <= q < 65536) -> r_largest r <> 0 -> r_from r <= 65536 -> r_to r <= 65536 ->
  exists s, g_range r = Ok s /\ gn_built s (in_range_of r).
Proof. exact g_range_built. Qed.
Print Assumptions C31_gnset.
(** the range 0 down to -1 has the member 0, but no word is allocated for it *)
Theorem C31_gnset_refuted : exists r, (forall q, in_range_of r q <-> q = 0) /\ g_range r = Err UB.
Proof. exact g_range_bad. Qed.
Print Assumptions C31_gnset_refuted.
Example C31_nontrivial : r_list 5 (mkRange 9 4) = Ok [9; 8; 7; 6; 5] /\ r_list 5 (r_flip (mkRange 4 9)) = Ok [8; 7; 6; 5; 4] /\ r_list 3 (r_close 7 5) = Ok [7; 6; 5] /\
  exists s, g_range (mkRange 9 4) = Ok s /\ g_list s = Ok [5; 6; 7; 8; 9].
Proof. vsplit. eexists. vsplit. Qed.

(** C52: min, max, filter, sum, min / max of a term over the selected members *)
Theorem C52_min : forall s A, gn_built s A -> (forall q, A q -> q < 32768) -> g_mxw s <= 32767 ->
  exists m, g_min s = Ok m /\ ((A m /\ forall q, A q -> m <= q) \/ (m = INT_MAX /\ forall q, ~ A q)).
Proof. exact g_min_built. Qed.
Print Assumptions C52_min.
Theorem C52_max : forall s A, gn_built s A -> (forall q, A q -> q < 32768) -> g_mxw s <= 32767 ->
  exists m, g_max s = Ok m /\ ((A m /\ forall q, A q -> q <= m) \/ (m = INT_MIN /\ forall q, ~ A q)).
Proof. exact g_max_built. Qed.
Print Assumptions C52_max.
Theorem C52_filter : forall s A p, gn_built s A -> (forall q, A q -> q < 32768) -> (g_mxw s = 0 -> g_null s = true) ->
  exists s', g_filter s p = Ok s' /\ exists B, gn_built s' B /\ forall q, B q <-> A q /\ p q = true.
Proof. exact g_filter_built. Qed.
Print Assumptions C52_filter.
Theorem C52_sum : forall s A t, gn_built s A -> (forall q, A q -> q < 32768) -> (g_mxw s = 0 -> g_null s = true) ->
  exists l, lists l A /\ g_sum s t = Ok (fold_right (fun q a => t q + a) 0 l).
Proof. exact g_sum_built. Qed.
Print Assumptions C52_sum.
Theorem C52_minBy : forall s A f t, gn_built s A -> (forall q, A q -> q < 32768) -> (g_mxw s = 0 -> g_null s = true) ->
  exists m, g_minBy s f t = Ok m /\ m <= INT_MAX /\ (forall q, A q -> f q = true -> m <= t q) /\ (m = INT_MAX \/ exists q, A q /\ f q = true /\ m = t q).
Proof. exact g_minBy_built. Qed.
Print Assumptions C52_minBy.
Theorem C52_maxBy : forall s A f t, gn_built s A -> (forall q, A q -> q < 32768) -> (g_mxw s = 0 -> g_null s = true) ->
  exists m, g_maxBy s f t = Ok m /\ INT_MIN <= m /\ (forall q, A q -> f q = true -> t q <= m) /\ (m = INT_MIN \/ exists q, A q /\ f q = true /\ m = t q).
Proof. exact g_maxBy_built. Qed.
Print Assumptions C52_maxBy.
Example C52_nontrivial : exists s u, g_ofList [200; 5; 70] = Ok s /\ g_min s = Ok 5 /\ g_max s = Ok 200 /\ g_filter s (fun v => v <? 100) = Ok u /\ g_list u = Ok [5; 70] /\
  g_sum s (fun v => 2 * v) = Ok 550 /\ g_minBy s (fun v => 10 <? v) (fun v => - v) = Ok (-200) /\ g_maxBy s (fun v => v <? 100) (fun v => v + 1) = Ok 71.
Proof. do 2 eexists. vsplit. Qed.
