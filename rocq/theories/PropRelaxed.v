(** Properties C07, C08, C09, C11, C12, C13, C20, C21, C54: relaxed diagrams on layered models. *)
From Verif Require Import Base DDModel DDSpec DDRestricted DDRestricted2 DDMerge DDRelaxed2 DDRelaxedEnd TabModel DDExamples KnapModel.

(** C54 (relaxed half; the restricted half is in PropRestricted.v): the compilation ends without error after at most depth + 2 rounds,
    for every width (0 included) and every way [srt] of ordering a layer. *)
Theorem C54_relaxed_terminates : forall St (P : prob St) I rank N, valid_model P I rank N ->
  forall rs rb rl, rs <> p_target P -> I rs -> in_range P rs rb ->
  forall srt : dd St -> list nat -> list nat, (forall d l, Permutation (srt d l) l) ->
  forall fuel d primal w, started d rs rb rl -> N + 1 < fuel + rank rs ->
  exists d', rx_compute P srt fuel d primal w = Ok d'.
Proof. exact @relaxed_terminates. Qed.
Print Assumptions C54_relaxed_terminates.

(** C07: the sink's value is a dual bound for the solutions that beat the primal. *)
Theorem C07_relaxed_dual_bound : forall St (P : prob St) I rank N, valid_model P I rank N ->
  forall rs rb rl, rs <> p_target P -> I rs -> in_range P rs rb ->
  forall srt : dd St -> list nat -> list nat, (forall d l, Permutation (srt d l) l) ->
  forall fuel d primal w d', started d rs rb rl -> N + 1 < fuel + rank rs -> rx_compute P srt fuel d primal w = Ok d' ->
  exists n, trg_node d' = Ok n /\ n_state n = p_target P /\
    forall V, solution P rs rb V -> bt P V primal -> be P (n_bound n) V.
Proof. exact @relaxed_dual_bound. Qed.
Print Assumptions C07_relaxed_dual_bound.

(** C08: a relaxed diagram that claims to be exact. *)
Theorem C08_relaxed_exact_is_optimal : forall St (P : prob St) I rank N, valid_model P I rank N ->
  forall rs rb rl, rs <> p_target P -> I rs -> in_range P rs rb ->
  forall srt : dd St -> list nat -> list nat, (forall d l, Permutation (srt d l) l) ->
  forall fuel d primal w d', started d rs rb rl -> N + 1 < fuel + rank rs -> rx_compute P srt fuel d primal w = Ok d' ->
  d_exact d' = true ->
  exists n, trg_node d' = Ok n /\
    (bt P (n_bound n) (sentinel P) -> genuine P rs rb rl (p_target P) (n_bound n) (n_lab n)) /\
    forall V, solution P rs rb V -> bt P V primal -> be P (n_bound n) V.
Proof. exact @relaxed_exact. Qed.
Print Assumptions C08_relaxed_exact_is_optimal.

(** C09: width, when every two states of a layer can be merged and there is no dominance closure. *)
Theorem C09_relaxed_width : forall St (P : prob St) I rank N, valid_model P I rank N ->
  p_sdom P = None ->
  (forall a b, I a -> I b -> a <> p_target P -> b <> p_target P -> rank a = rank b -> p_smf P a b <> None) ->
  forall rs rb rl, rs <> p_target P -> I rs -> in_range P rs rb ->
  forall srt : dd St -> list nat -> list nat, (forall d l, Permutation (srt d l) l) ->
  forall fuel d primal w d', started d rs rb rl -> N + 1 < fuel + rank rs -> rx_compute P srt fuel d primal w = Ok d' ->
  forall k, length (layer_nodes d' k) <= Nat.max w 1.
Proof. exact @relaxed_width. Qed.
Print Assumptions C09_relaxed_width.

(** C11: every node of the diagram that is flagged exact.  The sink is flagged exact from the start and carries the sentinel
    until a solution reaches it. *)
Theorem C11_exact_nodes_genuine : forall St (P : prob St) I rank N, valid_model P I rank N ->
  forall rs rb rl, rs <> p_target P -> I rs -> in_range P rs rb ->
  forall srt : dd St -> list nat -> list nat, (forall d l, Permutation (srt d l) l) ->
  forall fuel d primal w d', started d rs rb rl -> N + 1 < fuel + rank rs -> rx_compute P srt fuel d primal w = Ok d' ->
  forall i, In i (d_an d') -> let n := d_nd d' i in n_exact n = true -> d_trg d' <> Some i \/ bt P (n_bound n) (sentinel P) ->
    genuine P rs rb rl (n_state n) (n_bound n) (n_lab n).
Proof. exact @relaxed_exact_nodes. Qed.
Print Assumptions C11_exact_nodes_genuine.

(** C12: the cut set. *)
Theorem C12_cutset_covers : forall St (P : prob St) I rank N, valid_model P I rank N ->
  forall rs rb rl, rs <> p_target P -> I rs -> in_range P rs rb ->
  forall srt : dd St -> list nat -> list nat, (forall d l, Permutation (srt d l) l) ->
  forall fuel d primal w d', started d rs rb rl -> N + 1 < fuel + rank rs -> rx_compute P srt fuel d primal w = Ok d' ->
  exists cs, computeCutSet d' = Ok cs /\ NoDup cs /\
    (forall i, In i cs -> let n := d_nd d' i in In i (d_an d') /\ n_state n <> p_target P /\ n_exact n = true /\
        genuine P rs rb rl (n_state n) (n_bound n) (n_lab n)) /\
    (forall V, solution P rs rb V -> bt P V primal ->
       (exists i v, In i cs /\ compl P (n_state (d_nd d' i)) v /\ be P (n_bound (d_nd d' i) + v) V) \/
       (exists i l sink, let n := d_nd d' i in In i (d_an d') /\ n_exact n = true /\ trg_node d' = Ok sink /\
          In l (p_labels P (n_state n)) /\ p_stf P (n_state n) l = Some (p_target P) /\
          be P (n_bound sink) (n_bound n + p_cost P (n_state n) l) /\ be P (n_bound n + p_cost P (n_state n) l) V)).
Proof. exact @relaxed_cutset. Qed.
Print Assumptions C12_cutset_covers.

(** C13: backward bounds never under-promise. *)
Theorem C13_backward_bound : forall St (P : prob St) I rank N, valid_model P I rank N ->
  forall rs rb rl, rs <> p_target P -> I rs -> in_range P rs rb ->
  forall srt : dd St -> list nat -> list nat, (forall d l, Permutation (srt d l) l) ->
  forall fuel d primal w d', started d rs rb rl -> N + 1 < fuel + rank rs -> rx_compute P srt fuel d primal w = Ok d' ->
  forall i v, In i (d_an d') -> let n := d_nd d' i in d_trg d' <> Some i -> compl P (n_state n) v ->
    bt P (n_bound n + v) primal -> be P (n_bb n) v.
Proof. exact @relaxed_backward. Qed.
Print Assumptions C13_backward_bound.
(** hence a node whose bound plus backward bound does not beat the primal leads to no improving solution *)
Theorem C13_prune_safe : forall St (P : prob St) I rank N, valid_model P I rank N ->
  forall rs rb rl, rs <> p_target P -> I rs -> in_range P rs rb ->
  forall srt : dd St -> list nat -> list nat, (forall d l, Permutation (srt d l) l) ->
  forall fuel d primal w d', started d rs rb rl -> N + 1 < fuel + rank rs -> rx_compute P srt fuel d primal w = Ok d' ->
  forall i v, In i (d_an d') -> let n := d_nd d' i in d_trg d' <> Some i -> compl P (n_state n) v ->
    ~ bt P (n_bound n + n_bb n) primal -> ~ bt P (n_bound n + v) primal.
Proof. exact @relaxed_prune_safe. Qed.
Print Assumptions C13_prune_safe.

(** The hypotheses hold for a knapsack with local bound, dominance and a partial merge function.  Width 2 merges and is not exact;
    width 9 is exact; the cut set of the former is the first layer. *)
Example relaxed_nontrivial : valid_model exP exI fst 4 /\ exI (p_init exP) /\ p_init exP <> p_target exP /\
  in_range exP (p_init exP) 0 /\ (forall d l, Permutation (exSrt exP d l) l) /\ 4 + 1 < 10 + fst (p_init exP) /\
  started (initDefault exP (dd_empty exP true)) (p_init exP) 0 [] /\
  outcome (run exP (exSrt exP) 10 (SRelaxed 2) (initialBest exP)) = Ok (21%Z, [1; 1; 1; 0]%Z, false, 14) /\
  (do d <- run exP (exSrt exP) 10 (SRelaxed 2) (initialBest exP) ; computeCutSet d) = Ok [2; 3] /\
  outcome (run exP (exSrt exP) 10 (SRelaxed 9) (initialBest exP)) = Ok (21%Z, [1; 1; 1; 0]%Z, true, 16).
Proof.
  split; [exact exP_valid|]. split; [apply exP_init|]. split; [apply exP_init|]. split; [exact exP_range|].
  split; [apply exSrt_perm|]. split; [cbn; lia|]. split; [apply started_default|].
  split; [vm_compute; reflexivity|]. split; vm_compute; reflexivity.
Qed.
(** ... and for a model with total merge function, whose relaxed diagram of width 1 has an optimistic value (2 instead of 11). *)
Example C09_nontrivial : valid_model (tabP tmerge) (inTab tmerge) (tabRank tmerge) 1 /\ p_sdom (tabP tmerge) = None /\
  (forall a b, inTab tmerge a -> inTab tmerge b -> a <> p_target (tabP tmerge) -> b <> p_target (tabP tmerge) -> tabRank tmerge a = tabRank tmerge b ->
     p_smf (tabP tmerge) a b <> None) /\
  in_range (tabP tmerge) 0 0 /\ (forall V, solution (tabP tmerge) 0 0 V <-> V = 11%Z \/ V = 12%Z) /\
  outcome (run (tabP tmerge) (exSrt (tabP tmerge)) 9 (SRelaxed 1) (initialBest (tabP tmerge))) = Ok (2%Z, [0; 0]%Z, false, 5) /\
  (do d <- run (tabP tmerge) (exSrt (tabP tmerge)) 9 (SRelaxed 1) (initialBest (tabP tmerge)) ; Ok (map (fun k => length (layer_nodes d k)) [0; 1; 2])) = Ok [1; 1; 0].
Proof. exact tmerge_facts. Qed.

(** C09 fails with a (valid) dominance closure: a dominated node stays in the state table on layer 0, merging into it is refused,
    and the layer keeps two nodes at width 1. *)
Theorem C09_dominance_refuted : exists St (P : prob St) I rank N, valid_model P I rank N /\ I (p_init P) /\ p_init P <> p_target P /\
  in_range P (p_init P) 0 /\
  (forall a b, I a -> I b -> a <> p_target P -> b <> p_target P -> rank a = rank b -> p_smf P a b <> None) /\
  exists d', run P (exSrt P) 10 (SRelaxed 1) (initialBest P) = Ok d' /\ length (layer_nodes d' 1) = 2.
Proof. exact width_dominance_refuted. Qed.
Print Assumptions C09_dominance_refuted.

(** C20: dominance that does not compare states with a reached sink keeps every improving solution: restricted diagrams
    (while nothing is cut for width) and relaxed diagrams with a dominance closure. *)
Theorem C20_dominance_keeps_optimum : forall St (P : prob St) I rank N, valid_model P I rank N ->
  forall sdom, p_sdom P = Some sdom ->
  forall rs rb rl, rs <> p_target P -> I rs -> in_range P rs rb ->
  forall srt : dd St -> list nat -> list nat, (forall d l, Permutation (srt d l) l) ->
  forall fuel d primal w, started d rs rb rl -> N + 1 < fuel + rank rs ->
  (exists d' n, rx_compute P srt fuel d primal w = Ok d' /\ trg_node d' = Ok n /\
     forall V, solution P rs rb V -> bt P V primal -> be P (n_bound n) V) /\
  (1 <= w -> (N.of_nat w < 4294967296)%N -> exists d' n, rs_compute P fuel d primal w = Ok d' /\ trg_node d' = Ok n /\
     (d_exact d' = true -> forall V, solution P rs rb V -> bt P V primal -> be P (n_bound n) V)).
Proof. exact @dominance_keeps. Qed.
Print Assumptions C20_dominance_keeps_optimum.

(** C20 fails for a dominance relation that is valid for all states but relates an ordinary state with the sink: pop_back then removes
    another node from the list of active nodes, and the backward pass of the relaxed diagram dereferences a null location. *)
Theorem C20_sink_dominated_refuted : exists St (P : prob St) I rank sdom, closed P I /\ layered P I rank /\ p_sdom P = Some sdom /\
  (forall a b, I a -> I b -> sdom a b = true -> relaxes P a b) /\ I (p_init P) /\ p_init P <> p_target P /\ in_range P (p_init P) 0 /\
  p_local P = None /\ (forall a b, p_smf P a b = None) /\
  run P (exSrt P) 10 (SRelaxed 9) (initialBest P) = Err UB.
Proof. exact sink_dominated_refuted. Qed.
Print Assumptions C20_sink_dominated_refuted.

(** C21: a transition suppressed by the local bound leads to no improving solution (any model, any store). *)
Theorem C21_local_prune_safe : forall St (P : prob St) I, closed P I -> valid_local P I ->
  forall d primal p l d' s', transition P d primal p l = (d', None) -> p_stf P (n_state (d_nd d p)) l = Some s' -> I s' ->
  forall v, compl P s' v -> ~ bt P (n_bound (d_nd d p) + (p_cost P (n_state (d_nd d p)) l + v)) primal.
Proof. exact @local_prune_safe. Qed.
Print Assumptions C21_local_prune_safe.
(** in the example (maximisation) the primal 20 suppresses the step that leaves out the first item, 5 does not *)
Example C21_nontrivial : closed exP exI /\ valid_local exP exI /\
  (exists d', transition exP (initDefault exP (dd_empty exP true)) 20 0 0 = (d', None)) /\
  (exists d', transition exP (initDefault exP (dd_empty exP true)) 5 0 0 = (d', Some 1)).
Proof.
  split; [exact (vm_closed _ _ _ _ exP_valid)|]. split; [exact (vm_local _ _ _ _ exP_valid)|].
  split; eexists; vm_compute; reflexivity.
Qed.

(** C10: layeredness is needed.  An acyclic model in which one state is reached by label sequences of length 1 and 3: the relaxed and
    the restricted diagram both claim to be exact, but report 10 where 6 is possible (and optimal). *)
Theorem C10_non_layered_refuted : exists (P : prob nat) I, closed P I /\ (forall s l s', p_stf P s l = Some s' -> s < s' <= 5) /\
  I (p_init P) /\ p_init P <> p_target P /\ in_range P (p_init P) 0 /\ p_local P = None /\ p_sdom P = None /\ p_min P = true /\
  (forall a b, p_smf P a b = None) /\ solution P (p_init P) 0 6 /\
  (forall strat, strat = SRelaxed 9 \/ strat = SRestricted 9 -> exists d' n, run P (exSrt P) 10 strat (initialBest P) = Ok d' /\
     d_exact d' = true /\ trg_node d' = Ok n /\ n_bound n = 10%Z).
Proof. exact non_layered_refuted. Qed.
Print Assumptions C10_non_layered_refuted.
