(** Properties C04, C05, C06 (and the restricted half of C54): restricted diagrams. *)
From Verif Require Import Base DDModel DDSpec DDRestricted DDRestricted2 DDExamples KnapModel.

(** [started d rs rb rl]: d holds only its root, with state rs, bound rb and labels rl.  This is what initialisation yields: *)
Example started_by_init : forall St (P : prob St),
  (forall b, started (initDefault P (dd_empty P b)) (p_init P) 0 []) /\
  (forall d src, started (initFrom P d src) (n_state src) (n_bound src) (n_lab src)).
Proof. intros. split; [apply started_default|apply started_from]. Qed.

(** C04: any model (only: the closures agree on what the target is).  If the sink's value beats the sentinel, the sink's labels
    spell a genuine label sequence with exactly that value. *)
Theorem C04_restricted_reports_genuine : forall St (P : prob St) I, closed P I ->
  forall rs rb rl, rs <> p_target P -> I rs -> in_range P rs rb ->
  forall fuel d primal w d', started d rs rb rl -> rs_compute P fuel d primal w = Ok d' ->
  exists n, trg_node d' = Ok n /\ n_state n = p_target P /\
    (bt P (n_bound n) (sentinel P) -> genuine P rs rb rl (p_target P) (n_bound n) (n_lab n)).
Proof. exact @restricted_genuine. Qed.
Print Assumptions C04_restricted_reports_genuine.

Example C04_nontrivial : closed exP exI /\ exI (p_init exP) /\ p_init exP <> p_target exP /\ in_range exP (p_init exP) 0 /\
  outcome (run exP (exSrt exP) 10 (SRestricted 1) (initialBest exP)) = Ok (5%Z, [0; 0; 0; 1]%Z, false, 5) /\
  outcome (run exP (exSrt exP) 10 (SRestricted 2) (initialBest exP)) = Ok (21%Z, [1; 1; 1; 0]%Z, false, 8).
Proof.
  split; [exact (vm_closed _ _ _ _ exP_valid)|]. split; [apply exP_init|]. split; [apply exP_init|]. split; [exact exP_range|].
  split; vm_compute; reflexivity.
Qed.

(** C05: the exactness claim, for every width (0 included; below 2^32: the C++ type) on layered models with valid closures:
    every solution that beats the primal bound is matched by the sink's value. *)
Theorem C05_restricted_exact_is_optimal : forall St (P : prob St) I rank N, valid_model P I rank N ->
  forall rs rb rl, rs <> p_target P -> I rs -> in_range P rs rb ->
  forall fuel d primal w d', started d rs rb rl -> (N.of_nat w < 4294967296)%N -> N + 1 < fuel + rank rs ->
  rs_compute P fuel d primal w = Ok d' -> d_exact d' = true ->
  exists n, trg_node d' = Ok n /\ forall V, solution P rs rb V -> bt P V primal -> be P (n_bound n) V.
Proof.
  intros St P I rank N V rs rb rl H1 H2 H3 fuel d primal w d' S W F E.
  destruct (restricted_any_width P I rank N V rs rb rl H1 H2 H3 fuel d primal w S W F) as (d2 & E2 & _ & L).
  rewrite E in E2. injection E2 as ->. exact L.
Qed.
Print Assumptions C05_restricted_exact_is_optimal.

(** C05, C06, C54 without any condition on the merge function: a restricted compilation does not merge *)
Theorem C05_restricted_without_merge : forall St (P : prob St) I rank N, closed P I -> layered P I rank -> depth_le P I rank N -> valid_dom P I rank ->
  dom_avoids_target P I rank -> valid_local P I -> forall rs rb rl, rs <> p_target P -> I rs -> in_range P rs rb ->
  forall fuel d primal w, started d rs rb rl -> (N.of_nat w < 4294967296)%N -> N + 1 < fuel + rank rs ->
  exists d', rs_compute P fuel d primal w = Ok d' /\ (1 <= w -> forall k, length (layer_nodes d' k) <= w) /\
    (d_exact d' = true -> exists n, trg_node d' = Ok n /\ forall V, solution P rs rb V -> bt P V primal -> be P (n_bound n) V).
Proof. exact @restricted_unmerged. Qed.
Print Assumptions C05_restricted_without_merge.

(** C54 (restricted half): the compilation ends after at most depth + 2 rounds without error. *)
Theorem C54_restricted_terminates : forall St (P : prob St) I rank N, valid_model P I rank N ->
  forall rs rb rl, rs <> p_target P -> I rs -> in_range P rs rb ->
  forall fuel d primal w, started d rs rb rl -> (N.of_nat w < 4294967296)%N -> N + 1 < fuel + rank rs ->
  exists d', rs_compute P fuel d primal w = Ok d'.
Proof.
  intros St P I rank N V rs rb rl H1 H2 H3 fuel d primal w S W F.
  destruct (restricted_any_width P I rank N V rs rb rl H1 H2 H3 fuel d primal w S W F) as (d2 & E2 & _). eauto.
Qed.
Print Assumptions C54_restricted_terminates.

(** C06: for width at least 1 no layer has more than w nodes. *)
Theorem C06_restricted_width : forall St (P : prob St) I rank N, valid_model P I rank N ->
  forall rs rb rl, rs <> p_target P -> I rs -> in_range P rs rb ->
  forall fuel d primal w d', started d rs rb rl -> 1 <= w -> (N.of_nat w < 4294967296)%N -> N + 1 < fuel + rank rs ->
  rs_compute P fuel d primal w = Ok d' -> forall k, length (layer_nodes d' k) <= w.
Proof.
  intros St P I rank N V rs rb rl H1 H2 H3 fuel d primal w d' S W1 W2 F E.
  destruct (restricted_any_width P I rank N V rs rb rl H1 H2 H3 fuel d primal w S W2 F) as (d2 & E2 & L & _).
  rewrite E in E2. injection E2 as ->. exact (L W1).
Qed.
Print Assumptions C06_restricted_width.

(** The theorems apply to the example instance; the exact flag is raised for width 9. *)
Example C05_C06_nontrivial : valid_model exP exI fst 4 /\ 4 + 1 < 10 + fst (p_init exP) /\
  (exists d', run exP (exSrt exP) 10 (SRestricted 9) (initialBest exP) = Ok d' /\ d_exact d' = true /\
     map (fun k => length (layer_nodes d' k)) [0; 1; 2; 3; 4] = [1; 2; 4; 8; 0]) /\
  (exists d', run exP (exSrt exP) 10 (SRestricted 3) (initialBest exP) = Ok d' /\ d_exact d' = false /\
     map (fun k => length (layer_nodes d' k)) [0; 1; 2; 3; 4] = [1; 2; 3; 3; 0]).
Proof.
  split; [exact exP_valid|]. split; [cbn; lia|].
  split; (eexists; split; [vm_compute; reflexivity|split; vm_compute; reflexivity]).
Qed.

(** C06 fails for width 0: the unsigned expression _mxw - 1 wraps and the width is unlimited. *)
Theorem C06_width_zero_refuted : exists St (P : prob St) I rank N, valid_model P I rank N /\ I (p_init P) /\
  p_init P <> p_target P /\ in_range P (p_init P) 0 /\
  exists d', rs_compute P 10 (initDefault P (dd_empty P true)) (initialBest P) 0 = Ok d' /\ exists k, 0 < length (layer_nodes d' k) /\ length (layer_nodes d' k) = 8.
Proof.
  exists sks, exP, exI, fst, 4. split; [exact exP_valid|]. split; [apply exP_init|]. split; [apply exP_init|]. split; [exact exP_range|].
  eexists. split; [vm_compute; reflexivity|]. exists 3. vm_compute. split; [lia|reflexivity].
Qed.
Print Assumptions C06_width_zero_refuted.
