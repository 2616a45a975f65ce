(** Property C85: the picture of a diagram (AbstractDD::saveGraph, print). *)
From Verif Require Import Base DDModel DDSpec DDRestricted DDExact DDExamples TabModel SearchEx SaveModel SaveEnd SaveEx.

(** ** the specification, spelt out *)
Theorem C85_drawing_means : forall St (d : dd St) t out, drawing d t out <->
  Permutation (filter is_node out) (map (fun i => GNode i (n_exact (d_nd d i)) (i =? t)) (d_an d)) /\
  Permutation (filter (fun x => negb (is_node x)) out)
    (map (fun e => GArc (e_from (d_ed d e)) (e_to (d_ed d e)) (e_obj (d_ed d e)) (e_lbl (d_ed d e))) (seq 0 (d_ne d))) /\
  forall l1 l2 i j o l, out = l1 ++ GArc i j o l :: l2 -> (exists g b, In (GNode i g b) l1) /\ (exists g b, In (GNode j g b) l2).
Proof. intros. split; [intros [A B C]; auto|intros (A & B & C); now constructor]. Qed.
Print Assumptions C85_drawing_means.

(** ** restricted diagrams of any width (0 included: it counts as 2^32), relaxed diagrams, exact diagrams: the file is written without error, it
    shows each node of _an once, each arc once, the sink as the only box, and every arc between the line of its source and the line of its target *)
Theorem C85_save_restricted : forall St (P : prob St) I rank N, valid_model P I rank N ->
  forall rs rb rl, rs <> p_target P -> I rs -> in_range P rs rb ->
  forall fuel d primal w d', started d rs rb rl -> (N.of_nat w <= 4294967296)%N -> N + 1 < fuel + rank rs -> rs_compute P fuel d primal w = Ok d' ->
  (exists out, saveGraph P d' = Ok out /\ drawing d' 1 out) /\ (exists out, print_dd d' = Ok out /\ listing d' out).
Proof.
  intros St P I rank N V rs rb rl H1 H2 H3 fuel d primal w d' S LW F E.
  pose proof (restricted_drawable P I rank N V rs rb rl H1 H2 H3 fuel d primal w d' S LW F E) as D. split; [exact (save_ok P d' 1 D)|exact (print_ok P d' 1 D)].
Qed.
Print Assumptions C85_save_restricted.
Theorem C85_save_relaxed : forall St (P : prob St) I rank N, valid_model P I rank N ->
  forall rs rb rl, rs <> p_target P -> I rs -> in_range P rs rb ->
  forall srt fuel d primal w d', (forall d l, Permutation (srt d l) l) -> started d rs rb rl -> N + 1 < fuel + rank rs -> rx_compute P srt fuel d primal w = Ok d' ->
  (exists out, saveGraph P d' = Ok out /\ drawing d' 1 out) /\ (exists out, print_dd d' = Ok out /\ listing d' out).
Proof.
  intros St P I rank N V rs rb rl H1 H2 H3 srt fuel d primal w d' HS S F E.
  pose proof (relaxed_drawable P I rank N V rs rb rl H1 H2 H3 srt fuel d primal w d' HS S F E) as D. split; [exact (save_ok P d' 1 D)|exact (print_ok P d' 1 D)].
Qed.
Print Assumptions C85_save_relaxed.
Theorem C85_save_exact : forall St (P : prob St) I, closed P I -> p_local P = None -> forall m, acyclic P I m ->
  forall rs rb rl, rs <> p_target P -> I rs -> forall d fuel primal d', started d rs rb rl -> ex_compute P fuel d primal = Ok d' ->
  (exists out, saveGraph P d' = Ok out /\ drawing d' 1 out) /\ (exists out, print_dd d' = Ok out /\ listing d' out).
Proof.
  intros St P I HC HL m HA rs rb rl H1 H2 d fuel primal d' S E.
  pose proof (exact_drawable P I HC HL m HA rs rb rl H1 H2 d fuel primal d' S E) as D. split; [exact (save_ok P d' 1 D)|exact (print_ok P d' 1 D)].
Qed.
Print Assumptions C85_save_exact.

(** a diagram with arcs over several depths and a dead end; the models of C05 and C08 meet the hypotheses of the other two *)
Example C85_nontrivial :
  (closed (tabP t85) (inTab t85) /\ acyclic (tabP t85) (inTab t85) (fun s => s) /\ p_local (tabP t85) = None) /\
  (do d <- run (tabP t85) (exSrt (tabP t85)) 6 SExact 0 ; saveGraph (tabP t85) d) =
    Ok [GNode 0 true false; GArc 0 2 4 0; GArc 0 3 1 1; GNode 3 true false; GArc 3 2 2 0; GArc 3 4 (-9) 1; GArc 3 5 6 2;
        GNode 2 true false; GArc 2 1 3 0; GNode 4 true false; GNode 5 true false; GArc 5 1 0 0; GNode 1 true true] /\
  (do d <- run (tabP t85) (exSrt (tabP t85)) 6 SExact 0 ; print_dd d) =
    Ok [GArc 0 2 4 0; GArc 0 3 1 1; GArc 3 2 2 0; GArc 3 4 (-9) 1; GArc 3 5 6 2; GArc 2 1 3 0; GArc 5 1 0 0].
Proof. exact save_case. Qed.

(** ** finding: before the compilation the picture cannot be drawn, _trg is null and eq dereferences it *)
Theorem C85_uncompiled_undefined : forall St (P : prob St) d rs rb rl, started d rs rb rl -> saveGraph P d = Err UB.
Proof. exact save_uncompiled. Qed.
Print Assumptions C85_uncompiled_undefined.
