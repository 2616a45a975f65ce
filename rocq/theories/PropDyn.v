(** Property C58: branch and bound when the label function reads the current primal bound (coloring, coloring2, coloring3, gruler).
    [lab b] are the labels while the primal bound is b; [dyn_ok]: for every bound the search can be at, the closures are valid with these labels, the
    labels are among those of P, and a completion that beats the bound is matched by one with these labels. *)
From Verif Require Import Base DDModel DDSpec DDFrame DDExpand DDRelaxedEnd DDWide DDExamples SearchModel SearchProofs SearchEx SearchDyn TspModel MispModel ColorModel ColorSpec ColorEnd.
Local Open Scope Z_scope.

(** C58: the incumbent is a solution of P with the reported value, and so was everything reported before it *)
Theorem C58_incumbents_genuine : forall St (P : prob St) lab I rank N srt dfuel mxw, setting P I rank N srt dfuel mxw ->
  forall lim user, dyn_ok P lab (start_bound P user) I rank N -> be P (start_bound P user) (sentinel P) ->
  forall fuel s e, searchD P lab srt dfuel lim fuel mxw user = Ok (s, e) ->
  (b_primal (s_b s) <> start_bound P user -> genuine P (p_init P) 0 [] (p_target P) (b_primal (s_b s)) (b_inc (s_b s))) /\
  (forall ls, In ls (b_log (s_b s)) -> exists v, genuine P (p_init P) 0 [] (p_target P) v ls /\ bt P v (start_bound P user)).
Proof. intros St P lab I rank N srt dfuel mxw SE lim user DY Hp fuel s e E. exact (searchD_genuine P lab I rank N srt dfuel mxw SE lim user DY Hp fuel s e E). Qed.
Print Assumptions C58_incumbents_genuine.
(** C58: the primal bound never gets worse, and is untouched if no solution beats the start *)
Theorem C58_primal_bound : forall St (P : prob St) lab I rank N srt dfuel mxw, setting P I rank N srt dfuel mxw ->
  forall lim user, dyn_ok P lab (start_bound P user) I rank N -> be P (start_bound P user) (sentinel P) ->
  forall fuel s e, searchD P lab srt dfuel lim fuel mxw user = Ok (s, e) ->
  be P (b_primal (s_b s)) (start_bound P user) /\
  ((forall V, solution P (p_init P) 0 V -> ~ bt P V (start_bound P user)) -> b_primal (s_b s) = start_bound P user /\ b_inc (s_b s) = [] /\ b_log (s_b s) = []).
Proof. intros St P lab I rank N srt dfuel mxw SE lim user DY Hp fuel s e E. exact (searchD_preset P lab I rank N srt dfuel mxw SE lim user DY Hp fuel s e E). Qed.
Print Assumptions C58_primal_bound.
(** C58: the search ends: fuel for the reachable states is enough *)
Theorem C58_terminates : forall St (P : prob St) lab I rank N srt dfuel mxw, setting P I rank N srt dfuel mxw ->
  forall lim user, dyn_ok P lab (start_bound P user) I rank N -> be P (start_bound P user) (sentinel P) ->
  forall L, (forall s, s <> p_target P -> (exists ls v, path P (p_init P) ls v s) -> In s L) ->
  forall fuel, (length L <= fuel)%nat -> exists s e, searchD P lab srt dfuel lim fuel mxw user = Ok (s, e).
Proof. intros St P lab I rank N srt dfuel mxw SE lim user DY Hp. exact (searchD_total P lab I rank N srt dfuel mxw SE lim user DY Hp). Qed.
Print Assumptions C58_terminates.
(** C58: an optimum is found when the whole diagram fits the width *)
Theorem C58_wide_enough_is_optimal : forall St (P : prob St) lab I rank N srt dfuel mxw, setting P I rank N srt dfuel mxw ->
  forall lim user, dyn_ok P lab (start_bound P user) I rank N -> be P (start_bound P user) (sentinel P) ->
  forall fuel, lim 0%nat = false -> narrow P (p_init P) mxw -> (forall V, solution P (p_init P) 0 V -> be P (initialWorst P) V) -> (1 <= fuel)%nat ->
  exists s, searchD P lab srt dfuel lim fuel mxw user = Ok (s, Emptied) /\ s_ttl s = 1%nat /\ (forall V, solution P (p_init P) 0 V -> be P (b_primal (s_b s)) V) /\
    (b_primal (s_b s) <> start_bound P user -> genuine P (p_init P) 0 [] (p_target P) (b_primal (s_b s)) (b_inc (s_b s))).
Proof. intros St P lab I rank N srt dfuel mxw SE lim user DY Hp. exact (searchD_narrow P lab I rank N srt dfuel mxw SE lim user DY Hp). Qed.
Print Assumptions C58_wide_enough_is_optimal.
(** C58: in general the result is optimal when the queue ran empty, no node was refused as already seen, and no exact node of an inexact diagram that was
    cut has an improving edge straight to the target *)
Theorem C58_search_is_optimal_partial : forall St (P : prob St) lab I rank N srt dfuel mxw, setting P I rank N srt dfuel mxw ->
  forall lim user, dyn_ok P lab (start_bound P user) I rank N -> be P (start_bound P user) (sentinel P) ->
  forall fuel s e, searchD P lab srt dfuel lim fuel mxw user = Ok (s, e) ->
  e = Emptied -> valid_qdom P I -> (forall V, solution P (p_init P) 0 V -> be P (initialWorst P) V) -> s_seen s = 0%nat -> hist_ok P s ->
  forall V, solution P (p_init P) 0 V -> be P (b_primal (s_b s)) V.
Proof. intros St P lab I rank N srt dfuel mxw SE lim user DY Hp fuel s e E. exact (searchD_optimal P lab I rank N srt dfuel mxw SE lim user DY Hp fuel s e E). Qed.
Print Assumptions C58_search_is_optimal_partial.
(** with labels that do not read the bound this is the search of C17 to C24 *)
Theorem C58_static_labels : forall St (P : prob St) srt dfuel lim fuel mxw user,
  searchD P (fun _ => p_labels P) srt dfuel lim fuel mxw user = search P srt dfuel lim fuel mxw user.
Proof. intros St P. exact (searchD_static P). Qed.
Print Assumptions C58_static_labels.

(** the conditions are met by the colouring programs for every graph; a run with five nodes on a graph with eight vertices *)
Example C58_case : exists I rank, setting (co_prob 8 g8 8 None) I rank 8 (exSrt (co_prob 8 g8 8 None)) 40 2 /\
  dyn_ok (co_prob 8 g8 8 None) (fun b => p_labels (co_prob 8 g8 8 (Some b))) (start_bound (co_prob 8 g8 8 None) None) I rank 8 /\
  exists s, crun (co_prob 8 g8 8) 2 = Ok (s, Emptied) /\ b_primal (s_b s) = 2 /\ s_ttl s = 5%nat /\ s_seen s = 0%nat /\ hist_ok (co_prob 8 g8 8 None) s.
Proof.
  destruct (pr_dyn 8 g8 8 g8_graph ltac:(lia) ltac:(lia) (co_prob 8 g8 8) (coloring1 8 g8 8) 2147483647 ltac:(lia)) as (I & rank & A & B). exists I, rank. csplit.
  - apply B; [apply exSrt_perm|lia|vm_compute; reflexivity].
  - exact A.
  - destruct (g8_run (co_prob 8 g8 8) (coloring1 8 g8 8)) as (s & H1 & H2 & _ & H3 & H4 & _ & H5). exists s. csplit; auto.
Qed.
