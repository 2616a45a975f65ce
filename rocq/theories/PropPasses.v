(** Properties C14, C15: the backward and forward passes over an acyclic diagram.
    A path of the diagram is [gpath d i es w j]: the list of edges es leads from node i to node j with total cost w.  [wfg d f]:
    the child and parent lists of the active nodes agree with the edges, and f is a topological numbering.
    [small]: within 2^29.  [hopeless]: within 2^29 of the "no solution" sentinel. *)
From Verif Require Import Base DDModel DDSpec DDFrame DDExpand DDPasses DDExamples KnapModel TabModel PassesEx.

(** C14 *)
Theorem C14_backward_best : forall St (P : prob St) d f t, wfg d f -> d_trg d = Some t -> In t (d_an d) -> n_kids (d_nd d t) = [] ->
  (forall i es w j, gpath d i es w j -> small w) ->
  exists d', computeBestBackward P d = Ok d' /\ bbonly d d' /\ forall i, In i (d_an d) ->
    best_of P (fun w => exists es, gpath d i es w t) (n_bb (d_nd d' i)) \/
    ((forall es w, ~ gpath d i es w t) /\ hopeless P (n_bb (d_nd d' i))).
Proof. exact @backward_best. Qed.
Print Assumptions C14_backward_best.

(** C15 *)
Theorem C15_forward_best : forall St (P : prob St) d f r, wfg d f -> d_root d = Some r -> In r (d_an d) -> n_par (d_nd d r) = [] ->
  small (n_bound (d_nd d r)) -> (forall i es w j, gpath d i es w j -> small w) ->
  exists d', computeBest P d = Ok d' /\ bdonly d d' /\ forall j, In j (d_an d) ->
    (best_of P (fun b => exists es w, gpath d r es w j /\ b = (n_bound (d_nd d r) + w)%Z) (n_bound (d_nd d' j)) /\
       exists es w, gpath d r es w j /\ n_bound (d_nd d' j) = (n_bound (d_nd d r) + w)%Z /\
          n_lab (d_nd d' j) = n_lab (d_nd d r) ++ map (fun e => e_lbl (d_ed d e)) es) \/
    ((forall es w, ~ gpath d r es w j) /\ hopeless P (n_bound (d_nd d' j))).
Proof. exact @forward_best. Qed.
Print Assumptions C15_forward_best.

(** The relaxed diagram of width 2 of a knapsack (14 nodes) satisfies the hypotheses of both theorems; its root has backward bound 21,
    its sink forward bound 21. *)
Example C14_C15_nontrivial : exists d f, run exP (exSrt exP) 10 (SRelaxed 2) (initialBest exP) = Ok d /\
  wfg d f /\ d_trg d = Some 1 /\ In 1 (d_an d) /\ n_kids (d_nd d 1) = [] /\ d_root d = Some 0 /\ In 0 (d_an d) /\ n_par (d_nd d 0) = [] /\
  small (n_bound (d_nd d 0)) /\ (forall i es w j, gpath d i es w j -> small w) /\ length (d_an d) = 12 /\ d_ne d = 20 /\
  (do d' <- computeBestBackward exP d ; Ok (n_bb (d_nd d' 0))) = Ok 21%Z /\
  (do d' <- computeBest exP d ; Ok (n_bound (d_nd d' 1), n_lab (d_nd d' 1))) = Ok (21%Z, [1; 1; 1; 0]%Z).
Proof. exact passes_example. Qed.

(** C14 fails in its literal form "the sentinel if there is no path": a node without a path to the sink gets the sentinel plus the
    cost of some path (maximisation; the root's only step costs 5 and leads to a dead end). *)
Theorem C14_sentinel_refuted : exists (P : prob nat) d f, wfg d f /\ d_trg d = Some 1 /\ In 1 (d_an d) /\ n_kids (d_nd d 1) = [] /\
  (forall i es w j, gpath d i es w j -> small w) /\ In 0 (d_an d) /\ (forall es w, ~ gpath d 0 es w 1) /\
  exists d', computeBestBackward P d = Ok d' /\ n_bb (d_nd d' 0) = (sentinel P + 5)%Z.
Proof. exact back_sentinel_refuted. Qed.
Print Assumptions C14_sentinel_refuted.
