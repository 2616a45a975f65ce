(** Properties C01, C02, C03: exact diagrams. *)
From Verif Require Import Base DDModel DDSpec DDRestricted DDExact DDExamples TabModel.

(** C01 and C02: any acyclic model without a local bound, layered or not, both senses, any root.
    [started d rs rb rl]: d holds only its root (see PropRestricted.started_by_init).  [acyclic P I m]: m increases along each step.
    The sink's value is at least as good as every solution and is the value of one, spelt by the sink's labels;
    without a solution it is the sentinel. *)
Theorem C01_exact_value_is_optimal : forall St (P : prob St) I, closed P I -> p_local P = None ->
  forall m, acyclic P I m -> forall rs rb rl, rs <> p_target P -> I rs -> in_range P rs rb ->
  forall d fuel primal d', started d rs rb rl -> ex_compute P fuel d primal = Ok d' ->
  exists n, trg_node d' = Ok n /\ n_state n = p_target P /\ d_exact d' = true /\
    (forall V, solution P rs rb V -> be P (n_bound n) V) /\
    ((exists V, solution P rs rb V) -> solution P rs rb (n_bound n)) /\
    ((forall V, ~ solution P rs rb V) -> n_bound n = sentinel P).
Proof.
  intros St P I HC HL m HA rs rb rl H1 H2 H3 d fuel primal d' S E.
  destruct (exact_ok P I HC HL m HA rs rb rl H1 H2 H3 d fuel primal d' S E) as (T & A & B & C & D & F).
  exists (d_nd d' 1). unfold trg_node. rewrite T. repeat (split; auto). intros X. destruct (D X) as (ls & v & _ & -> & Pa).
  exists v. split; auto. exists ls. exact Pa.
Qed.
Print Assumptions C01_exact_value_is_optimal.

Theorem C02_exact_incumbent_is_genuine : forall St (P : prob St) I, closed P I -> p_local P = None ->
  forall m, acyclic P I m -> forall rs rb rl, rs <> p_target P -> I rs -> in_range P rs rb ->
  forall d fuel primal d', started d rs rb rl -> ex_compute P fuel d primal = Ok d' ->
  (exists V, solution P rs rb V) ->
  exists n, trg_node d' = Ok n /\ genuine P rs rb rl (p_target P) (n_bound n) (n_lab n).
Proof.
  intros St P I HC HL m HA rs rb rl H1 H2 H3 d fuel primal d' S E X.
  destruct (exact_ok P I HC HL m HA rs rb rl H1 H2 H3 d fuel primal d' S E) as (T & _ & _ & _ & D & _).
  exists (d_nd d' 1). unfold trg_node. rewrite T. auto.
Qed.
Print Assumptions C02_exact_incumbent_is_genuine.

(** with finitely many reachable states, listed in L, the compilation ends without error after at most |L| rounds *)
Theorem C01_exact_terminates : forall St (P : prob St) I, closed P I -> p_local P = None ->
  forall m, acyclic P I m -> forall rs rb rl, rs <> p_target P -> I rs ->
  forall d fuel primal L, started d rs rb rl -> (forall ls v s, path P rs ls v s -> In s L) -> In (p_target P) L -> length L <= fuel ->
  exists d', ex_compute P fuel d primal = Ok d'.
Proof. exact @exact_terminates. Qed.
Print Assumptions C01_exact_terminates.

(** an acyclic model that is not layered, with a tie, a dead end (state 3) and states reached over several depths *)
Definition t01 : tab := mkTab
  [rw 0 0 2 4; rw 0 1 1 1; rw 2 0 5 3; rw 1 0 2 2; rw 1 1 3 (-9); rw 1 2 4 6; rw 4 0 5 0] 5 [] [] None None true.
Definition t01_max : tab := mkTab (t_rows t01) 5 [] [] None None false.
(** no solution at all *)
Definition t01_none : tab := mkTab [rw 0 0 1 4; rw 1 3 2 1] 5 [] [] None None true.
Example C01_C02_nontrivial :
  (closed (tabP t01) (inTab t01) /\ acyclic (tabP t01) (inTab t01) (fun s => s) /\ in_range (tabP t01) 0 0 /\ p_local (tabP t01) = None) /\
  (forall ls v s, path (tabP t01) 0 ls v s -> In s (seq 0 6)) /\
  outcome (run (tabP t01) (exSrt (tabP t01)) 6 SExact 0) = Ok (6%Z, [1; 0; 0]%Z, true, 6) /\
  (forall V, solution (tabP t01) 0 0 V <-> In V [7; 6; 7]%Z) /\
  outcome (run (tabP t01_max) (exSrt (tabP t01_max)) 6 SExact 0) = Ok (7%Z, [0; 0]%Z, true, 6) /\
  outcome (run (tabP t01_none) (exSrt (tabP t01_none)) 6 SExact 0) = Ok (2147483647%Z, [], true, 4).
Proof.
  split; [|split; [|split; [vm_compute; reflexivity|split; [|split; vm_compute; reflexivity]]]].
  - split; [apply tab_closed; reflexivity|]. split; [intros s l s' _ _ _; apply tab_acyclic; reflexivity|].
    split; [apply tab_range; reflexivity|reflexivity].
  - assert (G : forall a ls v s, path (tabP t01) a ls v s -> inTab t01 a -> inTab t01 s).
    { intros a ls v s H. induction H as [|a l b ls v s N Hl S H IH]; auto. intros G. apply IH.
      exact (cl_step _ _ (tab_closed t01 eq_refl) a l b G N Hl S). }
    intros ls v s H. apply in_seq. apply G in H; unfold inTab in *; cbn in *; lia.
  - intros V. rewrite tab_solution by reflexivity. replace (V - 0)%Z with V by lia. reflexivity.
Qed.

(** C03 is false: with a valid local bound an exact diagram loses the only solution, because nodes keep the sentinel bound
    while arcs are added (computeBest runs at the end), and that bound is what the local test adds to. *)
Definition t03 : tab := mkTab [rw 0 0 1 1; rw 1 0 2 1] 2 [0; 1; 0] [] (Some [2; 1; 0]%Z) None true.
Theorem C03_local_bound_refuted : exists St (P : prob St) I rank N m, valid_model P I rank N /\ acyclic P I m /\
  I (p_init P) /\ p_init P <> p_target P /\ in_range P (p_init P) 0 /\ solution P (p_init P) 0 2 /\ bt P 2 (initialBest P) /\
  exists d' n, ex_compute P 10 (initDefault P (dd_empty P true)) (initialBest P) = Ok d' /\ trg_node d' = Ok n /\
    n_bound n = sentinel P /\ d_exact d' = true.
Proof.
  exists nat, (tabP t03), (inTab t03), (tabRank t03), 1, (fun s => s).
  split; [apply tab_valid; reflexivity|]. split; [intros s l s' _ _ _; apply tab_acyclic; reflexivity|].
  split; [unfold inTab; cbn; lia|]. split; [discriminate|]. split; [apply tab_range; reflexivity|].
  split; [apply tab_solution; [reflexivity|]; left; reflexivity|]. split; [vm_compute; reflexivity|].
  eexists. eexists. split; [vm_compute; reflexivity|]. split; [reflexivity|]. split; reflexivity.
Qed.
Print Assumptions C03_local_bound_refuted.
(** [valid_model] includes the validity of the local bound: *)
Example C03_local_is_valid : valid_local (tabP t03) (inTab t03) /\ p_local (tabP t03) <> None.
Proof. split; [exact (vm_local _ _ _ _ (tab_valid t03 1 eq_refl))|discriminate]. Qed.
