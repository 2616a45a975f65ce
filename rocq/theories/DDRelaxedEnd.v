(** Relaxed diagrams: the statements of PropRelaxed.v. *)
From Verif Require Import Base MSortModel MSortProofs DDModel DDSpec DDFrame DDInv DDLayer DDRestricted DDExpand DDRestricted2 DDMerge DDRelaxed DDPasses DDRelaxed2
  TabModel DDExamples KnapModel.

Section S.
Context {St : Type} (P : prob St) (I : St -> Prop) (rank : St -> nat) (N : nat).
Hypothesis VM : valid_model P I rank N.
Variables (rs : St) (rb : Z) (rl : list Z).
Hypothesis Hrs : rs <> p_target P.
Hypothesis HI : I rs.
Hypothesis Hrange : in_range P rs rb.
Variable srt : dd St -> list nat -> list nat.
Hypothesis Hsrt : forall d l, Permutation (srt d l) l.
Notation completed := (completed P I rs rb rl rank).

Lemma run_completed fuel d primal w : started d rs rb rl -> N + 1 < fuel + rank rs ->
  exists d2 K d3 d', rx_compute P srt fuel d primal w = Ok d' /\ completed primal w d2 K d3 d'.
Proof.
  destruct VM as [V1 V2 V3 V4 V5 V6 V7 V8].
  apply (relaxed_total P I V1 rs rb rl Hrs HI Hrange rank V2 V6 V7 V4 V5 N V3 srt Hsrt).
Qed.
Lemma run_completed' fuel d primal w d' : started d rs rb rl -> N + 1 < fuel + rank rs -> rx_compute P srt fuel d primal w = Ok d' ->
  exists d2 K d3, completed primal w d2 K d3 d'.
Proof.
  intros S F E. destruct (run_completed fuel d primal w S F) as (d2 & K & d3 & d4 & E' & C). rewrite E in E'. injection E' as <-. eauto.
Qed.
Lemma relaxed_terminates fuel d primal w : started d rs rb rl -> N + 1 < fuel + rank rs ->
  exists d', rx_compute P srt fuel d primal w = Ok d'.
Proof. intros S F. destruct (run_completed fuel d primal w S F) as (_ & _ & _ & d' & E & _). eauto. Qed.

Section Result.
Variables (fuel : nat) (d : dd St) (primal : Z) (w : nat) (d' : dd St).
Hypothesis S : started d rs rb rl.
Hypothesis F : N + 1 < fuel + rank rs.
Hypothesis E : rx_compute P srt fuel d primal w = Ok d'.

Lemma trg_is d2 K d3 : completed primal w d2 K d3 d' -> trg_node d' = Ok (d_nd d' 1) /\ st d' 1 = p_target P.
Proof.
  intros C. unfold trg_node. rewrite (done_trg P I rs rb rl rank primal w d2 K d3 d' C). split; auto.
  destruct (done_node P I rs rb rl rank primal w d2 K d3 d' C 1) as (-> & _). apply (b_t (g_base (l_gen (k_inv _ _ _ _ _ _ _ _ _ _ _ _ C)))).
Qed.
Lemma relaxed_dual_bound : exists n, trg_node d' = Ok n /\ n_state n = p_target P /\
    forall V, solution P rs rb V -> bt P V primal -> be P (n_bound n) V.
Proof.
  destruct (run_completed' _ _ _ _ _ S F E) as (d2 & K & d3 & C). destruct (trg_is _ _ _ C) as [T1 T2].
  exists (d_nd d' 1). csplit; auto. intros V. apply (done_dual P I (vm_closed _ _ _ _ VM) rs rb rl Hrs rank primal w d2 K d3 d' C V (vm_local _ _ _ _ VM)).
Qed.
Lemma relaxed_exact : d_exact d' = true -> exists n, trg_node d' = Ok n /\
    (bt P (n_bound n) (sentinel P) -> genuine P rs rb rl (p_target P) (n_bound n) (n_lab n)) /\
    forall V, solution P rs rb V -> bt P V primal -> be P (n_bound n) V.
Proof.
  intros X. destruct (run_completed' _ _ _ _ _ S F E) as (d2 & K & d3 & C). destruct (trg_is _ _ _ C) as [T1 T2].
  exists (d_nd d' 1). csplit; auto.
  - intros Bt. apply (done_sink_genuine P I rs rb rl rank primal w d2 K d3 d' C); auto.
    apply (done_exact P I rs rb rl rank primal w d2 K d3 d' C X).
    destruct (done_ed P I rs rb rl rank primal w d2 K d3 d' C) as (_ & _ & -> & _). apply (b_t (g_base (l_gen (k_inv _ _ _ _ _ _ _ _ _ _ _ _ C)))).
  - intros V. apply (done_dual P I (vm_closed _ _ _ _ VM) rs rb rl Hrs rank primal w d2 K d3 d' C V (vm_local _ _ _ _ VM)).
Qed.
Lemma relaxed_exact_nodes : forall i, In i (d_an d') -> let n := d_nd d' i in n_exact n = true -> d_trg d' <> Some i \/ bt P (n_bound n) (sentinel P) ->
    genuine P rs rb rl (n_state n) (n_bound n) (n_lab n).
Proof.
  intros i Hi n X Q. destruct (run_completed' _ _ _ _ _ S F E) as (d2 & K & d3 & C). destruct (trg_is _ _ _ C) as [T1 T2].
  destruct (Nat.eq_dec i 1) as [->|Ni].
  - unfold n. rewrite T2. apply (done_sink_genuine P I rs rb rl rank primal w d2 K d3 d' C); auto.
    destruct Q as [Q|Q]; auto. exfalso. apply Q. apply (done_trg P I rs rb rl rank primal w d2 K d3 d' C).
  - apply (done_genuine P I rs rb rl rank primal w d2 K d3 d' C); auto.
Qed.
Lemma relaxed_cutset : exists cs, computeCutSet d' = Ok cs /\ NoDup cs /\
    (forall i, In i cs -> let n := d_nd d' i in In i (d_an d') /\ n_state n <> p_target P /\ n_exact n = true /\
        genuine P rs rb rl (n_state n) (n_bound n) (n_lab n)) /\
    (forall V, solution P rs rb V -> bt P V primal ->
       (exists i v, In i cs /\ compl P (n_state (d_nd d' i)) v /\ be P (n_bound (d_nd d' i) + v) V) \/
       (exists i l sink, let n := d_nd d' i in In i (d_an d') /\ n_exact n = true /\ trg_node d' = Ok sink /\
          In l (p_labels P (n_state n)) /\ p_stf P (n_state n) l = Some (p_target P) /\
          be P (n_bound sink) (n_bound n + p_cost P (n_state n) l) /\ be P (n_bound n + p_cost P (n_state n) l) V)).
Proof.
  destruct (run_completed' _ _ _ _ _ S F E) as (d2 & K & d3 & C). destruct (trg_is _ _ _ C) as [T1 T2].
  destruct (done_cutset P I (vm_closed _ _ _ _ VM) rs rb rl rank primal w d2 K d3 d' C (vm_local _ _ _ _ VM)) as (cs & Ec & ND & A & Cv).
  exists cs. csplit; auto.
  - intros i Hi n. destruct (A i Hi) as (A1 & A2 & A3). csplit; auto.
    + unfold n. destruct (done_node P I rs rb rl rank primal w d2 K d3 d' C i) as (-> & _).
      apply (done_an P I rs rb rl rank primal w d2 K d3 d' C) in A1 as [A1 _].
      pose proof (g_base (l_gen (k_inv _ _ _ _ _ _ _ _ _ _ _ _ C))) as B. rewrite (st_target B); auto.
    + apply (done_genuine P I rs rb rl rank primal w d2 K d3 d' C); auto.
  - intros V SV BV. destruct (Cv V SV BV) as [?|(i & l & B1 & B2 & B3 & B4 & B5 & B6 & B7)]; auto.
    right. exists i, l, (d_nd d' 1). cbn zeta. csplit; auto.
Qed.
Lemma relaxed_backward : forall i v, In i (d_an d') -> let n := d_nd d' i in d_trg d' <> Some i -> compl P (n_state n) v ->
    bt P (n_bound n + v) primal -> be P (n_bb n) v.
Proof.
  intros i v Hi n Ti Cv Bt. destruct (run_completed' _ _ _ _ _ S F E) as (d2 & K & d3 & C).
  apply (done_back P I (vm_closed _ _ _ _ VM) rs rb rl rank primal w d2 K d3 d' C i v (vm_local _ _ _ _ VM)); auto.
Qed.
Lemma relaxed_prune_safe : forall i v, In i (d_an d') -> let n := d_nd d' i in d_trg d' <> Some i -> compl P (n_state n) v ->
    ~ bt P (n_bound n + n_bb n) primal -> ~ bt P (n_bound n + v) primal.
Proof. intros i v Hi n Ti Cv NB Bt. apply NB. pose proof (relaxed_backward i v Hi Ti Cv Bt) as L. fold n in L. vlia. Qed.
Lemma relaxed_width_ : p_sdom P = None ->
  (forall a b, I a -> I b -> a <> p_target P -> b <> p_target P -> rank a = rank b -> p_smf P a b <> None) ->
  forall k, length (layer_nodes d' k) <= Nat.max w 1.
Proof.
  intros SD MT k. destruct (run_completed' _ _ _ _ _ S F E) as (d2 & K & d3 & C).
  apply (done_width P I rs rb rl rank primal w d2 K d3 d' C); auto.
Qed.
End Result.

Lemma dominance_keeps_ fuel d primal w : started d rs rb rl -> N + 1 < fuel + rank rs ->
  (exists d' n, rx_compute P srt fuel d primal w = Ok d' /\ trg_node d' = Ok n /\
     forall V, solution P rs rb V -> bt P V primal -> be P (n_bound n) V) /\
  (1 <= w -> (N.of_nat w < 4294967296)%N -> exists d' n, rs_compute P fuel d primal w = Ok d' /\ trg_node d' = Ok n /\
     (d_exact d' = true -> forall V, solution P rs rb V -> bt P V primal -> be P (n_bound n) V)).
Proof.
  intros S F. split.
  - destruct (relaxed_terminates fuel d primal w S F) as (d' & E). destruct (relaxed_dual_bound _ _ _ _ _ S F E) as (n & T & _ & H). eauto.
  - intros W1 W2. destruct VM as [V1 V2 V3 V4 V5 V6 V7 V8].
    destruct (restricted_complete P I V1 rs rb rl Hrs HI Hrange rank V2 V6 V7 N V3 V8 fuel d primal w S W1 ltac:(lia) F) as (d' & E & _ & H).
    destruct (restricted_genuine P I V1 rs rb rl Hrs HI Hrange fuel d primal w d' S E) as (n & T & _). exists d', n. csplit; auto.
    intros X. destruct (H X) as (n' & T' & H'). rewrite T in T'. injection T' as <-. auto.
Qed.
End S.

Lemma relaxed_width {St} (P : prob St) I rank N : valid_model P I rank N ->
  p_sdom P = None ->
  (forall a b, I a -> I b -> a <> p_target P -> b <> p_target P -> rank a = rank b -> p_smf P a b <> None) ->
  forall rs rb rl, rs <> p_target P -> I rs -> in_range P rs rb ->
  forall srt : dd St -> list nat -> list nat, (forall d l, Permutation (srt d l) l) ->
  forall fuel d primal w d', started d rs rb rl -> N + 1 < fuel + rank rs -> rx_compute P srt fuel d primal w = Ok d' ->
  forall k, length (layer_nodes d' k) <= Nat.max w 1.
Proof. intros V SD MT rs rb rl H1 H2 H3 srt H4 fuel d primal w d' S F E. eapply relaxed_width_; eauto. Qed.
Lemma dominance_keeps {St} (P : prob St) I rank N : valid_model P I rank N -> forall sdom, p_sdom P = Some sdom ->
  forall rs rb rl, rs <> p_target P -> I rs -> in_range P rs rb ->
  forall srt : dd St -> list nat -> list nat, (forall d l, Permutation (srt d l) l) ->
  forall fuel d primal w, started d rs rb rl -> N + 1 < fuel + rank rs ->
  (exists d' n, rx_compute P srt fuel d primal w = Ok d' /\ trg_node d' = Ok n /\
     forall V, solution P rs rb V -> bt P V primal -> be P (n_bound n) V) /\
  (1 <= w -> (N.of_nat w < 4294967296)%N -> exists d' n, rs_compute P fuel d primal w = Ok d' /\ trg_node d' = Ok n /\
     (d_exact d' = true -> forall V, solution P rs rb V -> bt P V primal -> be P (n_bound n) V)).
Proof. intros V sdom _ rs rb rl H1 H2 H3 srt H4 fuel d primal w. eapply dominance_keeps_; eauto. Qed.

Lemma local_prune_safe {St} (P : prob St) I : closed P I -> valid_local P I ->
  forall d primal p l d' s', transition P d primal p l = (d', None) -> p_stf P (n_state (d_nd d p)) l = Some s' -> I s' ->
  forall v, compl P s' v -> ~ bt P (n_bound (d_nd d p) + (p_cost P (n_state (d_nd d p)) l + v)) primal.
Proof.
  intros HC HL d primal p l d' s' T S Is v C. pose proof (transition_none P _ _ _ _ _ T) as H.
  destruct H as [H|(s2 & loc & S2 & L & NB)]; [congruence|]. rewrite S in S2. injection S2 as <-. pose proof (HL loc s' true v L Is C). vlia.
Qed.

(** ** examples and counterexamples *)
Lemma exSrt_perm {St} (P : prob St) d l : Permutation (exSrt P d l) l.
Proof. unfold exSrt. apply (msort_list_ok _ (fun _ _ => True)); auto. Qed.

(** two states on layer 1, each with one expensive way out; the merged state 3 has all labels at their cheapest *)
Definition tmerge := mkTab [rw 0 0 1 1; rw 0 1 2 2; rw 1 0 4 10; rw 2 1 4 10; rw 3 0 4 1; rw 3 1 4 1] 4 [0; 1; 1; 1; 0]
  ((0, 0, 0) :: flat_map (fun a => map (fun b => (a, b, 3)) [1; 2; 3]) [1; 2; 3]) None None true.
Lemma tmerge_facts : valid_model (tabP tmerge) (inTab tmerge) (tabRank tmerge) 1 /\ p_sdom (tabP tmerge) = None /\
  (forall a b, inTab tmerge a -> inTab tmerge b -> a <> p_target (tabP tmerge) -> b <> p_target (tabP tmerge) -> tabRank tmerge a = tabRank tmerge b ->
     p_smf (tabP tmerge) a b <> None) /\
  in_range (tabP tmerge) 0 0 /\ (forall V, solution (tabP tmerge) 0 0 V <-> V = 11%Z \/ V = 12%Z) /\
  outcome (run (tabP tmerge) (exSrt (tabP tmerge)) 9 (SRelaxed 1) (initialBest (tabP tmerge))) = Ok (2%Z, [0; 0]%Z, false, 5) /\
  (do d <- run (tabP tmerge) (exSrt (tabP tmerge)) 9 (SRelaxed 1) (initialBest (tabP tmerge)) ; Ok (map (fun k => length (layer_nodes d k)) [0; 1; 2])) = Ok [1; 1; 0].
Proof.
  split; [apply tab_valid; vm_compute; reflexivity|]. split; [reflexivity|]. split; [apply tab_total; vm_compute; reflexivity|].
  split; [apply tab_range; vm_compute; reflexivity|]. split; [|split; vm_compute; reflexivity].
  intros V. rewrite tab_solution by reflexivity. match goal with |- In _ ?l <-> _ => let x := eval vm_compute in l in change l with x end.
  cbn [In]. lia.
Qed.

(** layer 1 holds A=1, M=2 (dominated by A) and B=3; all merges give M *)
Definition tdom := mkTab [rw 0 0 1 0; rw 0 1 2 0; rw 0 2 3 0; rw 1 0 4 0; rw 2 0 4 0; rw 3 0 4 0] 4 [0; 1; 1; 1; 0]
  ((0, 0, 0) :: flat_map (fun a => map (fun b => (a, b, 2)) [1; 2; 3]) [1; 2; 3]) None (Some [(1, 2)]) true.
Lemma width_dominance_refuted : exists St (P : prob St) I rank N, valid_model P I rank N /\ I (p_init P) /\ p_init P <> p_target P /\
  in_range P (p_init P) 0 /\
  (forall a b, I a -> I b -> a <> p_target P -> b <> p_target P -> rank a = rank b -> p_smf P a b <> None) /\
  exists d', run P (exSrt P) 10 (SRelaxed 1) (initialBest P) = Ok d' /\ length (layer_nodes d' 1) = 2.
Proof.
  exists nat, (tabP tdom), (inTab tdom), (tabRank tdom), 1.
  split; [apply tab_valid; vm_compute; reflexivity|]. split; [unfold inTab; cbn; lia|]. split; [discriminate|].
  split; [apply tab_range; vm_compute; reflexivity|]. split; [apply tab_total; vm_compute; reflexivity|].
  eexists. split; vm_compute; reflexivity.
Qed.

(** X=1 has the completion 0, so it dominates the target 2; both are reached from the root *)
Definition tsink := mkTab [rw 0 0 1 0; rw 0 1 2 0; rw 1 0 2 0] 2 [0; 1; 0] [] None (Some [(1, 2)]) true.
Lemma sink_dominated_refuted : exists St (P : prob St) I rank sdom, closed P I /\ layered P I rank /\ p_sdom P = Some sdom /\
  (forall a b, I a -> I b -> sdom a b = true -> relaxes P a b) /\ I (p_init P) /\ p_init P <> p_target P /\ in_range P (p_init P) 0 /\
  p_local P = None /\ (forall a b, p_smf P a b = None) /\
  run P (exSrt P) 10 (SRelaxed 9) (initialBest P) = Err UB.
Proof.
  exists nat, (tabP tsink), (inTab tsink), (tabRank tsink). eexists.
  split; [apply tab_closed; reflexivity|]. split; [apply tab_layered; reflexivity|]. split; [reflexivity|].
  split; [intros a b _ _ D; eapply (tab_dom_full tsink) with (sdom := fun a b => existsb (fun x => (fst x =? a) && (snd x =? b)) [(1, 2)]); [..|exact D]; reflexivity|]. split; [unfold inTab; cbn; lia|]. split; [discriminate|].
  split; [apply tab_range; vm_compute; reflexivity|]. split; [reflexivity|]. split; [reflexivity|]. vm_compute. reflexivity.
Qed.

(** root -10-> 3, root -11-> 1 -> 2 -(-5)-> 3 -> 4 -> target *)
Definition tskip := mkTab [rw 0 0 3 10; rw 0 1 1 11; rw 1 0 2 0; rw 2 0 3 (-5); rw 3 0 4 0; rw 4 0 5 0] 5 [] [] None None true.
Lemma non_layered_refuted : exists (P : prob nat) I, closed P I /\ (forall s l s', p_stf P s l = Some s' -> s < s' <= 5) /\
  I (p_init P) /\ p_init P <> p_target P /\ in_range P (p_init P) 0 /\ p_local P = None /\ p_sdom P = None /\ p_min P = true /\
  (forall a b, p_smf P a b = None) /\ solution P (p_init P) 0 6 /\
  (forall strat, strat = SRelaxed 9 \/ strat = SRestricted 9 -> exists d' n, run P (exSrt P) 10 strat (initialBest P) = Ok d' /\
     d_exact d' = true /\ trg_node d' = Ok n /\ n_bound n = 10%Z).
Proof.
  exists (tabP tskip), (inTab tskip). split; [apply tab_closed; reflexivity|].
  split.
  { intros s l s' S. apply stf_look in S as (x & E & Es & _). apply look_in in E as (Hx & Ef & _); [|reflexivity]. subst.
    now apply (row_incr tskip eq_refl) in Hx. }
  split; [unfold inTab; cbn; lia|]. split; [discriminate|]. split; [apply tab_range; vm_compute; reflexivity|].
  do 4 (split; [reflexivity|]). split; [apply tab_solution; [reflexivity|vm_compute; auto]|].
  intros strat [->| ->]; eexists; eexists; (split; [vm_compute; reflexivity|]); (split; [reflexivity|]); split; reflexivity.
Qed.
