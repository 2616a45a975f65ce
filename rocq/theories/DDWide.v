(** Relaxed diagrams whose width suffices: nothing is merged, the diagram stays exact (used by C19). *)
From Verif Require Import Base DDModel DDSpec DDFrame DDInv DDLayer DDRestricted DDExpand DDRestricted2 DDMerge DDRelaxed DDPasses DDRelaxed2.

(** no depth has more than w states: any w+1 states reached by label sequences of one length are not pairwise distinct *)
Definition narrow {St} (P : prob St) (s : St) (w : nat) : Prop :=
  forall k l, NoDup l -> (forall x, In x l -> x <> p_target P /\ exists ls v, path P s ls v x /\ length ls = k) -> length l <= w.

Lemma NoDup_map_on {A B} (f : A -> B) l : (forall x y, In x l -> In y l -> f x = f y -> x = y) -> NoDup l -> NoDup (map f l).
Proof.
  induction l as [|a l IH]; intros Inj ND; cbn; [constructor|]. apply NoDup_cons_iff in ND as [Na ND]. constructor.
  - intros H. apply in_map_iff in H as (x & E & Hx). apply Na. rewrite (Inj a x); cbn; auto.
  - apply IH; auto. intros x y Hx Hy. apply Inj; cbn; auto.
Qed.

Section Dex.
Context {St : Type} (P : prob St).
Lemma makeNode_dex d s x d' c : makeNode P d s x = (d', c) -> d_exact d' = d_exact d.
Proof.
  unfold makeNode. destruct (hasNode P d s) as [a|]; [|intros E; injection E as <- <-; auto].
  destruct (_ && _ && _); intros E; injection E as <- <-; auto.
Qed.
Lemma transition_dex d primal p l d' o : transition P d primal p l = (d', o) -> d_exact d' = d_exact d.
Proof.
  unfold transition. destruct (p_stf P _ l) as [vs|]; [|intros E; injection E as <- <-; auto].
  destruct (p_local P) as [local|].
  - destruct (negb _); [intros E; injection E as <- <-; auto|].
    destruct (makeNode P d vs _) as [d1 rv] eqn:M. apply makeNode_dex in M.
    intros E; injection E as <- <-. destruct (negb _); auto.
  - destruct (makeNode P d vs _) as [d1 rv] eqn:M. apply makeNode_dex in M. intros E; injection E as <- <-. auto.
Qed.
Lemma addEdge_dex (d : dd St) p c l k d' : addEdge d p c l k = Ok d' -> d_exact d' = d_exact d.
Proof. unfold addEdge. destruct (p =? c); [discriminate|]. intros E; injection E as <-. auto. Qed.
Lemma step_arc_dex d primal q p l d' o : step_arc P d primal q p l = Ok (d', o) -> d_exact d' = d_exact d.
Proof.
  unfold step_arc. destruct (transition P d primal p l) as [d1 [c0|]] eqn:T; apply transition_dex in T.
  - intros E. apply bind_ok in E as ([[d2 c] nn] & E2 & E). apply bind_ok in E as (d3 & E3 & E). apply addEdge_dex in E3.
    assert (X2 : d_exact d2 = d_exact d1).
    { destruct (p_sdom P); [|injection E2 as <- <- <-; auto]. destruct (nbParents d1 c0 =? 0); [|injection E2 as <- <- <-; auto].
      destruct (checkDominance _ _ _ _ _); [|injection E2 as <- <- <-; auto]. apply bind_ok in E2 as (an & _ & E2). injection E2 as <- <- <-; auto. }
    destruct (negb _ && nn); injection E as <- <-; cbn; destruct (isBetter _ _ _); cbn; congruence.
  - intros E. injection E as <- <-. auto.
Qed.
Lemma rx_labels_dex primal p : forall ls d q d' q', rx_labels P d primal q p ls = Ok (d', q') -> d_exact d' = d_exact d.
Proof.
  induction ls as [|l ls IH]; intros d q d' q' E; cbn [rx_labels] in E; [injection E as <- <-; auto|].
  apply bind_ok in E as ([d1 o] & E1 & E). apply step_arc_dex in E1. apply IH in E. congruence.
Qed.
Lemma rx_layer_dex primal : forall lk d q d' q', rx_layer P d primal q lk = Ok (d', q') -> d_exact d' = d_exact d.
Proof.
  induction lk as [|p lk IH]; intros d q d' q' E; cbn [rx_layer] in E; [injection E as <- <-; auto|].
  apply bind_ok in E as ([d1 q1] & E1 & E). apply rx_labels_dex in E1. apply IH in E. congruence.
Qed.
End Dex.

Section Wide.
Context {St : Type} (P : prob St) (I : St -> Prop) (rank : St -> nat) (N : nat).
Hypothesis VM : valid_model P I rank N.
Variables (rs : St) (rb : Z) (rl : list Z).
Hypothesis Hrs : rs <> p_target P.
Hypothesis HI : I rs.
Hypothesis Hrange : in_range P rs rb.
Variable srt : dd St -> list nat -> list nat.
Hypothesis Hsrt : forall d l, Permutation (srt d l) l.
Variable w : nat.
Hypothesis Hw : narrow P rs w.
Let HC := vm_closed _ _ _ _ VM.
Variable primal : Z.
Notation linv := (linv P I 0 1 rs rb rl rank primal true).

Lemma path_rank s ls v x : I s -> path P s ls v x -> x <> p_target P -> rank x = rank s + length ls.
Proof.
  intros Is H. revert Is. induction H as [s|s l s' ls v x Ns Hl S H IH]; intros Is Nx; cbn [length]; [lia|].
  assert (Is' : I s') by (eapply (cl_step P I HC); eauto).
  assert (Ns' : s' <> p_target P). { intros ->. apply path_target in H as (_ & _ & ->). auto. }
  rewrite (IH Is' Nx), (vm_layered _ _ _ _ VM s l s' Is Ns Hl S Ns'). lia.
Qed.

Lemma layer_narrow d K q : linv d K nobody nobody q [] -> d_exact d = true -> length q <= w.
Proof.
  intros H X. pose proof (l_gen H) as G. pose proof (g_base G) as B.
  rewrite <- (map_length (fun i => st d i) q). apply (Hw K).
  - apply NoDup_map_on; [|apply (l_ndc H)].
    intros i j Hi Hj E. destruct (l_cur H i Hi) as (A1 & _), (l_cur H j Hj) as (A2 & _). now apply (b_uniq B).
  - intros x Hx. apply in_map_iff in Hx as (i & <- & Hi). destruct (l_cur H i Hi) as (A1 & A2 & A3 & A4 & _).
    assert (Nt : st d i <> p_target P) by (now rewrite (st_target B A1)). split; auto.
    destruct (g_gen G i A1 A2 (l_dx H X i A1)) as (ls & v & _ & _ & Pt). exists ls, v. split; auto.
    pose proof (path_rank _ _ _ _ HI Pt Nt) as R. rewrite (l_rank H i) in R by auto. lia.
Qed.

Lemma rx_loop_wide : forall fuel d K q d',
  linv d K nobody nobody q [] -> d_exact d = true ->
  rx_loop P srt fuel mfuel_std d primal w (q, []) = Ok d' -> d_exact d' = true.
Proof.
  induction fuel as [|fuel IH]; intros d K q d' H X; cbn [rx_loop fst snd]; rewrite app_nil_r.
  - destruct q; [|discriminate]. intros E; injection E as <-. auto.
  - destruct q as [|n q]; [intros E; injection E as <-; auto|].
    pose proof (layer_narrow _ _ _ H X) as L.
    assert (E1 : lq_pull P srt (mfuel_std d (n :: q)) d w (n :: q, []) = Ok (d, srt d (n :: q), ([], []))).
    { unfold lq_pull. pose proof (Permutation_length (Hsrt d (n :: q))) as PL.
      destruct (srt d (n :: q)) as [|a l] eqn:ES; [discriminate|]. 
      assert (mergeLayer P (mfuel_std d (n :: q)) d w (a :: l) [] = Ok (d, a :: l)) as ->; auto.
      unfold mfuel_std. cbn [length plus]. rewrite Nat.add_succ_r. cbn [mergeLayer]. 
      replace (_ <=? w) with true; auto. symmetry. apply Nat.leb_le. cbn [length] in *. lia. }
    rewrite E1. cbn [bind].
    assert (H1 : linv d K nobody nobody (srt d (n :: q)) []) by (eapply linv_perm; [| |exact H]; auto; symmetry; apply Hsrt).
    destruct (rx_layer_linv P I HC 0 1 rs rb rl Hrs Hrange rank (vm_layered _ _ _ _ VM) (vm_dom _ _ _ _ VM) (vm_domt _ _ _ _ VM) primal _ d K [] H1)
      as (d2 & next & E2 & H2 & _). rewrite E2. cbn [bind].
    apply IH with (K := S K).
    + apply linv_shift; auto.
    + apply rx_layer_dex in E2. congruence.
Qed.

Theorem relaxed_wide fuel d d' : started d rs rb rl -> N + 1 < fuel + rank rs -> rx_compute P srt fuel d primal w = Ok d' -> d_exact d' = true.
Proof.
  intros S F E. pose proof (prep_ok P I d rs rb rl HC HI Hrs S) as PP.
  pose proof (prepped_linv P I HC rs rb rl Hrs HI rank primal true (prep P d) PP) as H0.
  unfold rx_compute in E. rewrite (sd_root _ _ _ _ S) in E.
  change (with_node (target P (with_dexact d true)) 0 (nset_layer (d_nd (target P (with_dexact d true)) 0) 0)) with (prep P d) in E.
  cbn [lq_enQueue] in E. apply bind_ok in E as (d2 & E2 & E).
  pose proof (vm_layered _ _ _ _ VM) as V2. pose proof (vm_depth _ _ _ _ VM) as V3. pose proof (vm_mlayered _ _ _ _ VM) as V4.
  pose proof (vm_merge _ _ _ _ VM) as V5. pose proof (vm_dom _ _ _ _ VM) as V6. pose proof (vm_domt _ _ _ _ VM) as V7.
  destruct (rx_loop_linv P I HC 0 1 rs rb rl Hrs Hrange rank V2 V6 V7 V4 V5 primal srt Hsrt fuel (prep P d) 0 w [0] N)
    as (d2' & K & E2' & H & _); auto; [eapply linv_fresh; eauto|lia|]. rewrite E2 in E2'. injection E2' as <-.
  assert (X0 : d_exact (prep P d) = true).
  { unfold prep, target. destruct (makeNode P (with_dexact d true) (p_target P) true) as [d1 c] eqn:M. apply makeNode_dex in M. exact M. }
  pose proof (rx_loop_wide _ _ _ _ _ H0 X0 E2) as X.
  pose proof (g_base (l_gen H)) as B. rewrite (b_trg B) in E. pose proof (tighten_spec P d2 1 (b_trg B)) as T.
  destruct (bback_ok P (tighten P d2 1) _ (tightened_wfg P _ _ _ _ T (linv_wfg P I rs rb rl rank _ _ _ _ H))) as (d3 & E' & BO & BB).
  rewrite E in E'. injection E' as <-. now rewrite (bo_dex _ _ BO), (tg_dex _ _ _ _ T).
Qed.
End Wide.
