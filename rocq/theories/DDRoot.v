(** A relaxed diagram whose width is at least the number of labels of its root: the root is not in the cut set (used by C69). *)
From Verif Require Import Base DDModel DDSpec DDFrame DDInv DDLayer DDRestricted DDExpand DDRestricted2 DDMerge DDRelaxed DDPasses DDRelaxed2 DDRelaxedEnd DDWide.

Lemma cs_kids {St} (d : dd St) : forall fuel q seen cs cs', cs_loop fuel d q seen cs = Ok cs' -> forall i, In i cs' -> In i cs \/ all_kids_exact d i = false.
Proof.
  induction fuel as [|fuel IH]; intros q seen cs cs' E i Hi; destruct q as [|a q]; cbn [cs_loop] in E; try discriminate; try (injection E as <-; auto).
  destruct (n_exact (d_nd d a)); [|exact (IH _ _ _ _ E i Hi)]. destruct (all_kids_exact d a) eqn:K.
  - destruct (cs_push d a q seen) as [q1 seen1]. exact (IH _ _ _ _ E i Hi).
  - destruct (IH _ _ _ _ E i Hi) as [H|H]; auto. apply in_app_or in H as [H|[<-|[]]]; auto.
Qed.
Lemma cutset_kids {St} (d : dd St) cs i : computeCutSet d = Ok cs -> In i cs -> all_kids_exact d i = false.
Proof.
  unfold computeCutSet. destruct (d_root d); [|discriminate]. intros E Hi. destruct (cs_kids d _ _ _ _ _ E i Hi) as [[]|H]; auto.
Qed.

Lemma enQueue_len {St} (d : dd St) q n : length (fst (lq_enQueue d q n)) + length (snd (lq_enQueue d q n)) = S (length (fst q) + length (snd q)).
Proof. destruct q as [[|f l] r]; cbn [lq_enQueue fst snd length]; auto. destruct (_ =? _); cbn [fst snd length]; rewrite ?app_length; cbn; lia. Qed.
Lemma rx_labels_len {St} (P : prob St) primal p : forall ls d q d' q', rx_labels P d primal q p ls = Ok (d', q') ->
  length (fst q') + length (snd q') <= length (fst q) + length (snd q) + length ls.
Proof.
  induction ls as [|l ls IH]; intros d q d' q' E; cbn [rx_labels] in E; [injection E as <- <-; lia|].
  apply bind_ok in E as ([d1 o] & _ & E). apply IH in E. cbn [length]. destruct o as [c|]; [|lia]. rewrite enQueue_len in E. lia.
Qed.

Section Root.
Context {St : Type} (P : prob St) (I : St -> Prop) (rank : St -> nat) (N : nat).
Hypothesis VM : valid_model P I rank N.
Variables (rs : St) (rb : Z) (rl : list Z).
Hypothesis Hrs : rs <> p_target P.
Hypothesis HI : I rs.
Hypothesis Hrange : in_range P rs rb.
Variable srt : dd St -> list nat -> list nat.
Hypothesis Hsrt : forall d l, Permutation (srt d l) l.
Let HC := vm_closed _ _ _ _ VM.
Let V2 := vm_layered _ _ _ _ VM.
Let V4 := vm_mlayered _ _ _ _ VM.
Let V5 := vm_merge _ _ _ _ VM.
Let V6 := vm_dom _ _ _ _ VM.
Let V7 := vm_domt _ _ _ _ VM.
Variable primal : Z.
Notation linv := (linv P I 0 1 rs rb rl rank primal true).
Notation below := (below 0 1).
Notation fresh := (fresh 0 1).

(** the layers below the one pulled are not touched any more *)
Lemma rx_loop_below w : forall fuel d K q d', 0 < K -> linv d K nobody nobody q [] -> fresh d K q ->
  rx_loop P srt fuel mfuel_std d primal w (q, []) = Ok d' -> below K d d'.
Proof.
  induction fuel as [|fuel IH]; intros d K q d' K0 H Fr E; cbn [rx_loop fst snd] in E; rewrite app_nil_r in E.
  - destruct q; [|discriminate]. injection E as <-. apply below_refl.
  - destruct q as [|n q]; [injection E as <-; apply below_refl|].
    destruct (lq_pull_linv P I HC 0 1 rs rb rl rank V4 V5 primal srt Hsrt d K w (n :: q) H (fun _ => Fr)) as (d1 & lk & E1 & H1 & Fr1 & BL & _); [lia|].
    rewrite E1 in E. cbn [bind] in E.
    destruct (rx_layer_linv P I HC 0 1 rs rb rl Hrs Hrange rank V2 V6 V7 primal lk d1 K [] H1) as (d2 & next & E2 & H2 & LO & _). rewrite E2 in E. cbn [bind] in E.
    assert (B2 : below (S K) d2 d').
    { apply (IH d2 (S K) next d'); auto; [now apply linv_shift|]. intros i Hi L Ni LK. apply (l_top H2); auto. }
    intros i Hi L Ni LK. destruct (B2 i Hi L Ni ltac:(lia)) as (A1 & A2 & A3 & A4). destruct (LO i A1 A2 Ni ltac:(lia)) as (A5 & A6 & A7 & A8).
    destruct (BL i A5 A6 Ni ltac:(lia)) as (A9 & A10 & A11 & A12). csplit; auto; congruence.
Qed.

(** with enough width for the children of the root, they are exact *)
Lemma root_kids_exact w d d' fuel : started d rs rb rl -> length (p_labels P rs) <= w ->
  rx_loop P srt fuel mfuel_std (prep P d) primal w ([0], []) = Ok d' -> forall i, i < d_nn d' -> live 0 d' i -> i <> 1 -> lay d' i = 1 -> exa d' i = true.
Proof.
  intros S Hw E. pose proof (prep_ok P I d rs rb rl HC HI Hrs S) as PP.
  pose proof (prepped_linv P I HC rs rb rl Hrs HI rank primal true (prep P d) PP) as H0.
  assert (X0 : d_exact (prep P d) = true).
  { unfold prep, target. destruct (makeNode P (with_dexact d true) (p_target P) true) as [d1 c] eqn:M. apply makeNode_dex in M. exact M. }
  destruct fuel as [|fuel]; [discriminate|]. cbn [rx_loop fst snd app] in E. unfold lq_pull in E.
  assert (Es : srt (prep P d) [0] = [0]) by (apply Permutation_length_1_inv; symmetry; apply Hsrt). rewrite Es in E.
  rewrite (mergeLayer_single P I HC rs) in E by (unfold mfuel_std; try lia; apply (l_cur H0); now left). cbn [bind] in E.
  destruct (rx_layer_linv P I HC 0 1 rs rb rl Hrs Hrange rank V2 V6 V7 primal [0] (prep P d) 0 [] H0) as (d2 & next & E2 & H2 & LO & _). rewrite E2 in E. cbn [bind] in E.
  assert (X2 : d_exact d2 = true) by (apply rx_layer_dex in E2; congruence).
  assert (Ln : length next <= w).
  { cbn [rx_layer] in E2. apply bind_ok in E2 as ([d1 q1] & E1 & E2). injection E2 as -> ->. apply rx_labels_len in E1. cbn [fst snd length] in E1.
    change (n_state (d_nd (prep P d) 0)) with (st (prep P d) 0) in E1. rewrite (pp_st _ _ _ _ _ PP) in E1. lia. }
  pose proof (linv_shift P I 0 1 rs rb rl rank primal true d2 0 next H2) as H3.
  assert (Fr : fresh d2 1 next). { intros i Hi L Ni LK. apply (l_top H2); auto. }
  destruct fuel as [|fuel]; cbn [rx_loop fst snd] in E; rewrite app_nil_r in E.
  { destruct next; [|discriminate]. injection E as <-. intros i Hi _ _ _. apply (l_dx H2 X2 i Hi). }
  destruct next as [|n next]; [injection E as <-; intros i Hi _ _ _; apply (l_dx H2 X2 i Hi)|].
  assert (E1 : lq_pull P srt (mfuel_std d2 (n :: next)) d2 w (n :: next, []) = Ok (d2, srt d2 (n :: next), ([], []))).
  { unfold lq_pull. pose proof (Permutation_length (Hsrt d2 (n :: next))) as PL.
    destruct (srt d2 (n :: next)) as [|a l] eqn:ES; [discriminate|].
    assert (mergeLayer P (mfuel_std d2 (n :: next)) d2 w (a :: l) [] = Ok (d2, a :: l)) as ->; auto.
    unfold mfuel_std. cbn [length plus]. rewrite Nat.add_succ_r. cbn [mergeLayer].
    replace (_ <=? w) with true; auto. symmetry. apply Nat.leb_le. cbn [length] in *. lia. }
  rewrite E1 in E. cbn [bind] in E.
  assert (H4 : linv d2 1 nobody nobody (srt d2 (n :: next)) []) by (eapply linv_perm; [| |exact H3]; auto; symmetry; apply Hsrt).
  destruct (rx_layer_linv P I HC 0 1 rs rb rl Hrs Hrange rank V2 V6 V7 primal _ d2 1 [] H4) as (d3 & next3 & E3 & H5 & LO3 & _). rewrite E3 in E. cbn [bind] in E.
  assert (B3 : below 2 d3 d').
  { apply (rx_loop_below w fuel d3 2 next3 d'); auto; [apply (linv_shift P I 0 1 rs rb rl rank primal true d3 1 next3 H5)|]. intros i Hi L Ni LK. apply (l_top H5); auto. }
  intros i Hi L Ni LK. destruct (B3 i Hi L Ni ltac:(lia)) as (A1 & A2 & A3 & A4). destruct (LO3 i A1 A2 Ni ltac:(lia)) as (A5 & A6 & A7 & A8).
  rewrite A4, A8. apply (l_dx H2 X2 i A5).
Qed.

Theorem relaxed_root_uncut fuel d d' w cs i : started d rs rb rl -> N + 1 < fuel + rank rs -> length (p_labels P rs) <= w ->
  rx_compute P srt fuel d primal w = Ok d' -> computeCutSet d' = Ok cs -> In i cs -> d_root d' <> Some i.
Proof.
  intros S F Hw E Ec Hi R. pose proof (prep_ok P I d rs rb rl HC HI Hrs S) as PP.
  unfold rx_compute in E. rewrite (sd_root _ _ _ _ S) in E.
  change (with_node (target P (with_dexact d true)) 0 (nset_layer (d_nd (target P (with_dexact d true)) 0) 0)) with (prep P d) in E.
  cbn [lq_enQueue] in E. apply bind_ok in E as (d2 & E2 & E).
  pose proof (prepped_linv P I HC rs rb rl Hrs HI rank primal true (prep P d) PP) as H0. pose proof (vm_depth _ _ _ _ VM) as V3.
  destruct (rx_loop_linv P I HC 0 1 rs rb rl Hrs Hrange rank V2 V6 V7 V4 V5 primal srt Hsrt fuel (prep P d) 0 w [0] N)
    as (d2' & K & E2' & H & _); auto; [eapply linv_fresh; eauto|lia|]. rewrite E2 in E2'. injection E2' as <-.
  pose proof (root_kids_exact w d d2 fuel S Hw E2) as RK.
  pose proof (g_base (l_gen H)) as B. rewrite (b_trg B) in E. pose proof (tighten_spec P d2 1 (b_trg B)) as T.
  destruct (bback_ok P (tighten P d2 1) _ (tightened_wfg P _ _ _ _ T (linv_wfg P I rs rb rl rank _ _ _ _ H))) as (d3 & E' & BO & _).
  rewrite E in E'. injection E' as <-.
  assert (i = 0). { rewrite (bo_root _ _ BO), (tg_root _ _ _ _ T), (b_root B) in R. congruence. } subst i.
  pose proof (cutset_kids d' cs 0 Ec Hi) as Q. enough (Y : all_kids_exact d' 0 = true) by congruence.
  apply all_kids_exact_true. intros e He. rewrite (bo_nd _ _ BO) in He. dsimp. rewrite (tg_kids _ _ _ _ T) in He.
  destruct (b_r B) as [R1 R2]. apply (b_kids B) in He as [He Ef]; auto. destruct (b_ends B e He) as [_ Et].
  rewrite (bo_ed _ _ BO), (tg_ed _ _ _ _ T). destruct (Nat.eq_dec (to d2 e) 1) as [E1|N1].
  - left. rewrite (bo_trg _ _ BO), (tg_trg _ _ _ _ T), (b_trg B). now rewrite E1.
  - right. rewrite (bo_nd _ _ BO). dsimp. rewrite (tg_ex _ _ _ _ T). apply RK; auto.
    + right. intros Ep. assert (In e (par d2 (to d2 e))) as Y by (apply (b_par B); auto). rewrite Ep in Y. destruct Y.
    + rewrite (l_lbl H e He N1), Ef. pose proof (l_rank H 0 R1 (or_introl eq_refl)) as Rk. rewrite R2 in Rk.
      assert (0 <> 1) as N01 by lia. specialize (Rk N01). lia.
Qed.
End Root.
