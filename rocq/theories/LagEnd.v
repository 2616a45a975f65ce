(** misp4_lag.cpp: the local bounds are valid, searches (C66, C67). *)
From Coq Require Import QArith Qround Lqa Sorting.Sorted Permutation.
From Verif Require Import Base DDModel DDSpec DDFrame DDRestricted DDExact DDExamples DDWide SearchModel SearchProofs SearchEx TspModel TspProofs MispModel MispSpec MispProofs MispInst MispFirst MispEnd ColorModel SearchLoc LagModel LagSpec LagClique LagProofs.
Local Open Scope nat_scope.

Section End_.
Variables (nv : nat) (es : list (nat * nat)) (part : clqPartition) (weight : nat -> Z).
Hypothesis Hg : in_graph nv es.
Hypothesis Hp : maximalCliquePartition nv es = Ok part.
Lemma part_ok : clique_partition nv es (q_cliques part) /\ numbers nv (q_cliques part) (q_of part).
Proof. destruct (partition_ok nv es Hg) as (cs & E & A & _ & B). rewrite Hp in E. injection E as ->. auto. Qed.
Lemma clique_bounds S : bounds_sets nv es weight (bmem S) (cliqueBound nv part weight S).
Proof. destruct part_ok as [A B]. intros T HT HS. now apply (cliqueBound_ge nv es part weight A B S T). Qed.
Lemma lag_bounds lam S : lam_ok es lam -> bounds_sets nv es weight (bmem S) (lagBound nv part weight lam S).
Proof. destruct part_ok as [A B]. intros HL T HT HS. now apply (lagBound_ge nv es part weight A B S T). Qed.
Lemma nil_indep : indep_set nv es [].
Proof. split; [constructor|split; [constructor|intros i j []]]. Qed.
Lemma dual_multipliers maxIter alpha0 lam reOpt S : lam_ok es lam -> lam_ok es (snd (lagrangianDual nv es part weight maxIter alpha0 lam reOpt S)).
Proof. destruct part_ok as [A B]. intros HL. apply (dual_ok nv es part weight A B S [] nil_indep); auto. Qed.
Lemma dual_bounds maxIter alpha0 lam reOpt S : lam_ok es lam -> 1 <= maxIter ->
  exists z, fst (lagrangianDual nv es part weight maxIter alpha0 lam reOpt S) = Some z /\ bounds_sets nv es weight (bmem S) z.
Proof.
  destruct part_ok as [A B]. intros HL M.
  destruct (proj2 (dual_ok nv es part weight A B S [] nil_indep (fun v F => match F with end) maxIter alpha0 lam reOpt HL) M) as (z & E & _).
  exists z. split; auto. intros T HT HS. destruct (proj2 (dual_ok nv es part weight A B S T HT HS maxIter alpha0 lam reOpt HL) M) as (z' & E' & L). congruence.
Qed.
Lemma lag_start_ok : lam_ok es (lag_start nv es part weight).
Proof. apply dual_multipliers. constructor. Qed.

(** ** as local bounds of the model *)
Hypothesis Hn : 1 <= nv.
Notation P4 := (misp4p nv es weight).
Notation I4 := (dinv P4 (live4 nv)).
Lemma local_by_sets s v b : I4 s -> compl P4 s v -> bounds_sets nv es weight (bmem (q_sel s)) b -> (v <= b)%Z.
Proof.
  intros [Hs| ->] [ls H] B.
  - destruct (dec_sound _ _ _ _ _ _ _ _ (dec4 nv es weight Hn) ls s v H Hs) as (T1 & T2 & _ & _ & T5 & T6 & ->). apply B.
    + split; [now apply picks_sorted|]. split; auto. apply Forall_forall. intros x Hx. apply picks_in in Hx. rewrite Forall_forall in T2. apply (T2 x Hx).
    + rewrite Forall_forall in T5. exact T5.
  - apply path_target in H as (_ & -> & _). apply (B [] nil_indep). intros v [].
Qed.
Lemma be4 b v : (v <= b)%Z -> be (lag_base nv es weight) b v.
Proof. intros H. unfold be, val. cbn. lia. Qed.
Lemma clique_model : nonneg nv weight -> valid_model (misp_clique nv es part weight) I4 q_n (nv - 1).
Proof.
  intros W. apply rl_model; [apply (dec_valid _ _ _ _ _ _ _ _ (dec4 nv es weight Hn)); auto|]. intros g s ctx v E Is C. injection E as <-.
  apply (be4 (cliqueBound nv part weight (q_sel s)) v). eapply local_by_sets; eauto. apply clique_bounds.
Qed.
Lemma base_model : nonneg nv weight -> valid_model (lag_base nv es weight) I4 q_n (nv - 1).
Proof. intros W. apply rl_model; [apply (dec_valid _ _ _ _ _ _ _ _ (dec4 nv es weight Hn)); auto|]. discriminate. Qed.
Lemma lag_locals : loc_ok (lag_base nv es weight) I4 (lag_dd nv part weight) (lag_bb nv es part weight) (lam_ok es).
Proof.
  constructor.
  - intros m Hm s v Is C. apply (proj1 (rl_compl P4 None s v)) in C. split; apply be4; eapply local_by_sets; eauto.
    + now apply lag_bounds.
    + unfold lag_bb. destruct (dual_bounds 50 1%Q m true (q_sel s) Hm ltac:(lia)) as (z & E & B).
      destruct (lagrangianDual nv es part weight 50 1 m true (q_sel s)) as [d lam1]. cbn [fst] in *. subst d. exact B.
  - intros m s Hm _. unfold lag_bb. pose proof (dual_multipliers 50 1%Q m true (q_sel s) Hm) as K.
    destruct (lagrangianDual nv es part weight 50 1 m true (q_sel s)) as [d lam1]. exact K.
Qed.

(** ** searches *)
Lemma relocal_represents f g : represents P4 nv es weight g -> represents (relocal P4 f) nv es weight g.
Proof.
  intros [A B]. split.
  - intros ls v H. apply (proj1 (rl_path P4 f _ _ _ _)) in H. exact (A ls v H).
  - intros S HS. destruct (B S HS) as (ls & H & H1 & H2). exists ls. split; [now apply (proj2 (rl_path P4 f _ _ _ _))|]. split; auto.
    intros ls' v' H'. apply (H2 ls' v'). now apply (proj1 (rl_path P4 f _ _ _ _)) in H'.
Qed.
Notation vx := (fun ls : list Z => seq 0 (length ls)).
Lemma genuine_reports f (s : @sst misp4) : (b_primal (s_b s) <> sentinel P4 -> genuine P4 (p_init P4) 0 [] (p_target P4) (b_primal (s_b s)) (b_inc (s_b s))) ->
  (forall ls, In ls (b_log (s_b s)) -> exists v, genuine P4 (p_init P4) 0 [] (p_target P4) v ls /\ bt P4 v (sentinel P4)) -> reports (relocal P4 f) nv es weight vx s.
Proof.
  intros G1 G2. destruct (misp4_represents nv es weight Hn) as [D _]. split.
  - intros lab Hl. destruct (G2 lab Hl) as (v & (ls & w & -> & _ & H) & _). now destruct (D _ _ H) as (_ & _ & ? & _).
  - intros N. destruct (G1 N) as (ls & w & E1 & E2 & H). cbn in E1, E2. rewrite E1, E2. now destruct (D _ _ H) as (_ & _ & ? & ?).
Qed.
Lemma relocal_setting f srt dfuel mxw : nonneg nv weight -> (forall dd l, Permutation (srt dd l) l) -> nv < dfuel -> (N.of_nat mxw < 4294967296)%N ->
  valid_model (relocal P4 f) I4 q_n (nv - 1) -> setting (relocal P4 f) I4 q_n (nv - 1) srt dfuel mxw.
Proof.
  intros W PS DF MW VM. destruct (dec_setting _ _ _ _ _ _ _ _ (dec4 nv es weight Hn) srt dfuel mxw W PS DF MW) as [B1 B2 B3 B4 B5 B6 B7].
  constructor; auto. now apply (proj2 (rl_range P4 f _ _)).
Qed.
Lemma live_states f s : s <> p_target (relocal P4 f) -> (exists ls v, path (relocal P4 f) (p_init (relocal P4 f)) ls v s) -> In s (m4_states nv).
Proof.
  intros Nt (ls & v & H). apply (live4_in nv weight Hn). apply (proj1 (rl_path P4 f _ _ _ _)) in H. assert (Q : I4 s); [|destruct Q as [?| ->]; auto; now elim Nt].
  eapply path_closed; [apply (dec_closed _ _ _ _ _ _ _ _ (dec4 nv es weight Hn))| |exact H]. left. apply (dc_init _ _ _ _ _ _ _ _ (dec4 nv es weight Hn)).
Qed.
Lemma B0 f : be (relocal P4 f) (sentinel (relocal P4 f)) (sentinel (relocal P4 f)).
Proof. unfold be. lia. Qed.
Lemma clique_search srt dfuel mxw lim fuel : nonneg nv weight -> (forall dd l, Permutation (srt dd l) l) -> nv < dfuel -> (N.of_nat mxw < 4294967296)%N ->
  2 ^ nv * nv <= fuel ->
  exists s e, search (misp_clique nv es part weight) srt dfuel lim fuel mxw None = Ok (s, e) /\ reports (misp_clique nv es part weight) nv es weight vx s.
Proof.
  intros W PS DF MW F. pose proof (relocal_setting (Some (fun s _ => cliqueBound nv part weight (q_sel s))) srt dfuel mxw W PS DF MW (clique_model W)) as SE.
  destruct (search_total _ _ _ _ srt dfuel mxw SE lim None (B0 _) (m4_states nv) (live_states _)) with (fuel := fuel) as (s & e & E); [now rewrite m4_states_length|].
  exists s, e. split; [exact E|]. destruct (search_genuine _ _ _ _ srt dfuel mxw SE lim None (B0 _) fuel s e E) as [G1 G2]. apply genuine_reports.
  - intros N. apply (proj1 (rl_genuine P4 _ _ _ _ _ _ _)) in G1; auto.
  - intros ls Hl. destruct (G2 ls Hl) as (v & G & B). exists v. split; [now apply (proj1 (rl_genuine P4 _ _ _ _ _ _ _)) in G|exact B].
Qed.
Notation LB := (lag_base nv es weight).
Notation Ldd := (lag_dd nv part weight).
Notation Lbb := (lag_bb nv es part weight).
Notation Lst := (lag_start nv es part weight).
Lemma lag_search srt dfuel mxw lim fuel : nonneg nv weight -> (forall dd l, Permutation (srt dd l) l) -> nv < dfuel -> (N.of_nat mxw < 4294967296)%N ->
  2 ^ nv * nv <= fuel ->
  exists s m e, searchM LB Ldd Lbb srt dfuel lim Lst fuel mxw None = Ok (s, m, e) /\ lam_ok es m /\ reports LB nv es weight vx s.
Proof.
  intros W PS DF MW F. pose proof (relocal_setting None srt dfuel mxw W PS DF MW (base_model W)) as SE.
  destruct (searchM_total _ _ _ _ _ _ _ srt dfuel mxw SE lag_locals lim None (B0 _) Lst lag_start_ok (m4_states nv) (live_states _) fuel) as (s & m & e & E); [now rewrite m4_states_length|].
  exists s, m, e. split; [exact E|]. split; [apply (proj1 (runM_facts _ _ _ _ _ _ _ srt dfuel mxw SE lag_locals lim None (B0 _) Lst lag_start_ok fuel s m e E))|].
  destruct (searchM_genuine _ _ _ _ _ _ _ srt dfuel mxw SE lag_locals lim None (B0 _) Lst lag_start_ok fuel s m e E) as [G1 G2]. apply genuine_reports.
  - intros N. apply (proj1 (rl_genuine P4 None _ _ _ _ _ _)) in G1; auto.
  - intros ls Hl. destruct (G2 ls Hl) as (v & G & B). exists v. split; [now apply (proj1 (rl_genuine P4 None _ _ _ _ _ _)) in G|exact B].
Qed.
Lemma no_dom {St} (P : prob St) I : p_sdom P = None -> valid_qdom P I.
Proof. intros E sdom a b E'. congruence. Qed.
Lemma set_solution f S : indep_set nv es S -> solution (relocal P4 f) (p_init (relocal P4 f)) 0 (total weight S).
Proof.
  intros HS. destruct (misp4_represents nv es weight Hn) as [_ R]. destruct (R S HS) as (ls & H & _).
  exists (total weight S). split; [exists ls; now apply (proj2 (rl_path P4 f _ _ _ _))|lia].
Qed.
(** when the queue ran empty, no node was dropped as already seen and computeCutSet skipped no arc to the sink that mattered, the result is a maximum *)
Lemma lag_optimal srt dfuel mxw lim fuel s m : nonneg nv weight -> (forall dd l, Permutation (srt dd l) l) -> nv < dfuel -> (N.of_nat mxw < 4294967296)%N ->
  searchM LB Ldd Lbb srt dfuel lim Lst fuel mxw None = Ok (s, m, Emptied) -> s_seen s = 0 -> hist_ok LB s ->
  forall S, indep_set nv es S -> (total weight S <= b_primal (s_b s))%Z.
Proof.
  intros W PS DF MW E Es HH S HS. pose proof (relocal_setting None srt dfuel mxw W PS DF MW (base_model W)) as SE.
  pose proof (searchM_optimal _ _ _ _ _ _ _ srt dfuel mxw SE lag_locals lim None (B0 _) Lst lag_start_ok fuel s m Emptied E eq_refl (no_dom LB I4 eq_refl) Es HH _ (set_solution None S HS)) as K.
  unfold be, val in K. cbn in K. lia.
Qed.
(** layers have at most 2^nv states *)
Lemma narrow4 f w : 2 ^ nv <= w -> narrow (relocal P4 f) (p_init (relocal P4 f)) w.
Proof.
  intros Hw. apply (proj2 (rl_narrow P4 f _ _)). intros k l ND H.
  assert (LV : forall ls s v t, path P4 s ls v t -> I4 s -> t <> p_target P4 -> live4 nv t /\ q_n t = q_n s + length ls).
  { intros ls s v t Hpt. induction Hpt as [s|s lb s' ls v t N L HS Hpt IH]; intros Is Nt; [destruct Is; [split; auto; cbn; lia|contradiction]|].
    assert (Is' : I4 s') by (eapply (cl_step _ _ (dec_closed _ _ _ _ _ _ _ _ (dec4 nv es weight Hn))); eauto). destruct (IH Is' Nt) as [A B]. split; auto.
    apply dinv_live in Is; auto. destruct (dec_step _ _ _ _ _ _ _ _ (dec4 nv es weight Hn) s lb s' Is L HS) as [_ [[-> _]|(_ & R & _)]].
    - apply path_target in Hpt as (_ & _ & ->). contradiction.
    - cbn [length]. rewrite B, R. lia. }
  assert (Hi : I4 (p_init P4)) by (left; apply (dc_init _ _ _ _ _ _ _ _ (dec4 nv es weight Hn))).
  assert (K : forall x, In x l -> live4 nv x /\ q_n x = k).
  { intros x Hx. destruct (H x Hx) as (Nt & ls & v & Hpt & Lk). destruct (LV ls _ v x Hpt Hi Nt) as [A B]. split; auto. cbn in B. lia. }
  assert (ND' : NoDup (map q_sel l)).
  { apply NoDup_map_on; auto. intros x y Hx Hy E. destruct (K x Hx) as [_ A1], (K y Hy) as [_ A2]. destruct x, y. cbn in *. congruence. }
  assert (IN : incl (map q_sel l) (TspProofs.masks nv)).
  { intros a Ha. apply in_map_iff in Ha as (x & <- & Hx). apply in_masks. intros u Hu. destruct (K x Hx) as [[_ B] _]. specialize (B u Hu). lia. }
  pose proof (NoDup_incl_length ND' IN) as Q. rewrite map_length, masks_length in Q. lia.
Qed.
Lemma lag_wide srt dfuel mxw lim fuel : nonneg nv weight -> (forall dd l, Permutation (srt dd l) l) -> nv < dfuel -> (N.of_nat mxw < 4294967296)%N ->
  2 ^ nv <= mxw -> lim 0 = false -> 1 <= fuel ->
  exists s m S, searchM LB Ldd Lbb srt dfuel lim Lst fuel mxw None = Ok (s, m, Emptied) /\ s_ttl s = 1 /\
    indep_set nv es S /\ b_primal (s_b s) = total weight S /\ picks (vx (b_inc (s_b s))) (b_inc (s_b s)) = S /\
    forall S', indep_set nv es S' -> (total weight S' <= total weight S)%Z.
Proof.
  intros W PS DF MW Hw L0 F. pose proof (relocal_setting None srt dfuel mxw W PS DF MW (base_model W)) as SE.
  destruct (searchM_narrow _ _ _ _ _ _ _ srt dfuel mxw SE lag_locals lim None (B0 _) Lst lag_start_ok fuel L0 (narrow4 None mxw Hw) F) as (s & m & E & T & O & G).
  assert (O' : forall S', indep_set nv es S' -> (total weight S' <= b_primal (s_b s))%Z).
  { intros S' HS. specialize (O _ (set_solution None S' HS)). unfold be, val in O. cbn in O. lia. }
  assert (NS : b_primal (s_b s) <> sentinel LB). { specialize (O' [] nil_indep). cbn in O'. unfold sentinel. cbn. lia. }
  specialize (G NS). apply (proj1 (rl_genuine P4 None _ _ _ _ _ _)) in G. destruct G as (ls & w & E1 & E2 & H). cbn in E1, E2.
  destruct (misp4_represents nv es weight Hn) as [D _]. destruct (D _ _ H) as (_ & _ & D3 & D4).
  exists s, m, (picks (vx ls) ls). rewrite E1. csplit; auto; [congruence|]. intros S' HS. rewrite <- D4, <- E2. auto.
Qed.
End End_.
