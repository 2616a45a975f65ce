(** Whole compilations and whole searches with an addition that is exact on values up to M (C81). *)
From Verif Require Import Base HeapModel HeapProofs DDModel DDSpec DDFrame DDInv DDLayer DDRestricted DDExpand DDMerge DDRelaxed DDRestricted2 DDTopo DDPasses DDRelaxed2 DDRelaxedEnd DDWide SearchModel SearchProofs RoundModel RoundProofs.

Lemma rs_labelsF_w {St} fadd (P : prob St) w w' : (forall nb, rs_full nb w = rs_full nb w') ->
  forall ls d primal q p, rs_labelsF fadd P d primal w q p ls = rs_labelsF fadd P d primal w' q p ls.
Proof.
  intros E. induction ls as [|l r IH]; intros; cbn [rs_labelsF]; auto. destruct (step_arcF fadd P d primal q p l) as [[d1 [c|]]|]; cbn [bind]; auto.
  rewrite E. destruct (rs_full _ w'); auto.
Qed.
Lemma rs_layerF_w {St} fadd (P : prob St) w w' : (forall nb, rs_full nb w = rs_full nb w') ->
  forall lk d primal q, rs_layerF fadd P d primal w q lk = rs_layerF fadd P d primal w' q lk.
Proof.
  intros E. induction lk as [|p r IH]; intros; cbn [rs_layerF]; auto. rewrite (rs_labelsF_w fadd P w w' E).
  destruct (rs_labelsF fadd P d primal w' q p _) as [[[d1 q1] j]|]; cbn [bind]; auto. destruct j; auto.
Qed.
Lemma rs_loopF_w {St} fadd (P : prob St) w w' : (forall nb, rs_full nb w = rs_full nb w') ->
  forall fuel d primal q, rs_loopF fadd P fuel d primal w q = rs_loopF fadd P fuel d primal w' q.
Proof.
  intros E. induction fuel as [|f IH]; intros d primal [|n q]; cbn [rs_loopF]; auto. destruct (rs_pull P d n q) as [lk q1].
  rewrite (rs_layerF_w fadd P w w' E). destruct (rs_layerF fadd P d primal w' q1 lk) as [[d1 q2]|]; cbn [bind]; auto.
Qed.

(** the sizes of the values of a model: costs up to C, local bounds up to A, depth N *)
Record sized {St} (P : prob St) (I : St -> Prop) (N : nat) (A C M : Z) : Prop := {
  z_A : (2147483647 <= A)%Z;
  z_C : (0 <= C)%Z;
  z_cost : forall s l, I s -> s <> p_target P -> In l (p_labels P s) -> (Z.abs (p_cost P s l) <= C)%Z;
  z_local : forall loc s x, p_local P = Some loc -> I s -> (Z.abs (loc s x) <= A)%Z;
  z_M : (2 * A + C * (2 * Z.of_nat N + 4) <= M)%Z }.
(** an addition without error up to M *)
Definition exact_upto (M : Z) (fadd : Z -> Z -> Z) : Prop :=
  forall a b, (Z.abs a <= M -> Z.abs b <= M -> Z.abs (a + b) <= M -> fadd a b = a + b)%Z.

Section Whole.
Context {St : Type} (P : prob St) (I : St -> Prop) (rank : St -> nat) (N : nat) (A C M : Z) (fadd : Z -> Z -> Z).
Hypothesis VM : valid_model P I rank N.
Hypothesis SZ : sized P I N A C M.
Hypothesis HF : exact_upto M fadd.
Notation dd := (dd St).

Section One.
Variables (rs : St) (rb : Z) (rl : list Z).
Hypothesis Hrs : rs <> p_target P.
Hypothesis HI : I rs.
Hypothesis Hrange : in_range P rs rb.
Hypothesis Hrb : (Z.abs rb <= C * Z.of_nat (rank rs))%Z.

Lemma VB_prep d : started d rs rb rl -> VB rs rank A C (prep P d).
Proof.
  intros S. destruct VM as [V1 V2 V3 V4 V5 V6 V7 V8]. destruct SZ as [Z1 Z2 Z3 Z4 Z5]. pose proof (prep_ok P I d rs rb rl V1 HI Hrs S) as PP.
  intros i Hi. rewrite (pp_nn _ _ _ _ _ PP) in Hi. assert (i = 0 \/ i = 1) as [->| ->] by lia.
  - rewrite (pp_bd _ _ _ _ _ PP), (pp_lay _ _ _ _ _ PP), Nat.add_0_r. lia.
  - rewrite (pp_bd1 _ _ _ _ _ PP), (pp_lay1 _ _ _ _ _ PP), Nat.add_0_r. assert (Z.abs (sentinel P) <= A)%Z by (unfold sentinel; destruct (p_min P); lia).
    assert (0 <= C * Z.of_nat (rank rs))%Z by (apply Z.mul_nonneg_nonneg; lia). lia.
Qed.

Lemma rs_computeF_eq fuel d primal w : started d rs rb rl -> (N.of_nat w < 4294967296)%N -> N + 1 < fuel + rank rs ->
  rs_computeF fadd P fuel d primal w = rs_compute P fuel d primal w.
Proof.
  intros S W F. pose proof (VB_prep d S) as VP. destruct VM as [V1 V2 V3 V4 V5 V6 V7 V8]. destruct SZ as [Z1 Z2 Z3 Z4 Z5].
  pose proof (prep_ok P I d rs rb rl V1 HI Hrs S) as PP.
  pose proof (prepped_linv P I V1 rs rb rl Hrs HI rank primal false (prep P d) PP) as H0.
  unfold rs_computeF, rs_compute. rewrite (sd_root _ _ _ _ S).
  change (with_node (target P (with_dexact d true)) 0 (nset_layer (d_nd (target P (with_dexact d true)) 0) 0)) with (prep P d).
  assert (X : exists w', (forall nb, rs_full nb w = rs_full nb w') /\ 1 <= w' /\ (N.of_nat w' <= 4294967296)%N).
  { destruct (Nat.eq_dec w 0) as [->|Nw]; [exists (N.to_nat 4294967296)|exists w; csplit; auto; lia].
    csplit; [|lia|lia]. apply rs_full_eq. rewrite Nnat.N2Nat.id. reflexivity. }
  destruct X as (w' & Ew & W1 & W2). rewrite (rs_loopF_w fadd P w w' Ew), (rs_loop_w P w w' Ew).
  destruct (rs_loop_linv P I V1 0 1 rs rb rl Hrs Hrange rank V2 V6 V7 primal fuel (prep P d) 0 w' [0] N H0 W1 W2) as (d2 & K & E & H & _); auto.
  { eapply prepped_width; eauto. }
  { lia. }
  destruct (rs_loopF_eq fadd M HF P I V1 0 1 rs rb rl Hrs Hrange rank V2 V6 V7 primal N V3 A C Z1 Z2 Z3 Z4 Z5 fuel (prep P d) 0 w' [0] H0 W1 W2 VP) as [EF V].
  rewrite EF, E. cbn [bind]. specialize (V _ E). pose proof (g_base (l_gen H)) as B. rewrite (b_trg B). f_equal.
  apply (tightenF_eq fadd M HF P I 0 1 rs rb rl Hrs rank primal N V3 A C Z1 Z2 Z3 Z4 Z5 (fun _ l => l) (fun _ l => Permutation_refl l) false d2 K 1 H (proj1 (b_t B)) V).
Qed.

Lemma linv_wfg_N primal mode d K : linv P I 0 1 rs rb rl rank primal mode d K nobody nobody [] [] -> wfg d (fun i => if i =? 1 then N + 2 else lay d i).
Proof.
  intros H. destruct (linv_wfg P I rs rb rl rank primal mode d K H) as [W1 W2 W3 W4 W5 W6 W7]. constructor; auto.
  pose proof (l_gen H) as G. pose proof (g_base G) as B. intros e He. destruct (b_ends B e He) as [E1 E2]. destruct (g_edge G e He) as (L & S & _).
  rewrite (st_target B E1) in S. pose proof (depth_node P I 0 1 rs rb rl rank primal N (vm_depth P I rank N VM) _ _ _ _ _ _ _ _ H E1 L S). 
  destruct (Nat.eqb_spec (from d e) 1); [congruence|].
  destruct (Nat.eqb_spec (to d e) 1) as [E|E]; [lia|]. rewrite (l_lbl H e He E). lia.
Qed.

Variable srt : dd -> list nat -> list nat.
Hypothesis Hsrt : forall d l, Permutation (srt d l) l.
Lemma rx_computeF_eq fuel d primal w : started d rs rb rl -> N + 1 < fuel + rank rs ->
  rx_computeF fadd P srt fuel d primal w = rx_compute P srt fuel d primal w /\
  (forall d', rx_compute P srt fuel d primal w = Ok d' -> forall i, In i (d_an d') -> (Z.abs (bb d' i) <= A + C * Z.of_nat (N + 2))%Z).
Proof.
  intros S F. pose proof (VB_prep d S) as VP. pose proof VM as [V1 V2 V3 V4 V5 V6 V7 V8]. destruct SZ as [Z1 Z2 Z3 Z4 Z5].
  pose proof (prep_ok P I d rs rb rl V1 HI Hrs S) as PP.
  pose proof (prepped_linv P I V1 rs rb rl Hrs HI rank primal true (prep P d) PP) as H0.
  unfold rx_computeF, rx_compute. rewrite (sd_root _ _ _ _ S).
  change (with_node (target P (with_dexact d true)) 0 (nset_layer (d_nd (target P (with_dexact d true)) 0) 0)) with (prep P d). cbn [lq_enQueue].
  assert (Fr : fresh 0 1 (prep P d) 0 [0]) by (eapply linv_fresh; eauto).
  destruct (rx_loop_linv P I V1 0 1 rs rb rl Hrs Hrange rank V2 V6 V7 V4 V5 primal srt Hsrt fuel (prep P d) 0 w [0] N H0 Fr) as (d2 & K & E & H & _); auto.
  { lia. }
  destruct (rx_loopF_eq fadd M HF P I V1 0 1 rs rb rl Hrs Hrange rank V2 V6 V7 V4 V5 primal N V3 A C Z1 Z2 Z3 Z4 Z5 srt Hsrt fuel (prep P d) 0 w [0] H0 Fr (fun _ => eq_refl) VP) as [EF V].
  rewrite EF, E. cbn [bind]. specialize (V _ E). pose proof (l_gen H) as G. pose proof (g_base G) as B. rewrite (b_trg B).
  rewrite (tightenF_eq fadd M HF P I 0 1 rs rb rl Hrs rank primal N V3 A C Z1 Z2 Z3 Z4 Z5 srt Hsrt true d2 K 1 H (proj1 (b_t B)) V).
  pose proof (tighten_spec P d2 1 (b_trg B)) as T.
  destruct (bback_eq fadd M HF P A C Z1 Z2 (N + 2) ltac:(assert (0 <= C * Z.of_nat N)%Z by (apply Z.mul_nonneg_nonneg; lia); lia) (tighten P d2 1) _ (tightened_wfg P _ _ _ _ T (linv_wfg_N _ _ _ _ H))) as [EB BB].
  - intros i Hi. rewrite (tg_an _ _ _ _ T) in Hi. apply (l_an H) in Hi as (Hi & L). destruct (Nat.eqb_spec i 1) as [|Ni]; [lia|].
    destruct L as [L|[L|[]]]; [|congruence]. pose proof (depth_node P I 0 1 rs rb rl rank primal N V3 _ _ _ _ _ _ _ _ H Hi L Ni). lia.
  - intros e He. rewrite (tg_ne _ _ _ _ T) in He. rewrite (tg_ed _ _ _ _ T). destruct (b_ends B e He) as [Hf _].
    destruct (g_edge G e He) as (L & St0 & Hl & ->). apply Z3; auto. now apply (b_I B).
  - split; auto. intros d' Ed i Hi. apply (BB d' Ed). 
    destruct (bback_ok P (tighten P d2 1) _ (tightened_wfg P _ _ _ _ T (linv_wfg_N _ _ _ _ H))) as (d'' & E'' & BO & _).
    rewrite Ed in E''. injection E'' as <-. now rewrite (bo_an _ _ BO) in Hi.
Qed.
End One.

(** a genuine node carries the cost of a path, hence at most C per layer *)
Lemma path_size : forall s ls v s', path P s ls v s' -> I s -> s' <> p_target P -> I s' /\ rank s' = rank s + length ls /\ (Z.abs v <= C * Z.of_nat (length ls))%Z.
Proof.
  destruct VM as [V1 V2 V3 V4 V5 V6 V7 V8]. destruct SZ as [Z1 Z2 Z3 Z4 Z5].
  induction 1 as [s|s l s' ls v t Nt Hl Sf Pt IH]; intros Is N'; cbn [length]; [csplit; auto; lia|].
  assert (Is' : I s') by (eapply (cl_step P I V1); eauto). destruct (IH Is' N') as (Q1 & Q2 & Q3).
  assert (N0 : s' <> p_target P). { inversion Pt; subst; auto. }
  pose proof (V2 _ _ _ Is Nt Hl Sf N0). pose proof (Z3 _ _ Is Nt Hl). csplit; auto; [lia|].
  replace (Z.of_nat (S (length ls))) with (Z.of_nat (length ls) + 1)%Z by lia. lia.
Qed.
Lemma node_size n : I (p_init P) -> node_ok P n -> I (n_state n) /\ (Z.abs (n_bound n) <= C * Z.of_nat (rank (n_state n)))%Z /\ rank (n_state n) <= N.
Proof.
  intros HI [(ls & v & _ & Eb & Pt) Nt]. destruct (path_size _ _ _ _ Pt HI Nt) as (Q1 & Q2 & Q3). csplit; auto.
  - rewrite Eb, Q2. pose proof (z_C _ _ _ _ _ _ SZ). assert (C * Z.of_nat (length ls) <= C * Z.of_nat (rank (p_init P) + length ls))%Z by (apply Z.mul_le_mono_nonneg_l; lia). lia.
  - apply (vm_depth P I rank N VM); auto.
Qed.

Section Search.
Variable srt : dd -> list nat -> list nat.
Variable dfuel mxw : nat.
Hypothesis SE : setting P I rank N srt dfuel mxw.
Variable p0 : Z.
Hypothesis Hp0 : be P p0 (sentinel P).

Lemma applyF_eq s d from b : node_ok P from -> (match s with SExact => False | SRestricted w => w = mxw | SRelaxed _ => True end) ->
  applyF fadd P srt dfuel s d from b = apply P srt dfuel s d from b.
Proof.
  destruct SE as [M1 M2 M3 M4 M5 M6 M7]. intros Nk Hs. destruct (node_size from M3 Nk) as (Q1 & Q2 & Q3). pose proof (started_from P d from) as S0.
  pose proof (node_range P M4 from Nk) as Rg. destruct Nk as [G Nt].
  unfold applyF, apply. destruct s as [|w|w]; [destruct Hs|subst w|]; cbn [computeF compute].
  - rewrite (rs_computeF_eq _ _ _ Nt Q1 Rg Q2 dfuel _ (b_primal b) mxw S0 M7); [reflexivity|lia].
  - destruct (rx_computeF_eq _ _ _ Nt Q1 Rg Q2 srt M5 dfuel _ (b_primal b) w S0) as [-> _]; [lia|reflexivity].
Qed.

Lemma cut_stepF_eq d s i : node_ok P (d_nd d i) -> (Z.abs (bb d i) <= A + C * Z.of_nat (N + 2))%Z -> cut_stepF fadd P d s i = cut_step P d s i.
Proof.
  intros Nk Hb. destruct (node_size _ (se_I _ _ _ _ _ _ _ SE) Nk) as (Q1 & Q2 & Q3). destruct SZ as [Z1 Z2 Z3 Z4 Z5].
  assert (B1 : (Z.abs (bd d i) <= C * Z.of_nat N)%Z).
  { assert (C * Z.of_nat (rank (st d i)) <= C * Z.of_nat N)%Z by (apply Z.mul_le_mono_nonneg_l; lia). lia. }
  assert (0 <= C * Z.of_nat N)%Z by (apply Z.mul_nonneg_nonneg; lia).
  replace (C * Z.of_nat (N + 2))%Z with (C * Z.of_nat N + 2 * C)%Z in Hb by lia.
  unfold cut_stepF, cut_step. cbn zeta. rewrite (HF (bd d i) (bb d i)) by lia.
  destruct (negb (isBetter P (bd d i + bb d i) (b_primal (s_b s)))); auto.
  destruct (dom_phase P (s_pool s) (s_pq s) (d_nd d i)) as [[[h k] dm]|]; cbn [bind]; auto. destruct dm; auto.
  destruct (cloneNode P (s_pool s) (d_nd d i)) as [pool|]; auto.
  assert (E : fadd (bd d i) (match p_local P with Some local => local (st d i) false | None => bb d i end) = (bd d i + match p_local P with Some local => local (st d i) false | None => bb d i end)%Z).
  { apply HF; [lia|..]; destruct (p_local P) as [loc|] eqn:L; try pose proof (Z4 loc (st d i) false eq_refl Q1); lia. }
  rewrite !E. reflexivity.
Qed.
Lemma cut_loopF_eq d : forall cs s, (forall i, In i cs -> node_ok P (d_nd d i)) -> (forall i, In i cs -> (Z.abs (bb d i) <= A + C * Z.of_nat (N + 2))%Z) ->
  cut_loopF fadd P d s cs = cut_loop P d s cs.
Proof.
  induction cs as [|i cs IH]; intros s H1 H2; cbn [cut_loop cut_loopF]; auto. rewrite cut_stepF_eq; [|apply H1; now left|apply H2; now left].
  destruct (cut_step P d s i); cbn [bind]; auto. apply IH; intros j Hj; [apply H1|apply H2]; now right.
Qed.

Lemma bb_nodeF_eq s q : sinv P p0 s -> fst q < length (s_pool s) -> bb_nodeF fadd P srt dfuel mxw s q = bb_node P srt dfuel mxw s q.
Proof.
  intros V Hq. unfold bb_nodeF, bb_node. cbn zeta. set (from := pool_node P (s_pool s) (fst q)).
  assert (Nf : node_ok P from). { pose proof (i_pool _ _ _ V) as FP. rewrite Forall_forall in FP. apply FP. now apply pool_node_in. }
  destruct (i_log _ _ _ V) as [vs L]. pose proof SE as [M1 M2 M3 M4 M5 M6 M7].
  destruct (negb (isBetter P (snd q) (b_primal (s_b s)))); auto.
  rewrite applyF_eq by auto.
  destruct (apply_relaxed P I rank N VM M3 M4 srt M5 dfuel M6 mxw M7 p0 Hp0 (s_w s) (s_relaxed s) from (s_b s) vs Nf L) as (d1 & b1 & db & vs1 & E1 & L1 & P1 & RX & DBF & DX & DI).
  rewrite E1. cbn [bind]. destruct db; auto. rewrite applyF_eq by auto.
  destruct (apply_restricted P I rank N VM M3 M4 srt M5 dfuel M6 mxw M7 p0 Hp0 (s_restr s) from b1 vs1 Nf L1) as (d2 & b2 & pb & vs2 & E2 & L2 & P2 & RE). rewrite E2. cbn [bind].
  destruct (negb (d_exact d2) && negb (d_exact d1)) eqn:X; auto.
  destruct (node_size from M3 Nf) as (Q1 & Q2 & Q3). pose proof (node_range P M4 from Nf) as Rg. pose proof Nf as [G Nt].
  pose proof (started_from P (s_relaxed s) from) as S0. assert (F : N + 1 < dfuel + rank (n_state from)) by lia.
  destruct (relaxed_cutset P I rank N VM _ _ _ Nt Q1 Rg srt M5 dfuel _ (b_primal (s_b s)) (s_w s) d1 S0 F RX) as (cs & Ec & ND & CN & CC).
  rewrite Ec. cbn [bind]. destruct (rx_computeF_eq _ _ _ Nt Q1 Rg Q2 srt M5 dfuel _ (b_primal (s_b s)) (s_w s) S0 F) as [_ BB].
  apply cut_loopF_eq.
  - intros i Hi. destruct (CN i Hi) as (_ & B1 & _ & B2). split; auto. eapply genuine_trans; eauto.
  - intros i Hi. apply (BB d1 RX). apply (CN i Hi).
Qed.
Variable lim : nat -> bool.
Lemma bb_loopF_eq : forall fuel k s, sinv P p0 s -> bb_loopF fadd P srt dfuel lim fuel mxw k s = bb_loop P srt dfuel lim fuel mxw k s.
Proof.
  pose proof SE as [M1 M2 M3 M4 M5 M6 M7].
  induction fuel as [|f IH]; intros k s V; cbn [bb_loopF bb_loop]; destruct (heap_empty (s_pq s)) eqn:H0; auto.
  destruct (heap_extractMax (q_ord P) (s_pq s)) as [[q h]|] eqn:EX; auto. destruct (lim k); auto.
  destruct (popped_ok P p0 s q h V EX) as (V1 & _ & Hq & _).
  rewrite (bb_nodeF_eq (popped s q h) q V1 Hq).
  destruct (bb_node_ok P I rank N VM M3 M4 srt M5 dfuel M6 mxw M7 p0 Hp0 (popped s q h) q V1 Hq) as (s1 & E1 & V2 & _).
  rewrite E1. cbn [bind]. now apply IH.
Qed.
End Search.
End Whole.

(** the whole search *)
Lemma searchF_eq {St} (P : prob St) I rank N A C M fadd srt dfuel lim fuel mxw user : setting P I rank N srt dfuel mxw -> sized P I N A C M -> exact_upto M fadd ->
  be P (b_primal (attach P user)) (sentinel P) -> searchF fadd P srt dfuel lim fuel mxw user = search P srt dfuel lim fuel mxw user.
Proof.
  intros SE SZ HF Hp. pose proof SE as [M1 M2 M3 M4 M5 M6 M7]. unfold searchF, search. eapply bb_loopF_eq; eauto.
  eapply start_inv; eauto.
Qed.

(** rounding to 53 bits leaves values up to 2^53 unchanged *)
Lemma round53_small z : (Z.abs z <= 2 ^ 53)%Z -> round53 z = z.
Proof.
  intros H. unfold round53. cbn zeta. destruct (Z.leb_spec (Z.log2 (Z.abs z) - 52) 0) as [|L]; auto.
  assert (L2 : (53 <= Z.log2 (Z.abs z))%Z) by lia. assert (P0 : (0 < Z.abs z)%Z). { destruct (Z.eq_dec (Z.abs z) 0) as [E|]; [rewrite E in L2; cbn in L2; lia|lia]. }
  pose proof (proj1 (Z.log2_le_pow2 (Z.abs z) 53 P0)) as Q. assert (Z.abs z = 2 ^ 53)%Z by (specialize (Z.log2_spec (Z.abs z) P0); pose proof (Z.pow_le_mono_r 2 53 _ ltac:(lia) L2); lia).
  rewrite H0. destruct (Z.abs_spec z) as [[_ E]|[_ E]]; rewrite E in H0; [subst z|replace z with (- 2 ^ 53)%Z by lia]; vm_compute; reflexivity.
Qed.
Lemma dbl_exact : exact_upto (2 ^ 53) dbl_add.
Proof. intros a b _ _ H. apply round53_small, H. Qed.
