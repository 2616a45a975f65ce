(** Diagrams wide enough for every layer: the merge function is never called, so neither it nor the equality of merged states matters. *)
From Coq Require Import Sorted.
From Verif Require Import Base HeapModel HeapProofs DDModel DDSpec DDFrame DDInv DDLayer DDRestricted DDExpand DDRestricted2 DDMerge DDRelaxed DDPasses DDRelaxed2 DDRelaxedEnd DDWide SearchModel SearchProofs SearchDyn.

(** not in the code: the problem with a merge function that refuses every pair *)
Definition nomerge {St} (P : prob St) : prob St :=
  mkProb St (p_init P) (p_target P) (p_labels P) (p_stf P) (p_cost P) (fun _ _ => None) (p_eqs P) (p_local P) (p_sdom P) (p_min P) (p_eqb P).

Lemma path_nomerge {St} (P : prob St) s ls v t : path (nomerge P) s ls v t <-> path P s ls v t.
Proof.
  split; induction 1 as [|s l s' ls v t A B C H IH]; try constructor.
  - exact (path_cons P s l s' ls v t A B C IH).
  - exact (path_cons (nomerge P) s l s' ls v t A B C IH).
Qed.
Lemma narrow_nomerge {St} (P : prob St) s w : narrow (nomerge P) s w <-> narrow P s w.
Proof.
  split; intros H k l ND A; apply (H k l ND); intros x Hx; destruct (A x Hx) as (B & ls & v & C & D); (split; [exact B|]); exists ls, v; (split; [|auto]);
    now apply path_nomerge.
Qed.
Lemma solution_nomerge {St} (P : prob St) s v V : solution (nomerge P) s v V <-> solution P s v V.
Proof. split; intros (x & (ls & H) & ->); exists x; (split; [|auto]); exists ls; now apply path_nomerge. Qed.

Section Wide.
Context {St : Type} (P : prob St) (I : St -> Prop) (rank : St -> nat) (N : nat).
Notation P0 := (nomerge P).
Hypothesis VM : valid_model P0 I rank N.
Variables (rs : St) (rb : Z) (rl : list Z).
Hypothesis Hrs : rs <> p_target P.
Hypothesis HI : I rs.
Hypothesis Hrange : in_range P0 rs rb.
Variable srt : dd St -> list nat -> list nat.
Hypothesis Hsrt : forall d l, Permutation (srt d l) l.
Variable w : nat.
Hypothesis Hw : narrow P0 rs w.
Let HC := vm_closed _ _ _ _ VM.
Variable primal : Z.
Notation linv := (linv P0 I 0 1 rs rb rl rank primal true).

Lemma pull_wide (R : prob St) d q : length q <= w -> lq_pull R srt (mfuel_std d q) d w (q, []) = Ok (d, srt d q, ([], [])).
Proof.
  intros L. unfold lq_pull. pose proof (Permutation_length (Hsrt d q)) as PL. cbn [fst].
  assert (mergeLayer R (mfuel_std d q) d w (srt d q) [] = Ok (d, srt d q)) as ->; auto.
  unfold mfuel_std. rewrite Nat.add_succ_r. cbn [mergeLayer].
  destruct (srt d q) as [|a l] eqn:ES; auto. replace (_ <=? w) with true; auto. symmetry. apply Nat.leb_le. cbn [length] in *. lia.
Qed.
Lemma rx_layer_nomerge d q lk : rx_layer P0 d primal q lk = rx_layer P d primal q lk.
Proof. reflexivity. Qed.
Lemma rx_loop_nomerge : forall fuel d K q, linv d K nobody nobody q [] -> d_exact d = true ->
  rx_loop P srt fuel mfuel_std d primal w (q, []) = rx_loop P0 srt fuel mfuel_std d primal w (q, []).
Proof.
  induction fuel as [|fuel IH]; intros d K q H X; cbn [rx_loop fst snd]; rewrite app_nil_r; [reflexivity|].
  destruct q as [|n q]; [reflexivity|].
  pose proof (layer_narrow P0 I rank N VM rs rb rl HI srt Hsrt w Hw primal _ _ _ H X) as L. rewrite !pull_wide by auto. cbn [bind].
  assert (H1 : linv d K nobody nobody (srt d (n :: q)) []) by (eapply linv_perm; [| |exact H]; auto; symmetry; apply Hsrt).
  destruct (rx_layer_linv P0 I HC 0 1 rs rb rl Hrs Hrange rank (vm_layered _ _ _ _ VM) (vm_dom _ _ _ _ VM) (vm_domt _ _ _ _ VM) primal _ d K [] H1)
    as (d2 & next & E2 & H2 & _). rewrite <- rx_layer_nomerge, E2. cbn [bind].
  apply IH with (K := S K).
  - apply linv_shift; auto.
  - apply rx_layer_dex in E2. congruence.
Qed.
Lemma rx_nomerge fuel d : started d rs rb rl -> rx_compute P srt fuel d primal w = rx_compute P0 srt fuel d primal w.
Proof.
  intros S. pose proof (prep_ok P0 I d rs rb rl HC HI Hrs S) as PP.
  pose proof (prepped_linv P0 I HC rs rb rl Hrs HI rank primal true (prep P0 d) PP) as H0.
  assert (X0 : d_exact (prep P0 d) = true).
  { unfold prep, target. destruct (makeNode P0 (with_dexact d true) (p_target P0) true) as [d1 c] eqn:M. apply makeNode_dex in M. exact M. }
  unfold rx_compute. rewrite (sd_root _ _ _ _ S).
  change (target P (with_dexact d true)) with (target P0 (with_dexact d true)).
  change (with_node (target P0 (with_dexact d true)) 0 (nset_layer (d_nd (target P0 (with_dexact d true)) 0) 0)) with (prep P0 d).
  cbn [lq_enQueue]. unfold lq_enQueue. cbn [fst snd].
  erewrite rx_loop_nomerge; [reflexivity| |]; eauto.
Qed.
End Wide.

Section Search.
Context {St : Type} (P : prob St) (lab : Z -> St -> list Z) (I : St -> Prop) (rank : St -> nat) (N : nat).
Variable srt : dd St -> list nat -> list nat.
Variables dfuel mxw : nat.
Hypothesis SE : setting (nomerge P) I rank N srt dfuel mxw.
Variable user : option Z.
Notation p0 := (start_bound P user).
Hypothesis Hp0 : be P p0 (sentinel P).
Hypothesis DY : dyn_ok (nomerge P) lab p0 I rank N.
Variable lim : nat -> bool.

Lemma apply_nomerge w d from b : node_ok (nomerge P) from -> at_bound (nomerge P) p0 (b_primal b) -> narrow (nomerge P) (n_state from) w ->
  apply (cur P lab b) srt dfuel (SRelaxed w) d from b = apply (cur (nomerge P) lab b) srt dfuel (SRelaxed w) d from b.
Proof.
  intros Nf Ab Nw. destruct SE as [A1 A2 A3 A4 A5 A6 A7]. pose proof (node_ID _ _ _ _ A1 A3 _ Nf) as Is.
  unfold apply, compute.
  assert (E : rx_compute (cur P lab b) srt dfuel (initFrom (cur P lab b) d from) (b_primal b) w =
    rx_compute (cur (nomerge P) lab b) srt dfuel (initFrom (cur (nomerge P) lab b) d from) (b_primal b) w).
  { apply (rx_nomerge (cur P lab b) I rank N (dy_model _ _ _ _ _ _ DY _ Ab) (n_state from) (n_bound from) (n_lab from) (proj2 Nf) Is
      (q_range _ _ _ _ _ A1 A3 A4 _ DY _ Ab _ Nf) srt A5 w (q_narrow _ _ _ _ _ _ DY _ Ab _ _ Is Nw)). apply started_from. }
  rewrite E. reflexivity.
Qed.
Lemma bb_nodeD_nomerge s q : sinv (nomerge P) p0 s -> fst q < length (s_pool s) -> narrow (nomerge P) (n_state (pool_node P (s_pool s) (fst q))) (s_w s) ->
  bb_nodeD P lab srt dfuel mxw s q = bb_nodeD (nomerge P) lab srt dfuel mxw s q.
Proof.
  intros V Hq Nw. assert (Nf : node_ok (nomerge P) (pool_node P (s_pool s) (fst q))).
  { pose proof (i_pool _ _ _ V) as FP. rewrite Forall_forall in FP. apply FP. now apply pool_node_in. }
  destruct (i_log _ _ _ V) as [vs L]. pose proof (log_at _ _ _ _ L) as Ab.
  unfold bb_nodeD. cbn zeta. rewrite (apply_nomerge _ _ _ _ Nf Ab Nw). reflexivity.
Qed.
Lemma searchD_unmerged fuel : lim 0 = false -> narrow (nomerge P) (p_init P) mxw -> (forall V, solution P (p_init P) 0 V -> be P (initialWorst P) V) -> 1 <= fuel ->
  exists s, searchD P lab srt dfuel lim fuel mxw user = Ok (s, Emptied) /\ searchD (nomerge P) lab srt dfuel lim fuel mxw user = Ok (s, Emptied).
Proof.
  intros L0 Nw HL F. 
  destruct (searchD_narrow (nomerge P) lab I rank N srt dfuel mxw SE lim user DY Hp0 fuel L0 Nw) as (s & E & T & _); auto.
  { intros V SV. apply HL. now apply solution_nomerge. }
  exists s. split; [|exact E]. transitivity (searchD (nomerge P) lab srt dfuel lim fuel mxw user); [|exact E]. clear s E T. destruct fuel as [|f]; [lia|]. pose proof SE as [A1 A2 A3 A4 A5 A6 A7]. pose proof Hp0 as HQ. pose proof DY as DD.
  assert (Ep : p0 = b_primal (attach (nomerge P) user)) by (unfold start_bound, attach; destruct user; reflexivity).
  pose proof (start_inv (nomerge P) N A2 dfuel A6 lim mxw A7 user) as V. rewrite <- Ep in V.
  assert (K : keys_ok (nomerge P) (bb_start (nomerge P) mxw user)).
  { apply (start_keys (nomerge P) I rank N A1 A3 mxw user). intros V0 SV. apply HL. now apply solution_nomerge. }
  destruct (start_entries (nomerge P) mxw user) as (key & E & _ & Hh).
  destruct (start_root (nomerge P) mxw user) as [R1 R2]. destruct (start_proj (nomerge P) mxw user) as (_ & _ & _ & Et & _ & _ & Ew).
  unfold searchD. change (bb_start P mxw user) with (bb_start (nomerge P) mxw user). set (s0 := bb_start (nomerge P) mxw user) in *. clearbody s0. cbn [bb_loopD].
  destruct (heap_empty (s_pq s0)) eqn:H0; [reflexivity|]. change (q_ord P) with (q_ord (nomerge P)).
  destruct (heap_extractMax (q_ord (nomerge P)) (s_pq s0)) as [[q h]|] eqn:EX; [|reflexivity]. rewrite L0.
  destruct (popped_ok (nomerge P) _ s0 q h V EX) as (V1 & Pm & Hq & K1 & _). destruct (K1 K) as [_ Kq].
  rewrite E in Pm. apply Permutation_length_1_inv in Pm. injection Pm as -> Eh.
  assert (Nw1 : narrow (nomerge P) (n_state (pool_node (nomerge P) (s_pool (popped s0 (0, key) h)) (fst (0, key)))) (s_w (popped s0 (0, key) h))).
  { cbn [popped s_pool s_w fst]. rewrite R1, Ew. exact Nw. }
  rewrite (bb_nodeD_nomerge _ _ V1 Hq Nw1).
  destruct (bb_nodeD_wide (nomerge P) lab I rank N A1 A3 A4 srt A5 dfuel A6 mxw A7 _ DD HQ (popped s0 (0, key) h) (0, key) V1 Hq Kq Nw1) as (s1 & E1 & B1 & _ & _).
  rewrite E1. cbn [bind].
  assert (H1 : heap_empty (s_pq s1) = true).
  { rewrite B1. cbn [popped s_pq]. apply (proj2 (empty_elems h (proj1 (i_heap _ _ _ V1)))). apply (map_eq_nil snd). exact Eh. }
  destruct f; cbn [bb_loopD]; now rewrite H1.
Qed.
End Search.
