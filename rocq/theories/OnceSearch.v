(** Branch and bound in a single node: when every layer fits the width, the root's relaxed diagram is exact, so the search ends after one node with a value at least as good
    as every solution of the labels at the starting bound.  Unlike [searchD_narrow] (SearchDyn.v) nothing is assumed about the labels at better bounds except that they
    are labels of the base problem. *)
From Verif Require Import Base HeapModel HeapProofs DDModel DDSpec DDFrame DDInv DDRestricted DDRestricted2 DDRelaxedEnd DDWide DDPasses SearchModel SearchProofs SearchDyn NoMerge SoftSearch.

Section Once.
Context {St : Type} (P : prob St) (lab : Z -> St -> list Z) (I : St -> Prop) (rank : St -> nat) (N : nat).
Variable srt : dd St -> list nat -> list nat.
Variables dfuel mxw : nat.
Notation P0 := (nomerge P).
Hypothesis SE : setting P0 I rank N srt dfuel mxw.
Variable user : option Z.
Notation p0 := (start_bound P user).
Hypothesis Hp0 : be P p0 (sentinel P).
Hypothesis DY : dyn_sub P0 lab p0 I rank N.
Variable lim : nat -> bool.
Notation Q b := (relabel P0 (lab b)).

Lemma ds_narrow b (Ab : at_bound P0 p0 b) s w : I s -> narrow P0 s w -> narrow (Q b) s w.
Proof.
  intros Is Nw k l ND H. apply (Nw k l ND). intros x Hx. destruct (H x Hx) as (Nt & ls & v & Hp & Hl). split; auto. exists ls, v. split; auto.
  exact (ds_path P0 lab I rank N p0 DY b Ab _ _ _ _ Hp Is).
Qed.
Lemma apply_once w d from b vs : node_ok P0 from -> log_of P0 p0 b vs -> narrow P0 (n_state from) w ->
  exists d1 b1 db vs1, apply (cur P lab b) srt dfuel (SRelaxed w) d from b = Ok (d1, b1, db) /\ log_of P0 p0 b1 vs1 /\ d_exact d1 = true /\
    forall V, solution (Q (b_primal b)) (n_state from) (n_bound from) V -> be P (b_primal b1) V.
Proof.
  intros Nk L Nw. pose proof SE as [A1 A2 A3 A4 A5 A6 A7]. pose proof (log_at _ _ _ _ L) as Ab. assert (Is : I (n_state from)) by exact (node_ID P0 I rank N A1 A3 from Nk).
  pose proof (ds_range P0 lab I rank N A1 A3 A4 p0 DY (b_primal b) Ab _ Nk) as Rg. pose proof Nk as [G Nt].
  pose proof (ds_model _ _ _ _ _ _ DY (b_primal b) Ab) as VQ.
  pose proof (ds_narrow (b_primal b) Ab _ w Is Nw) as Nq.
  assert (EX : rx_compute (cur P lab b) srt dfuel (initFrom (cur P lab b) d from) (b_primal b) w =
    rx_compute (cur P0 lab b) srt dfuel (initFrom (cur P0 lab b) d from) (b_primal b) w).
  { apply (rx_nomerge (cur P lab b) I rank N VQ (n_state from) (n_bound from) (n_lab from) Nt Is Rg srt A5 w Nq). apply started_from. }
  fold (cur P0 lab b) in *. set (R := cur P0 lab b) in *.
  pose proof (started_from R d from) as S0. assert (F : N + 1 < dfuel + rank (n_state from)) by lia.
  unfold apply. cbn [compute]. rewrite EX.
  destruct (relaxed_terminates R I rank N VQ _ _ _ Nt Is Rg srt A5 dfuel _ (b_primal b) w S0 F) as [d1 E]. rewrite E. cbn [bind].
  assert (X : d_exact d1 = true).
  { apply (relaxed_wide R I rank N VQ (n_state from) (n_bound from) (n_lab from) Nt Is Rg srt A5 w Nq (b_primal b) dfuel (initFrom R d from)); auto. }
  destruct (relaxed_dual_bound R I rank N VQ _ _ _ Nt Is Rg srt A5 dfuel _ (b_primal b) w d1 S0 F E) as (t & Et & _ & DB). rewrite Et. cbn [bind].
  assert (DB' : forall V, solution R (n_state from) (n_bound from) V -> bt P V (b_primal b) -> be P (n_bound t) V) by exact DB.
  change (isBetter (cur P lab b)) with (isBetter P). change (better (cur P lab b)) with (better P).
  destruct (isBetter P (n_bound t) (b_primal b)) eqn:C.
  - apply isBetter_bt in C. unfold update. rewrite Et. cbn [bind st_primal st_dual orb andb]. change (better (cur P lab b)) with (better P). rewrite X. cbn [bind].
    destruct (relaxed_exact R I rank N VQ _ _ _ Nt Is Rg srt A5 dfuel _ (b_primal b) w d1 S0 F E X) as (t' & Et' & Gt & _).
    rewrite Et in Et'. injection Et' as <-.
    assert (Gt' : genuine P0 (p_init P0) 0 [] (p_target P0) (n_bound t) (n_lab t)).
    { eapply genuine_trans; [exact G|]. apply (ds_genuine P0 lab I rank N p0 DY (b_primal b)); auto. apply Gt. pose proof (log_primal P0 _ _ _ L) as Q0.
      change (be P (b_primal b) p0) in Q0. change (bt P (n_bound t) (sentinel P)). vlia. }
    pose proof (log_push P0 _ _ _ _ _ L Gt' C) as L1. do 4 eexists. split; [reflexivity|]. split; [exact L1|]. split; auto.
    assert (Ep : better P (n_bound t) (b_primal b) = n_bound t) by (unfold better; apply isBetter_bt in C; now rewrite C).
    cbn. change (better P0) with (better P). rewrite Ep. intros V HV. destruct (isBetter P V (b_primal b)) eqn:CV; [apply isBetter_bt in CV; auto|apply isBetter_nbt in CV; vlia].
  - apply isBetter_nbt in C. cbn [bind]. do 4 eexists. split; [reflexivity|]. split; [exact L|]. split; auto.
    intros V HV. destruct (isBetter P V (b_primal b)) eqn:CV; [apply isBetter_bt in CV; specialize (DB' V HV CV); vlia|apply isBetter_nbt in CV; vlia].
Qed.
Lemma bb_nodeD_once s q : sinv P0 p0 s -> fst q < length (s_pool s) -> key_ok P0 (s_pool s) (b_primal (s_b s)) q -> narrow P0 (n_state (pool_node P (s_pool s) (fst q))) (s_w s) ->
  exists s', bb_nodeD P lab srt dfuel mxw s q = Ok s' /\ s_pq s' = s_pq s /\ s_ttl s' = S (s_ttl s) /\ sinv P0 p0 s' /\
    forall V, solution (Q (b_primal (s_b s))) (n_state (pool_node P (s_pool s) (fst q))) (n_bound (pool_node P (s_pool s) (fst q))) V -> be P (b_primal (s_b s')) V.
Proof.
  intros V Hq K Nw. pose proof SE as [A1 A2 A3 A4 A5 A6 A7]. unfold bb_nodeD. cbn zeta. set (from := pool_node P (s_pool s) (fst q)) in *.
  assert (Nf : node_ok P0 from). { pose proof (i_pool _ _ _ V) as FP. rewrite Forall_forall in FP. apply FP. now apply pool_node_in. }
  assert (Is : I (n_state from)) by exact (node_ID P0 I rank N A1 A3 from Nf).
  destruct (i_log _ _ _ V) as [vs L]. pose proof (log_at _ _ _ _ L) as Ab.
  destruct (isBetter P (snd q) (b_primal (s_b s))) eqn:C; cbn [negb].
  2:{ apply isBetter_nbt in C. eexists. split; [reflexivity|]. csplit; auto; [apply sinv_run; eauto|]. intros V0 (v & Cv & ->). cbn.
      destruct (isBetter P (n_bound from + v) (b_primal (s_b s))) eqn:C2; [|apply isBetter_nbt in C2; vlia].
      apply isBetter_bt in C2. assert (Cv' : compl P0 (n_state from) v). { destruct Cv as (ls & Cv). exists ls. exact (ds_path P0 lab I rank N p0 DY _ Ab _ _ _ _ Cv Is). }
      assert (K' : be P (snd q) (n_bound from + v)) by exact (K v Cv' C2). vlia. }
  destruct (apply_once (s_w s) (s_relaxed s) from (s_b s) vs Nf L Nw) as (d1 & b1 & db & vs1 & E1 & L1 & X & B). rewrite E1. cbn [bind].
  destruct db.
  2:{ eexists. split; [reflexivity|]. csplit; auto. apply sinv_run; eauto. }
  destruct (apply_restrictedS P0 lab I rank N A1 A3 A4 srt dfuel A6 mxw A7 p0 DY Hp0 (s_restr s) from b1 vs1 Nf L1) as (d2 & b2 & pb & vs2 & E2 & L2 & P2).
  change (apply (cur P0 lab b1) srt dfuel (SRestricted mxw) (s_restr s) from b1) with (apply (cur P lab b1) srt dfuel (SRestricted mxw) (s_restr s) from b1) in E2.
  rewrite E2. cbn [bind]. rewrite X, andb_false_r. eexists. split; [reflexivity|]. csplit; auto; [apply sinv_run; eauto|]. intros V0 HV. pose proof (B V0 HV). cbn.
  change (be P (b_primal b2) (b_primal b1)) in P2. vlia.
Qed.
Lemma searchD_once fuel : lim 0 = false -> narrow P0 (p_init P) mxw -> (forall V, solution P (p_init P) 0 V -> be P (initialWorst P) V) -> 1 <= fuel ->
  exists s, searchD P lab srt dfuel lim fuel mxw user = Ok (s, Emptied) /\ s_ttl s = 1 /\ forall V, solution (relabel P (lab p0)) (p_init P) 0 V -> be P (b_primal (s_b s)) V.
Proof.
  intros L0 Nw HL F. destruct fuel as [|f]; [lia|]. pose proof SE as [A1 A2 A3 A4 A5 A6 A7].
  assert (Ep : p0 = b_primal (attach P0 user)) by (unfold start_bound, attach; destruct user; reflexivity).
  pose proof (start_inv P0 N A2 dfuel A6 lim mxw A7 user) as V. rewrite <- Ep in V.
  assert (K : keys_ok P0 (bb_start P0 mxw user)).
  { apply (start_keys P0 I rank N A1 A3 mxw user). intros V0 SV. apply HL. now apply solution_nomerge. }
  destruct (start_entries P0 mxw user) as (key & E & _ & Hh).
  destruct (start_root P0 mxw user) as [R1 R2]. destruct (start_proj P0 mxw user) as (_ & _ & Eb & Et & _ & _ & Ew).
  unfold searchD. change (bb_start P mxw user) with (bb_start P0 mxw user). set (s0 := bb_start P0 mxw user) in *. clearbody s0. cbn [bb_loopD].
  assert (Ne : heap_elems (s_pq s0) <> []) by (intros H; unfold entries in E; rewrite H in E; discriminate).
  destruct (heap_empty (s_pq s0)) eqn:H0. { apply (empty_elems (s_pq s0)) in H0; [|apply Hh]. exfalso. apply Ne, H0. }
  change (q_ord P) with (q_ord P0).
  destruct (extractMax_some (q_ord P0) (s_pq s0)) as (q & h & EX); [apply Hh|exact Ne|].
  rewrite EX, L0. destruct (popped_ok P0 _ s0 q h V EX) as (V1 & Pm & Hq & K1 & _). destruct (K1 K) as [_ Kq].
  rewrite E in Pm. apply Permutation_length_1_inv in Pm. injection Pm as -> Eh.
  destruct (bb_nodeD_once (popped s0 (0, key) h) (0, key) V1 Hq Kq) as (s1 & E1 & B1 & B2 & _ & B3).
  { cbn [popped s_pool s_w fst]. change (pool_node P) with (pool_node P0). rewrite R1, Ew. exact Nw. }
  rewrite E1. cbn [bind].
  assert (H1 : heap_empty (s_pq s1) = true).
  { rewrite B1. cbn [popped s_pq]. apply (proj2 (empty_elems h (proj1 (i_heap _ _ _ V1)))). apply (map_eq_nil snd). exact Eh. }
  exists s1. split; [destruct f; cbn [bb_loopD]; now rewrite H1|]. split; [rewrite B2; cbn; now rewrite Et|].
  intros V0 SV. apply B3. cbn [popped s_pool s_b fst]. change (pool_node P) with (pool_node P0). rewrite R1, R2, Eb, <- Ep.
  destruct SV as (v & (ls & Hp) & ->). exists v. split; auto. exists ls. exact (proj2 (path_nomerge (relabel P (lab p0)) _ _ _ _) Hp).
Qed.
End Once.
