(** How large the diagrams and the node pool of the search get (C84). *)
From Verif Require Import Base HeapModel HeapProofs DDModel DDSpec DDFrame DDRestricted DDRestricted2 DDRelaxed2 DDRelaxedEnd SearchModel SearchProofs ApartProofs SizeProofs.

Section SizeSearch.
Context {St : Type} (P : prob St) (I : St -> Prop) (rank : St -> nat) (N L c : nat) (srt : dd St -> list nat -> list nat) (dfuel mxw : nat).
Hypothesis SE : setting P I rank N srt dfuel mxw.
Hypothesis HL : forall s, I s -> s <> p_target P -> length (p_labels P s) <= L.
Hypothesis Hw : 1 <= mxw.
Definition restr_size : nat := (1 + N * mxw) * L.
Definition relax_size (w : nat) : nat := (1 + 2 * (N * Nat.max w c)) * L.
Definition small (s : @sst St) : Prop := 1 <= s_w s /\
  (d_nn (s_restr s) <= 2 + restr_size /\ d_ne (s_restr s) <= restr_size) /\
  (merges_to P I rank c -> d_nn (s_relaxed s) <= 2 + relax_size (s_w s) /\ d_ne (s_relaxed s) <= (1 + N * Nat.max (s_w s) c) * L /\ length (s_pool s) <= 1 + length (s_hist s) * (2 + relax_size (s_w s))).
Lemma apply_computes R sr f st (d : dd St) from b x : apply R sr f st d from b = Ok x -> compute R sr f st (initFrom R d from) (b_primal b) = Ok (fst (fst x)).
Proof.
  unfold apply. intros E. apply bind_ok in E as (d1 & -> & E). apply bind_ok in E as (t & _ & E). destruct (isBetter R _ _); [apply bind_ok in E as (b1 & _ & E)|]; injection E as <-; reflexivity.
Qed.
Lemma relax_size_mono w w' : w <= w' -> relax_size w <= relax_size w'.
Proof. intros H. unfold relax_size. apply Nat.mul_le_mono_r. pose proof (Nat.mul_le_mono_l (Nat.max w c) (Nat.max w' c) N ltac:(lia)). lia. Qed.
Lemma cut_step_size (d : dd St) s i s' : cut_step P d s i = Ok s' -> s_relaxed s' = s_relaxed s /\ s_restr s' = s_restr s /\ s_hist s' = s_hist s /\ s_w s <= s_w s' /\ length (s_pool s') <= S (length (s_pool s)).
Proof.
  unfold cut_step. cbn zeta. assert (W : s_w s <= if is_ptr (d_root d) i then S (s_w s) else s_w s) by (destruct (is_ptr _ _); lia).
  destruct (negb _); intros E; [injection E as <-; cbn; csplit; auto|]. apply bind_ok in E as ([[h k] dom] & _ & E). destruct dom; [injection E as <-; cbn; csplit; auto|].
  unfold cloneNode in E. destruct (existsb _ _); injection E as <-; cbn [cut_upd s_relaxed s_restr s_hist s_w s_pool]; rewrite ?app_length; cbn; csplit; auto; lia.
Qed.
Lemma cut_loop_size (d : dd St) : forall cs s s', cut_loop P d s cs = Ok s' ->
  s_relaxed s' = s_relaxed s /\ s_restr s' = s_restr s /\ s_hist s' = s_hist s /\ s_w s <= s_w s' /\ length (s_pool s') <= length cs + length (s_pool s).
Proof.
  induction cs as [|i cs IH]; intros s s' E; cbn [cut_loop] in E; [injection E as <-; csplit; auto|].
  apply bind_ok in E as (s1 & E1 & E). apply cut_step_size in E1 as (A1 & A2 & A3 & A4 & A5). apply IH in E as (B1 & B2 & B3 & B4 & B5). cbn [length]. csplit; try congruence; lia.
Qed.
Lemma node_small p0 s q s' : sinv P p0 s -> fst q < length (s_pool s) -> small s -> bb_node P srt dfuel mxw s q = Ok s' -> small s'.
Proof.
  pose proof SE as [M1 M2 M3 M4 M5 M6 M7]. intros V Hq (W & [R1 R2] & X) E. unfold bb_node in E. cbn zeta in E. set (from := pool_node P (s_pool s) (fst q)) in *.
  assert (Nf : node_ok P from). { pose proof (i_pool _ _ _ V) as FP. rewrite Forall_forall in FP. apply FP. now apply pool_node_in. }
  destruct (negb _); [injection E as <-; repeat (split; auto)|].
  pose proof (node_I P I rank N M1 M3 from Nf) as Is. pose proof (node_range P M4 from Nf) as Rg. destruct Nf as [G Nt].
  apply bind_ok in E as ([[d1 b1] db] & E1 & E). pose proof (apply_computes _ _ _ _ _ _ _ _ E1) as RX. cbn [fst compute] in RX.
  pose proof (started_from P (s_relaxed s) from) as S0. assert (F : N + 1 < dfuel + rank (n_state from)) by lia.
  assert (D1 : merges_to P I rank c -> d_nn d1 <= 2 + relax_size (s_w s) /\ d_ne d1 <= (1 + N * Nat.max (s_w s) c) * L).
  { intros MT. destruct (relaxed_size P I rank N L M1 HL _ _ _ Nt Is Rg _ c MT srt M5 _ _ _ _ S0 F RX) as [A B]. replace (Nat.max 1 (Nat.max (s_w s) c)) with (Nat.max (s_w s) c) in A, B by lia.
    assert (Q : (N - rank (n_state from)) * Nat.max (s_w s) c <= N * Nat.max (s_w s) c) by (apply Nat.mul_le_mono_r; lia). unfold relax_size. split.
    - etransitivity; [exact A|]. apply Nat.add_le_mono_l, Nat.mul_le_mono_r. lia.
    - etransitivity; [exact B|]. apply Nat.mul_le_mono_r. lia. }
  destruct db.
  2:{ injection E as <-. split; [exact W|]. split; [split; auto|]. intros HM. destruct (X HM) as (_ & _ & X3). destruct (D1 HM). csplit; auto. }
  apply bind_ok in E as ([[d2 b2] pb] & E2 & E). pose proof (apply_computes _ _ _ _ _ _ _ _ E2) as RS. cbn [fst compute] in RS.
  assert (D2 : d_nn d2 <= 2 + restr_size /\ d_ne d2 <= restr_size).
  { destruct (restricted_size P I rank N L M1 HL _ _ _ Nt Is Rg _ _ _ _ _ (started_from P (s_restr s) from) Hw M7 RS) as [A B].
    assert (Q : (N - rank (n_state from)) * mxw <= N * mxw) by (apply Nat.mul_le_mono_r; lia). unfold restr_size. split.
    - etransitivity; [exact A|]. apply Nat.add_le_mono_l, Nat.mul_le_mono_r. lia.
    - etransitivity; [exact B|]. apply Nat.mul_le_mono_r. lia. }
  destruct (negb (d_exact d2) && negb (d_exact d1)).
  2:{ injection E as <-. split; [exact W|]. split; [exact D2|]. intros HM. destruct (X HM) as (_ & _ & X3). destruct (D1 HM). csplit; auto. }
  apply bind_ok in E as (cs & Ec & E).
  destruct (relaxed_cutset P I rank N M1 _ _ _ Nt Is Rg srt M5 dfuel _ (b_primal (s_b s)) (s_w s) d1 S0 F RX) as (cs' & Ec' & ND & CN & _). rewrite Ec in Ec'. injection Ec' as <-.
  apply cut_loop_size in E as (B1 & B2 & B3 & B4 & B5). cbn [run_upd s_relaxed s_restr s_hist s_w s_pool length] in B1, B2, B3, B4, B5.
  split; [lia|]. rewrite B2. split; [exact D2|]. intros HM. destruct (D1 HM) as [D3 D4]. destruct (X HM) as (_ & _ & X3). rewrite B1, B3. cbn [length].
  pose proof (relax_size_mono _ _ B4) as RM. csplit.
  - lia.
  - etransitivity; [exact D4|]. apply Nat.mul_le_mono_r. pose proof (Nat.mul_le_mono_l (Nat.max (s_w s) c) (Nat.max (s_w s') c) N ltac:(lia)). lia.
  - assert (LC : length cs <= d_nn d1).
    { rewrite <- (seq_length (d_nn d1) 0). apply NoDup_incl_length; auto. intros i Hi. apply in_seq.
      destruct (run_completed' P I rank N M1 _ _ _ Nt Is Rg srt M5 _ _ _ _ _ S0 F RX) as (e2 & K & e3 & C).
      destruct (CN i Hi) as (B & _). cbn in B. apply (done_an P I _ _ _ rank _ _ _ _ _ _ C) in B as [B _].
      destruct (done_ed P I _ _ _ rank _ _ _ _ _ _ C) as (_ & _ & -> & _). lia. }
    assert (length (s_hist s) * (2 + relax_size (s_w s)) <= length (s_hist s) * (2 + relax_size (s_w s'))) by (apply Nat.mul_le_mono_l; lia).
    cbn [Nat.mul]. lia.
Qed.
Lemma loop_small p0 lim : be P p0 (sentinel P) -> forall fuel k s s' e, sinv P p0 s -> small s -> bb_loop P srt dfuel lim fuel mxw k s = Ok (s', e) -> small s'.
Proof.
  pose proof SE as [M1 M2 M3 M4 M5 M6 M7]. intros Hp.
  induction fuel as [|f IH]; intros k s s' e V H E; cbn [bb_loop] in E; destruct (heap_empty (s_pq s)); try (injection E as <- _; assumption); [discriminate|].
  destruct (heap_extractMax (q_ord P) (s_pq s)) as [[q h]|] eqn:EX; [|discriminate]. destruct (popped_ok P p0 s q h V EX) as (V1 & _ & Hq & _).
  assert (H1 : small (popped s q h)) by exact H. destruct (lim k); [injection E as <- _; exact H1|].
  apply bind_ok in E as (s1 & E1 & E). destruct (bb_node_ok P I rank N M1 M3 M4 srt M5 dfuel M6 mxw M7 p0 Hp (popped s q h) q V1 Hq) as (s2 & E2 & V2 & _).
  rewrite E1 in E2. injection E2 as <-. apply (IH _ _ _ _ V2 (node_small p0 _ _ _ V1 Hq H1 E1) E).
Qed.
Lemma search_small lim user fuel s e : let p0 := match user with Some p => p | None => sentinel P end in be P p0 (sentinel P) ->
  search P srt dfuel lim fuel mxw user = Ok (s, e) -> small s.
Proof.
  pose proof SE as [M1 M2 M3 M4 M5 M6 M7]. intros p0 Hp E. unfold search in E. apply (loop_small p0 lim Hp _ _ _ _ _) in E; auto.
  - replace p0 with (b_primal (attach P user)) by (unfold p0, attach; destruct user; reflexivity). eapply start_inv; eauto.
  - split; [exact Hw|]. split; [cbn; lia|]. intros _. unfold bb_start, initDefault, makeNode, hasNode. cbn. lia.
Qed.
End SizeSearch.
