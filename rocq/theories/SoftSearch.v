(** Branch and bound when the equality of states may confuse merged states with each other (SoftEq.v): every incumbent is genuine. *)
From Verif Require Import Base HeapModel HeapProofs DDModel DDSpec DDFrame DDInv DDRestricted DDRestricted2 DDPasses SearchModel SearchProofs SearchDyn NoMerge SoftEq.

(** as [dyn_ok] (SearchDyn.v), without the condition that improving completions are kept *)
Record dyn_sub {St} (P : prob St) (lab : Z -> St -> list Z) (p0 : Z) (I : St -> Prop) (rank : St -> nat) (N : nat) : Prop := {
  ds_model : forall b, at_bound P p0 b -> valid_model (relabel P (lab b)) I rank N;
  ds_sub : forall b s l, at_bound P p0 b -> In l (lab b s) -> In l (p_labels P s) }.
Lemma dyn_ok_sub {St} (P : prob St) lab p0 I rank N : dyn_ok P lab p0 I rank N -> dyn_sub P lab p0 I rank N.
Proof. intros [A B _]. constructor; auto. Qed.

Section DynSub.
Context {St : Type} (P : prob St) (lab : Z -> St -> list Z) (I : St -> Prop) (rank : St -> nat) (N : nat).
Hypothesis VM : valid_model P I rank N.
Hypothesis HI : I (p_init P).
Hypothesis Hrange : in_range P (p_init P) 0.
Variable srt : dd St -> list nat -> list nat.
Variable dfuel : nat.
Hypothesis Hfuel : N + 1 < dfuel.
Variable mxw : nat.
Hypothesis Hmxw : (N.of_nat mxw < 4294967296)%N.
Variable p0 : Z.
Hypothesis DY : dyn_sub P lab p0 I rank N.
Hypothesis Hp0 : be P p0 (sentinel P).
Notation node_ok := (node_ok P).
Notation Q b := (relabel P (lab b)).
Lemma ds_path b (Ab : at_bound P p0 b) s ls v t : path (Q b) s ls v t -> I s -> path P s ls v t.
Proof.
  induction 1 as [|s l s' ls v t Hn Hl S Hp IH]; intros Is; [constructor|]. apply (path_cons P s l s' ls v t); auto.
  - exact (ds_sub _ _ _ _ _ _ DY b s l Ab Hl).
  - apply IH. exact (cl_step _ _ (vm_closed _ _ _ _ (ds_model _ _ _ _ _ _ DY b Ab)) s l s' Is Hn Hl S).
Qed.
Lemma ds_range b (Ab : at_bound P p0 b) n : node_ok n -> in_range (Q b) (n_state n) (n_bound n).
Proof.
  intros Nk ls v t H. assert (Is : I (n_state n)) by exact (node_ID P I rank N VM HI n Nk). destruct Nk as [G _].
  pose proof (in_range_step P _ _ _ _ _ _ Hrange G) as R. apply (R ls v t). now apply (ds_path b Ab).
Qed.
Lemma ds_genuine b (Ab : at_bound P p0 b) rs rb rl s v lb : I rs -> genuine (Q b) rs rb rl s v lb -> genuine P rs rb rl s v lb.
Proof. intros Is (ls & v' & E1 & E2 & H). exists ls, v'. csplit; auto. now apply (ds_path b Ab). Qed.
Lemma apply_restrictedS d from b vs : node_ok from -> log_of P p0 b vs ->
  exists d2 b2 pb vs2, apply (cur P lab b) srt dfuel (SRestricted mxw) d from b = Ok (d2, b2, pb) /\ log_of P p0 b2 vs2 /\ be P (b_primal b2) (b_primal b).
Proof.
  intros Nk L. pose proof (log_at _ _ _ _ L) as Ab. assert (Is : I (n_state from)) by exact (node_ID P I rank N VM HI from Nk).
  pose proof (ds_range (b_primal b) Ab _ Nk) as Rg. pose proof Nk as [G Nt].
  pose proof (ds_model _ _ _ _ _ _ DY (b_primal b) Ab) as VQ. fold (cur P lab b) in *. set (R := cur P lab b) in *.
  pose proof (started_from R d from) as S0. assert (F : N + 1 < dfuel + rank (n_state from)) by lia.
  unfold apply. cbn [compute].
  destruct (restricted_any_width R I rank N VQ _ _ _ Nt Is Rg dfuel _ (b_primal b) mxw S0 Hmxw F) as (d2 & E & _ & X). rewrite E. cbn [bind].
  destruct (restricted_genuine R I (vm_closed _ _ _ _ VQ) _ _ _ Nt Is Rg dfuel _ (b_primal b) mxw d2 S0 E) as (t & Et & _ & Gt). rewrite Et. cbn [bind].
  change (isBetter R) with (isBetter P). change (better R) with (better P).
  destruct (isBetter P (n_bound t) (b_primal b)) eqn:C.
  - apply isBetter_bt in C. unfold update. rewrite Et. cbn [bind st_primal st_dual orb andb]. change (better R) with (better P).
    assert (Gt' : genuine P (p_init P) 0 [] (p_target P) (n_bound t) (n_lab t)).
    { eapply genuine_trans; [exact G|]. apply (ds_genuine (b_primal b)); auto. apply Gt. pose proof (log_primal P _ _ _ L). change (bt P (n_bound t) (sentinel P)). vlia. }
    pose proof (log_push P _ _ _ _ _ L Gt' C) as L1. do 4 eexists. split; [reflexivity|]. split; [exact L1|]. cbn. assert (Ep : better P (n_bound t) (b_primal b) = n_bound t) by (unfold better; apply isBetter_bt in C; now rewrite C). rewrite Ep. vlia.
  - cbn [bind]. do 4 eexists. split; [reflexivity|]. split; [exact L|apply be_refl].
Qed.
End DynSub.

Section SoftSearch.
Context {St : Type} (P : prob St) (lab : Z -> St -> list Z) (E I : St -> Prop) (rank : St -> nat) (N : nat).
Variable srt : dd St -> list nat -> list nat.
Variables dfuel mxw : nat.
Notation P0 := (nomerge P).
Hypothesis SE : setting P0 E rank N srt dfuel mxw.
Variable p0 : Z.
Hypothesis Hp0 : be P p0 (sentinel P).
Hypothesis DY : dyn_sub P0 lab p0 E rank N.
Hypothesis SF : forall b, at_bound P0 p0 b -> soft (relabel P (lab b)) E I rank.

Lemma gen_nomerge (R : prob St) rs rb rl s v l : genuine R rs rb rl s v l -> genuine (nomerge R) rs rb rl s v l.
Proof. intros (ls & u & A & B & H). exists ls, u. csplit; auto. exact (proj2 (path_nomerge R _ _ _ _) H). Qed.

Lemma bb_nodeD_soft s q s' : sinv P0 p0 s -> fst q < length (s_pool s) -> bb_nodeD P lab srt dfuel mxw s q = Ok s' -> sinv P0 p0 s'.
Proof.
  intros V Hq. unfold bb_nodeD. cbn zeta. set (from := pool_node P (s_pool s) (fst q)).
  pose proof SE as [A1 A2 A3 A4 A5 A6 A7].
  assert (Nf : node_ok P0 from). { pose proof (i_pool _ _ _ V) as FP. rewrite Forall_forall in FP. apply FP. now apply pool_node_in. }
  destruct (i_log _ _ _ V) as [vs L]. pose proof (log_at _ _ _ _ L) as Ab.
  destruct (negb (isBetter P (snd q) _)); [intros [= <-]; apply sinv_run; eauto|].
  pose proof (node_ID _ _ _ _ A1 A3 _ Nf) as Is. pose proof (ds_range _ _ _ _ _ A1 A3 A4 _ DY _ Ab _ Nf) as Rg. pose proof Nf as [G Nt].
  unfold apply at 1. cbn [compute].
  intros H. apply bind_ok in H as ([[d1 b1] db] & H1 & H). apply bind_ok in H1 as (d1' & RX & H1).
  set (R := cur P lab (s_b s)) in *.
  assert (Rg' : in_range R (n_state from) (n_bound from)).
  { intros ls v t Hp. apply (Rg ls v t). exact (proj2 (path_nomerge R _ _ _ _) Hp). }
  assert (HC : closed R E). { destruct (vm_closed _ _ _ _ (ds_model _ _ _ _ _ _ DY _ Ab)) as [C1 C2 C3 C4]. constructor; auto. }
  pose proof (started_from R (s_relaxed s) from) as S0.
  assert (Hs' : forall d l i, In i (srt d l) -> In i l) by (intros d l i; apply Permutation_in, A5).
  destruct (rx_soft R E I rank (SF _ Ab) (n_state from) (n_bound from) (n_lab from) Nt Is Rg' srt Hs' HC dfuel _ (b_primal (s_b s)) (s_w s) d1' S0 (fun _ => eq_refl) RX)
    as (WW & GT & BT).
  assert (Et : trg_node d1' = Ok (d_nd d1' 1)) by (unfold trg_node; now rewrite (w_trg _ _ _ _ _ _ _ _ WW)).
  rewrite Et in H1. cbn [bind] in H1.
  (* the bounds after the relaxed diagram *)
  assert (K : d1 = d1' /\ exists vs1, log_of P0 p0 b1 vs1).
  { destruct (isBetter R (bd d1' 1) (b_primal (s_b s))) eqn:C; [|injection H1 as <- <- <-; eauto].
    unfold update in H1. rewrite Et in H1. cbn [bind st_primal st_dual orb andb] in H1.
    destruct (d_exact d1') eqn:X; cbn [bind] in H1; [|injection H1 as <- <- <-; eauto]. injection H1 as <- <- <-. split; auto.
    apply isBetter_bt in C. change (bt P (bd d1' 1) (b_primal (s_b s))) in C.
    assert (Bs : bt R (bd d1' 1) (sentinel R)). { pose proof (log_primal P0 _ _ _ L) as Q. change (be P (b_primal (s_b s)) p0) in Q. change (bt P (bd d1' 1) (sentinel P)). vlia. }
    pose proof (gen_nomerge R _ _ _ _ _ _ (GT eq_refl Bs)) as Gt.
    assert (Gt' : genuine P0 (p_init P0) 0 [] (p_target P0) (bd d1' 1) (n_lab (d_nd d1' 1))).
    { eapply genuine_trans; [exact G|]. exact (ds_genuine _ _ _ _ _ _ DY _ Ab _ _ _ _ _ _ Is Gt). }
    exists (bd d1' 1 :: vs). exact (log_push P0 _ _ _ _ _ L Gt' C). }
  destruct K as [-> (vs1 & L1)]. clear H1.
  destruct db; [|injection H as <-; apply sinv_run; eauto].
  apply bind_ok in H as ([[d2 b2] pb] & H2 & H).
  destruct (apply_restrictedS P0 lab E rank N A1 A3 A4 srt dfuel A6 mxw A7 p0 DY Hp0 (s_restr s) from b1 vs1 Nf L1) as (d2' & b2' & pb' & vs2 & E2 & L2 & _).
  assert (X2 : Ok (d2, b2, pb) = Ok (d2', b2', pb')). { transitivity (apply (cur P0 lab b1) srt dfuel (SRestricted mxw) (s_restr s) from b1); [symmetry; exact H2|exact E2]. }
  injection X2 as <- <- <-. clear H2 E2.
  destruct (negb (d_exact d2) && negb (d_exact d1')); [|injection H as <-; apply sinv_run; eauto].
  apply bind_ok in H as (cs & Ec & H).
  set (s1 := run_upd s b2 d1' d2 (Datatypes.S (s_nNode s)) (Datatypes.S (s_ttl s)) ((d1', b_primal b2) :: s_hist s)) in *.
  assert (V1 : sinv P0 p0 s1) by (apply sinv_run; eauto).
  assert (NC : forall i, In i cs -> node_ok P0 (d_nd d1' i)).
  { intros i Hi. destruct (cutset_soft R I rank _ _ _ srt Hs' d1' cs WW Ec i Hi) as [B1 B2]. split; auto.
    eapply genuine_trans; [exact G|]. exact (ds_genuine _ _ _ _ _ _ DY _ Ab _ _ _ _ _ _ Is (gen_nomerge R _ _ _ _ _ _ B1)). }
  destruct (cut_loop_ok P0 E rank N A1 A3 srt A5 dfuel A6 mxw A7 p0 d1' cs s1 V1 NC) as (s2 & E' & V' & _).
  assert (X3 : Ok s' = Ok s2). { transitivity (cut_loop P0 d1' s1 cs); [symmetry; exact H|exact E']. }
  injection X3 as <-. exact V'.
Qed.

Lemma bb_loopD_soft lim : forall fuel k s s' e, sinv P0 p0 s -> bb_loopD P lab srt dfuel lim fuel mxw k s = Ok (s', e) -> sinv P0 p0 s'.
Proof.
  induction fuel as [|fuel IH]; intros k s s' e V E0; cbn [bb_loopD] in E0.
  - destruct (heap_empty (s_pq s)) eqn:H0; [|discriminate]. injection E0 as <- <-. auto.
  - destruct (heap_empty (s_pq s)) eqn:H0; [injection E0 as <- <-; auto|].
    destruct (heap_extractMax (q_ord P) (s_pq s)) as [[q h]|] eqn:EX; [|discriminate].
    destruct (popped_ok P0 p0 s q h V EX) as (V1 & Pm & Hq & _).
    destruct (lim k); [injection E0 as <- <-; auto|].
    apply bind_ok in E0 as (s1 & E1 & E0). eapply IH; [|exact E0]. eapply bb_nodeD_soft; [exact V1|exact Hq|exact E1].
Qed.
End SoftSearch.

Theorem searchD_soft {St} (P : prob St) lab (E I : St -> Prop) rank N srt dfuel mxw lim user fuel s e :
  setting (nomerge P) E rank N srt dfuel mxw -> be P (start_bound P user) (sentinel P) -> dyn_sub (nomerge P) lab (start_bound P user) E rank N ->
  (forall b, at_bound (nomerge P) (start_bound P user) b -> soft (relabel P (lab b)) E I rank) ->
  searchD P lab srt dfuel lim fuel mxw user = Ok (s, e) ->
  (b_primal (s_b s) <> start_bound P user -> genuine P (p_init P) 0 [] (p_target P) (b_primal (s_b s)) (b_inc (s_b s))) /\
  (forall ls, In ls (b_log (s_b s)) -> exists v, genuine P (p_init P) 0 [] (p_target P) v ls /\ bt P v (start_bound P user)) /\
  be P (b_primal (s_b s)) (start_bound P user).
Proof.
  intros SE Hp0 DY SF Er. pose proof SE as [A1 A2 A3 A4 A5 A6 A7].
  assert (Ep : start_bound P user = b_primal (attach (nomerge P) user)) by (unfold start_bound, attach; destruct user; reflexivity).
  pose proof (start_inv (nomerge P) N A2 dfuel A6 lim mxw A7 user) as V0. rewrite <- Ep in V0.
  pose proof (bb_loopD_soft P lab E I rank N srt dfuel mxw SE (start_bound P user) Hp0 DY SF lim fuel 0 _ s e V0 Er) as V.
  destruct (i_log _ _ _ V) as (vs & A). pose proof (log_primal _ _ _ _ A) as Q. destruct A as (B1 & B2 & B3 & B4 & B5).
  assert (GN : forall v l, genuine (nomerge P) (p_init P) 0 [] (p_target P) v l -> genuine P (p_init P) 0 [] (p_target P) v l).
  { intros v l (ls & u & C1 & C2 & H). exists ls, u. csplit; auto. exact (proj1 (path_nomerge P _ _ _ _) H). }
  csplit; [| |exact Q].
  - rewrite B4, B5. destruct B1; cbn; [congruence|]. intros _. now apply GN.
  - intros ls Hl. clear - Hl B1 B3 GN. induction B1 as [|x v l vs G B1 IH]; [destruct Hl|]. inversion B3; subst. destruct Hl as [<-|Hl]; eauto.
Qed.
