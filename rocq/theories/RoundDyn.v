(** The search for problems whose labels read the primal bound (SearchDyn.v), with an addition of doubles (C83). *)
From Verif Require Import Base HeapModel HeapProofs DDModel DDSpec DDFrame DDRestricted DDRestricted2 DDRelaxedEnd DDWide SearchModel SearchProofs SearchDyn RoundModel RoundSearch.

Section Model.
Context {St : Type} (fadd : Z -> Z -> Z) (P : prob St) (lab : Z -> St -> list Z) (srt : dd St -> list nat -> list nat) (dfuel : nat) (lim : nat -> bool).
(** src/search.cpp:100-188, as bb_nodeD *)
Definition bb_nodeDF (mxw : nat) (s : sst) (q : qnode) : res sst :=
  let ttl := S (s_ttl s) in
  if negb (isBetter P (snd q) (b_primal (s_b s)))
  then Ok (run_upd s (s_b s) (s_relaxed s) (s_restr s) (s_nNode s) ttl (s_hist s))
  else
    let from := pool_node P (s_pool s) (fst q) in
    let nNode := S (s_nNode s) in
    do (d1, b1, dualBetter) <- applyF fadd (cur P lab (s_b s)) srt dfuel (SRelaxed (s_w s)) (s_relaxed s) from (s_b s) ;
    if dualBetter then
      do (d2, b2, _) <- applyF fadd (cur P lab b1) srt dfuel (SRestricted mxw) (s_restr s) from b1 ;
      if negb (d_exact d2) && negb (d_exact d1) then
        do cs <- computeCutSet d1 ;
        cut_loopF fadd P d1 (run_upd s b2 d1 d2 nNode ttl ((d1, b_primal b2) :: s_hist s)) cs
      else Ok (run_upd s b2 d1 d2 nNode ttl (s_hist s))
    else Ok (run_upd s b1 d1 (s_restr s) nNode ttl (s_hist s)).
(** src/search.cpp:59-189, as bb_loopD *)
Fixpoint bb_loopDF (fuel mxw k : nat) (s : sst) : res (sst * ending) :=
  if heap_empty (s_pq s) then Ok (s, Emptied)
  else match fuel with
  | O => Err OutOfFuel
  | S f =>
    match heap_extractMax (q_ord P) (s_pq s) with
    | None => Err UB
    | Some (q, h) =>
      if lim k then Ok (popped s q h, Limited q)
      else do s1 <- bb_nodeDF mxw (popped s q h) q ; bb_loopDF f mxw (S k) s1
    end
  end.
(** src/search.cpp:21-198 *)
Definition searchDF (fuel mxw : nat) (user : option Z) : res (sst * ending) := bb_loopDF fuel mxw 0 (bb_start P mxw user).
End Model.

Section Dyn.
Context {St : Type} (P : prob St) (lab : Z -> St -> list Z) (I : St -> Prop) (rank : St -> nat) (N : nat) (A C M : Z) (fadd : Z -> Z -> Z).
Variable srt : dd St -> list nat -> list nat.
Variable dfuel mxw : nat.
Hypothesis SE : setting P I rank N srt dfuel mxw.
Hypothesis SZ : sized P I N A C M.
Hypothesis HF : exact_upto M fadd.
Variable p0 : Z.
Hypothesis DY : dyn_ok P lab p0 I rank N.
Hypothesis Hp0 : be P p0 (sentinel P).

Lemma sized_lab b : at_bound P p0 b -> sized (relabel P (lab b)) I N A C M.
Proof.
  intros Ab. destruct SZ as [Z1 Z2 Z3 Z4 Z5]. constructor; auto. intros s l H1 H2 H3. apply Z3; auto. exact (dy_sub _ _ _ _ _ _ DY b s l Ab H3).
Qed.
Lemma applyDF_eq s d from b vs : node_ok P from -> log_of P p0 b vs -> (match s with SExact => False | SRestricted w => w = mxw | SRelaxed _ => True end) ->
  applyF fadd (cur P lab b) srt dfuel s d from b = apply (cur P lab b) srt dfuel s d from b.
Proof.
  pose proof SE as [M1 M2 M3 M4 M5 M6 M7]. intros Nk L Hs. pose proof (log_at _ _ _ _ L) as Ab.
  destruct (node_size P I rank N A C M M1 SZ from M3 Nk) as (Q1 & Q2 & Q3).
  pose proof (q_range P lab I rank N M1 M3 M4 p0 DY (b_primal b) Ab from Nk) as Rg. pose proof Nk as [G Nt].
  pose proof (dy_model _ _ _ _ _ _ DY (b_primal b) Ab) as VQ. pose proof (sized_lab _ Ab) as SQ. fold (cur P lab b) in *. set (R := cur P lab b) in *.
  pose proof (started_from R d from) as S0.
  unfold applyF, apply. destruct s as [|w|w]; [destruct Hs|subst w|]; cbn [computeF compute].
  - rewrite (rs_computeF_eq R I rank N A C M fadd VQ SQ HF _ _ _ Nt Q1 Rg Q2 dfuel _ (b_primal b) mxw S0 M7); [reflexivity|lia].
  - destruct (rx_computeF_eq R I rank N A C M fadd VQ SQ HF _ _ _ Nt Q1 Rg Q2 srt M5 dfuel _ (b_primal b) w S0) as [-> _]; [lia|reflexivity].
Qed.
Lemma bb_nodeDF_eq s q : sinv P p0 s -> fst q < length (s_pool s) -> bb_nodeDF fadd P lab srt dfuel mxw s q = bb_nodeD P lab srt dfuel mxw s q.
Proof.
  intros V Hq. unfold bb_nodeDF, bb_nodeD. cbn zeta. set (from := pool_node P (s_pool s) (fst q)).
  assert (Nf : node_ok P from). { pose proof (i_pool _ _ _ V) as FP. rewrite Forall_forall in FP. apply FP. now apply pool_node_in. }
  destruct (i_log _ _ _ V) as [vs L]. pose proof (log_at _ _ _ _ L) as Ab. pose proof SE as [M1 M2 M3 M4 M5 M6 M7].
  destruct (negb (isBetter P (snd q) (b_primal (s_b s)))); auto.
  rewrite (applyDF_eq _ _ _ _ vs) by auto.
  destruct (apply_relaxedD P lab I rank N M1 M3 M4 srt M5 dfuel M6 mxw M7 p0 DY Hp0 (s_w s) (s_relaxed s) from (s_b s) vs Nf L) as (d1 & b1 & db & vs1 & E1 & L1 & P1 & RX & _).
  rewrite E1. cbn [bind]. destruct db; auto. rewrite (applyDF_eq _ _ _ _ vs1) by auto.
  destruct (apply_restrictedD P lab I rank N M1 M3 M4 srt M5 dfuel M6 mxw M7 p0 DY Hp0 (s_restr s) from b1 vs1 Nf L1) as (d2 & b2 & pb & vs2 & E2 & _). rewrite E2. cbn [bind].
  destruct (negb (d_exact d2) && negb (d_exact d1)) eqn:X; auto.
  destruct (node_size P I rank N A C M M1 SZ from M3 Nf) as (Q1 & Q2 & Q3).
  pose proof (q_range P lab I rank N M1 M3 M4 p0 DY (b_primal (s_b s)) Ab from Nf) as Rg. pose proof Nf as [G Nt].
  pose proof (dy_model _ _ _ _ _ _ DY (b_primal (s_b s)) Ab) as VQ. pose proof (sized_lab _ Ab) as SQ. fold (cur P lab (s_b s)) in *. set (R := cur P lab (s_b s)) in *.
  pose proof (started_from R (s_relaxed s) from) as S0. assert (F : N + 1 < dfuel + rank (n_state from)) by lia.
  destruct (relaxed_cutset R I rank N VQ _ _ _ Nt Q1 Rg srt M5 dfuel _ (b_primal (s_b s)) (s_w s) d1 S0 F RX) as (cs & Ec & ND & CN & CC).
  rewrite Ec. cbn [bind]. destruct (rx_computeF_eq R I rank N A C M fadd VQ SQ HF _ _ _ Nt Q1 Rg Q2 srt M5 dfuel _ (b_primal (s_b s)) (s_w s) S0 F) as [_ BB].
  apply (cut_loopF_eq P I rank N A C M fadd M1 SZ HF srt dfuel mxw SE).
  - intros i Hi. destruct (CN i Hi) as (_ & B1 & _ & B2). split; auto. eapply genuine_trans; eauto. eapply q_genuine; eauto.
  - intros i Hi. apply (BB d1 RX). apply (CN i Hi).
Qed.
Variable lim : nat -> bool.
Lemma bb_loopDF_eq : forall fuel k s, sinv P p0 s -> bb_loopDF fadd P lab srt dfuel lim fuel mxw k s = bb_loopD P lab srt dfuel lim fuel mxw k s.
Proof.
  pose proof SE as [M1 M2 M3 M4 M5 M6 M7].
  induction fuel as [|f IH]; intros k s V; cbn [bb_loopDF bb_loopD]; destruct (heap_empty (s_pq s)) eqn:H0; auto.
  destruct (heap_extractMax (q_ord P) (s_pq s)) as [[q h]|] eqn:EX; auto. destruct (lim k); auto.
  destruct (popped_ok P p0 s q h V EX) as (V1 & _ & Hq & _).
  rewrite (bb_nodeDF_eq (popped s q h) q V1 Hq).
  destruct (bb_nodeD_ok P lab I rank N M1 M3 M4 srt M5 dfuel M6 mxw M7 p0 DY Hp0 (popped s q h) q V1 Hq) as (s1 & E1 & V2 & _).
  rewrite E1. cbn [bind]. now apply IH.
Qed.
End Dyn.
Lemma searchDF_eq {St} (P : prob St) lab I rank N A C M fadd srt dfuel lim fuel mxw user : setting P I rank N srt dfuel mxw -> sized P I N A C M -> exact_upto M fadd ->
  let p0 := match user with Some p => p | None => sentinel P end in dyn_ok P lab p0 I rank N -> be P p0 (sentinel P) ->
  searchDF fadd P lab srt dfuel lim fuel mxw user = searchD P lab srt dfuel lim fuel mxw user.
Proof.
  intros SE SZ HF p0 DY Hp. pose proof SE as [M1 M2 M3 M4 M5 M6 M7]. unfold searchDF, searchD. apply (bb_loopDF_eq P lab I rank N A C M fadd srt dfuel mxw SE SZ HF p0 DY Hp).
  replace p0 with (b_primal (attach P user)) by (unfold p0, attach; destruct user; reflexivity). eapply start_inv; eauto.
Qed.
