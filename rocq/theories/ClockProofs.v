(** Clock arithmetic and time limits. *)
From Coq Require Import QArith.
From Verif Require Import Base HeapModel HeapProofs DDModel DDSpec SearchModel SearchProofs SearchDyn DDFrame ClockModel.
Local Open Scope Z_scope.

Lemma milli_floor s e : s <= e -> ck_milli s e * 1000000 <= e - s < (ck_milli s e + 1) * 1000000.
Proof. intros H. unfold ck_milli. pose proof (Z.quot_rem (e - s) 1000000 ltac:(lia)). pose proof (Z.rem_bound_pos (e - s) 1000000 ltac:(lia) ltac:(lia)). lia. Qed.
Lemma micro_floor s now : s <= now -> now - s < 18446744073709551616000 -> ck_micro s now * 1000 <= now - s < (ck_micro s now + 1) * 1000.
Proof.
  intros H B. unfold ck_micro. pose proof (Z.quot_rem (now - s) 1000 ltac:(lia)). pose proof (Z.rem_bound_pos (now - s) 1000 ltac:(lia) ltac:(lia)).
  rewrite Z.mod_small by (split; lia). lia.
Qed.
Lemma milli_back s e : ck_milli e s = - ck_milli s e.
Proof. unfold ck_milli. replace (s - e) with (- (e - s)) by lia. now rewrite Z.quot_opp_l. Qed.
Lemma seconds_floor s e : s <= e -> (ck_seconds s e * inject_Z 1000000000 <= inject_Z (e - s))%Q /\ (inject_Z (e - s) < (ck_seconds s e + (1 # 1000)) * inject_Z 1000000000)%Q.
Proof. intros H. pose proof (milli_floor s e H). unfold ck_seconds, Qlt, Qle, Qdiv, inject_Z. cbn. lia. Qed.
Lemma milli_pieces a b c : a <= b -> b <= c -> 0 <= ck_milli a c - (ck_milli a b + ck_milli b c) <= 1.
Proof. intros H1 H2. pose proof (milli_floor a b H1). pose proof (milli_floor b c H2). pose proof (milli_floor a c ltac:(lia)). lia. Qed.
Lemma limit_iff T start clk k : 1 <= T -> ck_limit T start clk k = true <-> start + T * 1000000 <= clk k.
Proof.
  intros HT. unfold ck_limit. rewrite Z.leb_le. destruct (Z_le_gt_dec start (clk k)) as [H|H].
  - pose proof (milli_floor _ _ H). lia.
  - pose proof (milli_floor (clk k) start ltac:(lia)) as F. rewrite milli_back in F. lia.
Qed.

Section Limit.
Context {St : Type} (P : prob St) (I : St -> Prop) (rank : St -> nat) (N : nat) (srt : dd St -> list nat -> list nat) (dfuel mxw : nat).
Hypothesis SE : setting P I rank N srt dfuel mxw.
Variable lim : nat -> bool.
Variable p0 : Z.
Hypothesis Hp0 : be P p0 (sentinel P).
Lemma loop_limited K : lim K = true -> forall fuel k s, sinv P p0 s -> (k <= K)%nat -> (K < k + fuel)%nat -> exists s' e, bb_loop P srt dfuel lim fuel mxw k s = Ok (s', e).
Proof.
  intros LK. destruct SE as [A1 A2 A3 A4 A5 A6 A7]. induction fuel as [|fuel IH]; intros k s V Hk F; [lia|]. cbn [bb_loop].
  destruct (heap_empty (s_pq s)) eqn:H0; [eauto|].
  destruct (extractMax_some (q_ord P) (s_pq s)) as (q & h & EX); [apply (i_heap _ _ _ V)| |].
  { intros H. apply (empty_elems (s_pq s)) in H; [|apply (i_heap _ _ _ V)]. congruence. }
  rewrite EX. destruct (lim k) eqn:Lk; [eauto|]. destruct (popped_ok P p0 s q h V EX) as (V1 & _ & Hq & _).
  destruct (bb_node_ok P I rank N A1 A3 A4 srt A5 dfuel A6 mxw A7 p0 Hp0 (popped s q h) q V1 Hq) as (s1 & -> & V2 & _). cbn [bind].
  assert (k <> K) by congruence. apply IH; auto; lia.
Qed.
End Limit.
Lemma loop_reason {St} (P : prob St) srt dfuel mxw lim : forall fuel k s s' q, bb_loop P srt dfuel lim fuel mxw k s = Ok (s', Limited q) ->
  exists j, (k <= j < k + fuel)%nat /\ lim j = true /\ forall i, (k <= i < j)%nat -> lim i = false.
Proof.
  induction fuel as [|fuel IH]; intros k s s' q; cbn [bb_loop].
  - destruct (heap_empty (s_pq s)); discriminate.
  - destruct (heap_empty (s_pq s)); [discriminate|]. destruct (heap_extractMax (q_ord P) (s_pq s)) as [[q' h]|]; [|discriminate].
    destruct (lim k) eqn:L; [intros _; exists k; csplit; auto; lia|]. intros H. apply bind_ok in H as (s1 & _ & H). destruct (IH _ _ _ _ H) as (j & A & B & C).
    exists j. csplit; auto; try lia. intros i Hi. destruct (Nat.eq_dec i k) as [->|]; auto. apply C. lia.
Qed.
Theorem limit_ends {St} (P : prob St) I rank N srt dfuel mxw : setting P I rank N srt dfuel mxw -> forall user, let p0 := match user with Some p => p | None => sentinel P end in
  be P p0 (sentinel P) -> forall T start clk K, 1 <= T -> start + T * 1000000 <= clk K ->
  exists s e, search P srt dfuel (ck_limit T start clk) (S K) mxw user = Ok (s, e).
Proof.
  intros SE user p0 Hp T start clk K HT HK. unfold search. apply (limit_iff T start clk K HT) in HK.
  assert (E : p0 = b_primal (attach P user)) by (unfold p0, attach; destruct user; reflexivity).
  apply (loop_limited P I rank N srt dfuel mxw SE (ck_limit T start clk) p0 Hp K HK); try lia.
  rewrite E. destruct SE as [A1 A2 A3 A4 A5 A6 A7]. exact (start_inv P N A2 dfuel A6 (ck_limit T start clk) mxw A7 user).
Qed.
Theorem limit_reason {St} (P : prob St) srt dfuel mxw user T start clk fuel s q : 1 <= T -> search P srt dfuel (ck_limit T start clk) fuel mxw user = Ok (s, Limited q) ->
  exists k, (k < fuel)%nat /\ start + T * 1000000 <= clk k /\ forall i, (i < k)%nat -> clk i < start + T * 1000000.
Proof.
  intros HT H. apply loop_reason in H as (j & A & B & C). exists j. csplit; [lia|now apply (limit_iff T start clk j HT)|].
  intros i Hi. specialize (C i ltac:(lia)). destruct (Z_lt_ge_dec (clk i) (start + T * 1000000)); auto.
  assert (ck_limit T start clk i = true) by (apply limit_iff; [auto|lia]). congruence.
Qed.

(** ** labels that read the primal bound (SearchDyn.v), as in the programs that set a limit *)
Lemma loopD_limited {St} (P : prob St) lab I rank N srt dfuel mxw lim p0 K : setting P I rank N srt dfuel mxw -> dyn_ok P lab p0 I rank N -> be P p0 (sentinel P) -> lim K = true ->
  forall fuel k s, sinv P p0 s -> (k <= K)%nat -> (K < k + fuel)%nat -> exists s' e, bb_loopD P lab srt dfuel lim fuel mxw k s = Ok (s', e).
Proof.
  intros [A1 A2 A3 A4 A5 A6 A7] DY Hp0 LK. induction fuel as [|fuel IH]; intros k s V Hk F; [lia|]. cbn [bb_loopD].
  destruct (heap_empty (s_pq s)) eqn:H0; [eauto|].
  destruct (extractMax_some (q_ord P) (s_pq s)) as (q & h & EX); [apply (i_heap _ _ _ V)| |].
  { intros H. apply (empty_elems (s_pq s)) in H; [|apply (i_heap _ _ _ V)]. congruence. }
  rewrite EX. destruct (lim k) eqn:Lk; [eauto|]. destruct (popped_ok P p0 s q h V EX) as (V1 & _ & Hq & _).
  destruct (bb_nodeD_ok P lab I rank N A1 A3 A4 srt A5 dfuel A6 mxw A7 p0 DY Hp0 (popped s q h) q V1 Hq) as (s1 & -> & V2 & _). cbn [bind].
  assert (k <> K) by congruence. apply IH; auto; lia.
Qed.
Lemma loopD_reason {St} (P : prob St) lab srt dfuel mxw lim : forall fuel k s s' q, bb_loopD P lab srt dfuel lim fuel mxw k s = Ok (s', Limited q) ->
  exists j, (k <= j < k + fuel)%nat /\ lim j = true /\ forall i, (k <= i < j)%nat -> lim i = false.
Proof.
  induction fuel as [|fuel IH]; intros k s s' q; cbn [bb_loopD].
  - destruct (heap_empty (s_pq s)); discriminate.
  - destruct (heap_empty (s_pq s)); [discriminate|]. destruct (heap_extractMax (q_ord P) (s_pq s)) as [[q' h]|]; [|discriminate].
    destruct (lim k) eqn:L; [intros _; exists k; csplit; auto; lia|]. intros H. apply bind_ok in H as (s1 & _ & H). destruct (IH _ _ _ _ H) as (j & A & B & C).
    exists j. csplit; auto; try lia. intros i Hi. destruct (Nat.eq_dec i k) as [->|]; auto. apply C. lia.
Qed.
Theorem limitD_ends {St} (P : prob St) lab I rank N srt dfuel mxw : setting P I rank N srt dfuel mxw -> forall user, be P (start_bound P user) (sentinel P) ->
  dyn_ok P lab (start_bound P user) I rank N -> forall T start clk K, 1 <= T -> start + T * 1000000 <= clk K ->
  exists s e, searchD P lab srt dfuel (ck_limit T start clk) (S K) mxw user = Ok (s, e).
Proof.
  intros SE user Hp DY T start clk K HT HK. unfold searchD. apply (limit_iff T start clk K HT) in HK.
  assert (E : start_bound P user = b_primal (attach P user)) by (unfold start_bound, attach; destruct user; reflexivity).
  apply (loopD_limited P lab I rank N srt dfuel mxw (ck_limit T start clk) (start_bound P user) K SE DY Hp HK); try lia.
  rewrite E. destruct SE as [A1 A2 A3 A4 A5 A6 A7]. exact (start_inv P N A2 dfuel A6 (ck_limit T start clk) mxw A7 user).
Qed.
Theorem limitD_reason {St} (P : prob St) lab srt dfuel mxw user T start clk fuel s q : 1 <= T -> searchD P lab srt dfuel (ck_limit T start clk) fuel mxw user = Ok (s, Limited q) ->
  exists k, (k < fuel)%nat /\ start + T * 1000000 <= clk k /\ forall i, (i < k)%nat -> clk i < start + T * 1000000.
Proof.
  intros HT H. apply loopD_reason in H as (j & A & B & C). exists j. csplit; [lia|now apply (limit_iff T start clk j HT)|].
  intros i Hi. specialize (C i ltac:(lia)). destruct (Z_lt_ge_dec (clk i) (start + T * 1000000)); auto.
  assert (ck_limit T start clk i = true) by (apply limit_iff; [auto|lia]). congruence.
Qed.
