(** The progress lines of branch and bound (C86) *)
From Verif Require Import Base HeapModel HeapProofs DDModel DDSpec DDFrame SearchModel SearchProofs ProgressModel.
From Coq Require Import QArith Qabs Sorted.
Local Open Scope nat_scope.

Section Same.
Context {St : Type} (P : prob St) (srt : dd St -> list nat -> list nat) (dfuel : nat) (lim late : nat -> bool).
Lemma bb_nodeP_eq mxw s q : (do (s1, _) <- bb_nodeP P srt dfuel mxw s q ; Ok s1) = bb_node P srt dfuel mxw s q.
Proof.
  unfold bb_nodeP, bb_node. cbn zeta. destruct (negb _); [reflexivity|].
  destruct (apply P srt dfuel (SRelaxed (s_w s)) (s_relaxed s) _ (s_b s)) as [[[d1 b1] db]|]; cbn [bind]; auto.
  destruct db; [|reflexivity]. destruct (apply P srt dfuel (SRestricted mxw) (s_restr s) _ b1) as [[[d2 b2] pb]|]; cbn [bind]; auto.
  destruct (negb _ && negb _); [|reflexivity]. destruct (computeCutSet d1) as [cs|]; cbn [bind]; auto.
  destruct (cut_loop P d1 _ cs); reflexivity.
Qed.
Lemma bb_nodeP_ok mxw s q s1 b : bb_nodeP P srt dfuel mxw s q = Ok (s1, b) -> bb_node P srt dfuel mxw s q = Ok s1.
Proof. intros E. rewrite <- bb_nodeP_eq, E. reflexivity. Qed.
Lemma bb_loopP_eq : forall fuel mxw k better s,
  (do (r, _) <- bb_loopP P srt dfuel lim late fuel mxw k better s ; Ok r) = bb_loop P srt dfuel lim fuel mxw k s.
Proof.
  induction fuel as [|f IH]; intros mxw k better s; cbn [bb_loopP bb_loop]; destruct (heap_empty (s_pq s)); auto.
  destruct (heap_extractMax (q_ord P) (s_pq s)) as [[q h]|]; auto. destruct (lim k); auto.
  rewrite <- (bb_nodeP_eq mxw (popped s q h) q). destruct (bb_nodeP P srt dfuel mxw (popped s q h) q) as [[s1 b1]|]; cbn [bind]; auto.
  rewrite <- (IH mxw (S k) b1 s1). destruct (bb_loopP P srt dfuel lim late f mxw (S k) b1 s1) as [[[s2 e] ls]|]; reflexivity.
Qed.
Lemma searchP_eq fuel mxw user : (do (r, _) <- searchP P srt dfuel lim late fuel mxw user ; Ok r) = search P srt dfuel lim fuel mxw user.
Proof. apply bb_loopP_eq. Qed.
End Same.

(** number of diagrams built never decreases *)
Section Count.
Context {St : Type} (P : prob St) (srt : dd St -> list nat -> list nat) (dfuel : nat).
Lemma cut_step_n d s i s' : cut_step P d s i = Ok s' -> s_nNode s' = s_nNode s.
Proof.
  unfold cut_step. cbn zeta. destruct (negb _); [intros E; injection E as <-; reflexivity|].
  intros E. apply bind_ok in E as ([[h k] dm] & _ & E). destruct dm; [injection E as <-; reflexivity|].
  destruct (cloneNode P (s_pool s) (d_nd d i)); injection E as <-; reflexivity.
Qed.
Lemma cut_loop_n d : forall cs s s', cut_loop P d s cs = Ok s' -> s_nNode s' = s_nNode s.
Proof.
  induction cs as [|i cs IH]; intros s s' E; cbn [cut_loop] in E; [injection E as <-; auto|]. apply bind_ok in E as (s1 & E1 & E).
  rewrite (IH _ _ E). eapply cut_step_n; eauto.
Qed.
Lemma bb_node_n mxw s q s' : bb_node P srt dfuel mxw s q = Ok s' -> s_nNode s' = if isBetter P (snd q) (b_primal (s_b s)) then S (s_nNode s) else s_nNode s.
Proof.
  unfold bb_node. cbn zeta. destruct (isBetter P (snd q) (b_primal (s_b s))); cbn [negb]; [|intros E; injection E as <-; reflexivity].
  intros E. apply bind_ok in E as ([[d1 b1] db] & _ & E). destruct db; [|injection E as <-; reflexivity].
  apply bind_ok in E as ([[d2 b2] pb] & _ & E). destruct (negb _ && negb _); [|injection E as <-; reflexivity].
  apply bind_ok in E as (cs & _ & E). now rewrite (cut_loop_n _ _ _ _ E).
Qed.
End Count.

(** the clock only adds lines, and when it always strikes there is a line for every extraction *)
Section Clock.
Context {St : Type} (P : prob St) (srt : dd St -> list nat -> list nat) (dfuel : nat) (lim late : nat -> bool).
Inductive sub : list pline -> list pline -> Prop :=
| sub_nil : sub [] []
| sub_skip x a b : sub a b -> sub a (x :: b)
| sub_keep x a b : sub a b -> sub (x :: a) (x :: b).
Lemma bb_loopP_sub : forall fuel mxw k better s s' e ls, bb_loopP P srt dfuel lim late fuel mxw k better s = Ok (s', e, ls) ->
  exists ls0, bb_loopP P srt dfuel lim (fun _ => false) fuel mxw k better s = Ok (s', e, ls0) /\ sub ls0 ls.
Proof.
  induction fuel as [|f IH]; intros mxw k better s s' e ls E; cbn [bb_loopP] in E |- *; destruct (heap_empty (s_pq s)); try discriminate;
    try (injection E as <- <- <-; eexists; split; [reflexivity|constructor]).
  destruct (heap_extractMax (q_ord P) (s_pq s)) as [[q h]|]; [|discriminate]. destruct (lim k); [injection E as <- <- <-; eexists; split; [reflexivity|constructor]|].
  apply bind_ok in E as ([s1 b1] & E1 & E). apply bind_ok in E as ([[s2 e2] ls2] & E2 & E). injection E as <- <- <-. rewrite E1. cbn [bind].
  destruct (IH _ _ _ _ _ _ _ E2) as (ls0 & E0 & S0). rewrite E0. cbn [bind]. eexists. split; [reflexivity|]. rewrite orb_false_r.
  destruct better; cbn [orb app]; [now constructor|]. destruct (late k); cbn [app]; auto. now constructor.
Qed.
Lemma bb_node_ttl mxw s q s' : bb_node P srt dfuel mxw s q = Ok s' -> s_ttl s' = S (s_ttl s).
Proof.
  assert (C : forall d cs s s', cut_loop P d s cs = Ok s' -> s_ttl s' = s_ttl s).
  { intros d. induction cs as [|i cs IH]; intros s0 s0' E; cbn [cut_loop] in E; [injection E as <-; auto|]. apply bind_ok in E as (s1 & E1 & E).
    rewrite (IH _ _ E). unfold cut_step in E1. cbn zeta in E1. destruct (negb _); [injection E1 as <-; reflexivity|].
    apply bind_ok in E1 as ([[h k] dm] & _ & E1). destruct dm; [injection E1 as <-; reflexivity|].
    destruct (cloneNode P (s_pool s0) (d_nd d i)); injection E1 as <-; reflexivity. }
  unfold bb_node. cbn zeta. destruct (negb _); [intros E; injection E as <-; reflexivity|].
  intros E. apply bind_ok in E as ([[d1 b1] db] & _ & E). destruct db; [|injection E as <-; reflexivity].
  apply bind_ok in E as ([[d2 b2] pb] & _ & E). destruct (negb _ && negb _); [|injection E as <-; reflexivity].
  apply bind_ok in E as (cs & _ & E). apply C in E. rewrite E. reflexivity.
Qed.
Lemma bb_loopP_all : (forall k, late k = true) -> forall fuel mxw k better s s' e ls, bb_loopP P srt dfuel lim late fuel mxw k better s = Ok (s', e, ls) ->
  length ls + s_ttl s = s_ttl s'.
Proof.
  intros LT. induction fuel as [|f IH]; intros mxw k better s s' e ls E; cbn [bb_loopP] in E; destruct (heap_empty (s_pq s)); try discriminate;
    try (injection E as <- <- <-; reflexivity).
  destruct (heap_extractMax (q_ord P) (s_pq s)) as [[q h]|]; [|discriminate]. destruct (lim k); [injection E as <- <- <-; reflexivity|].
  apply bind_ok in E as ([s1 b1] & E1 & E). apply bind_ok in E as ([[s2 e2] ls2] & E2 & E). injection E as <- <- <-. apply bb_nodeP_ok in E1. apply bb_node_ttl in E1.
  apply IH in E2. rewrite LT, orb_true_r. cbn [app length popped s_ttl] in *. lia.
Qed.
End Clock.

Section Lines.
Context {St : Type} (P : prob St) (I : St -> Prop) (rank : St -> nat) (N : nat).
Hypothesis VM : valid_model P I rank N.
Hypothesis HI : I (p_init P).
Hypothesis Hrange : in_range P (p_init P) 0.
Variable srt : dd St -> list nat -> list nat.
Hypothesis Hsrt : forall d l, Permutation (srt d l) l.
Variable dfuel : nat.
Hypothesis Hfuel : N + 1 < dfuel.
Variable mxw : nat.
Hypothesis Hmxw : (N.of_nat mxw < 4294967296)%N.
Variable p0 : Z.
Hypothesis Hp0 : be P p0 (sentinel P).
Variables lim late : nat -> bool.

(** the dual column bounds what the primal column does not reach *)
Definition line_bounds (V : Z) (l : pline) : Prop :=
  be P (pl_primal l) V \/ match pl_dual l with Some d => be P d V | None => be P (initialWorst P) V end.
(** the primal column is the cost of a solution, or the bound given at the start *)
Definition line_primal (l : pline) : Prop := pl_primal l = p0 \/ solution P (p_init P) 0 (pl_primal l) /\ bt P (pl_primal l) p0.
Definition line_le (a b : pline) : Prop := pl_n a <= pl_n b /\ be P (pl_primal b) (pl_primal a).

Lemma sinv_primal s : sinv P p0 s -> b_primal (s_b s) = p0 \/ solution P (p_init P) 0 (b_primal (s_b s)) /\ bt P (b_primal (s_b s)) p0.
Proof.
  intros V. destruct (i_log _ _ _ V) as (vs & A1 & A2 & A3 & A4 & A5). rewrite A4. destruct A1 as [|x v l vs G A1]; cbn; auto. right.
  inversion A3; subst. split; auto. destruct G as (ls & v' & _ & -> & Pt). exists v'. split; auto. exists ls; auto.
Qed.
Lemma head_bounds s q h V : sinv P p0 s -> keys_ok P s -> held P s V -> heap_extractMax (q_ord P) (s_pq s) = Some (q, h) -> be P (b_primal (s_b s)) V \/ be P (snd q) V.
Proof.
  intros I1 K [H|(x & Hx & (v & Cv & Bv))] E; auto.
  destruct (isBetter P (n_bound (pool_node P (s_pool s) (fst x)) + v) (b_primal (s_b s))) eqn:C.
  - apply isBetter_bt in C. pose proof (K x Hx v Cv C) as KV. right.
    destruct (extractMax_ok _ (q_ord_swo P) _ _ _ (i_heap _ _ _ I1) E) as (_ & _ & Mn).
    unfold entries in Hx. apply in_map_iff in Hx as ([l x'] & Ex & Hx). cbn in Ex. subst x'. apply Mn in Hx. unfold q_ord in Hx. apply isBetter_nbt in Hx. vlia.
  - apply isBetter_nbt in C. left. vlia.
Qed.

(** the flag of apply on a restricted diagram: raised exactly when the primal improves *)
Lemma apply_flag w d from b d2 b2 pb : apply P srt dfuel (SRestricted w) d from b = Ok (d2, b2, pb) ->
  if pb then bt P (b_primal b2) (b_primal b) else b2 = b.
Proof.
  unfold apply. intros E. apply bind_ok in E as (d1 & _ & E). apply bind_ok in E as (t & Et & E). destruct (isBetter P (n_bound t) (b_primal b)) eqn:C.
  - apply bind_ok in E as (b1 & Eb & E). injection E as <- <- <-. unfold update in Eb. rewrite Et in Eb. cbn [bind st_primal st_dual orb andb] in Eb.
    injection Eb as <-. cbn. unfold better. rewrite C. now apply isBetter_bt.
  - injection E as <- <- <-. reflexivity.
Qed.
Lemma cut_loop_b d : forall cs s s', cut_loop P d s cs = Ok s' -> s_b s' = s_b s.
Proof.
  induction cs as [|i cs IH]; intros s s' E; cbn [cut_loop] in E; [injection E as <-; auto|]. apply bind_ok in E as (s1 & E1 & E).
  rewrite (IH _ _ E). unfold cut_step in E1. cbn zeta in E1. destruct (negb _); [injection E1 as <-; reflexivity|].
  apply bind_ok in E1 as ([[h k] dm] & _ & E1). destruct dm; [injection E1 as <-; reflexivity|].
  destruct (cloneNode P (s_pool s) (d_nd d i)); injection E1 as <-; reflexivity.
Qed.
Lemma bb_nodeP_flag s q s1 : sinv P p0 s -> fst q < length (s_pool s) -> bb_nodeP P srt dfuel mxw s q = Ok (s1, true) -> bt P (b_primal (s_b s1)) (b_primal (s_b s)).
Proof.
  intros V Hq E. assert (Nf : node_ok P (pool_node P (s_pool s) (fst q))) by (pose proof (i_pool _ _ _ V) as FP; rewrite Forall_forall in FP; apply FP; now apply pool_node_in). unfold bb_nodeP in E. cbn zeta in E. destruct (negb _); [discriminate|].
  destruct (i_log _ _ _ V) as (vs & L).
  apply bind_ok in E as ([[d1 b1] db] & E1 & E).
  destruct (apply_relaxed P I rank N VM HI Hrange srt Hsrt dfuel Hfuel mxw Hmxw p0 Hp0 (s_w s) (s_relaxed s) _ (s_b s) vs Nf L) as (d1' & b1' & db' & vs1 & E1' & L1 & P1 & _).
  rewrite E1 in E1'. injection E1' as <- <- <-. destruct db; [|discriminate].
  apply bind_ok in E as ([[d2 b2] pb] & E2 & E). apply apply_flag in E2.
  assert (X : pb = true -> bt P (b_primal b2) (b_primal (s_b s))). { intros ->. vlia. }
  destruct (negb _ && negb _).
  - apply bind_ok in E as (cs & _ & E). apply bind_ok in E as (s2 & E3 & E). injection E as <- Ep. apply cut_loop_b in E3. rewrite E3. cbn. auto.
  - injection E as <- Ep. cbn. auto.
Qed.

Lemma bb_loopP_lines : forall fuel k better s s' e ls, sinv P p0 s -> at_head s -> bb_loopP P srt dfuel lim late fuel mxw k better s = Ok (s', e, ls) ->
  Forall line_primal ls /\ StronglySorted line_le ls /\
  Forall (fun l => s_nNode s <= pl_n l <= s_nNode s' /\ be P (pl_primal l) (b_primal (s_b s)) /\ be P (b_primal (s_b s')) (pl_primal l)) ls /\
  (valid_qdom P I -> keys_ok P s -> s_seen s' = s_seen s -> hist_ok P s' -> forall V, held P s V -> Forall (line_bounds V) ls).
Proof.
  induction fuel as [|f IH]; intros k better s s' e ls V A E; cbn [bb_loopP] in E.
  - destruct (heap_empty (s_pq s)); [|discriminate]. injection E as <- <- <-. csplit; try constructor.
  - destruct (heap_empty (s_pq s)) eqn:H0; [injection E as <- <- <-; csplit; constructor|].
    destruct (heap_extractMax (q_ord P) (s_pq s)) as [[q h]|] eqn:EX; [|discriminate].
    destruct (popped_ok P p0 s q h V EX) as (V1 & Pm & Hq & K1 & C1).
    destruct (lim k); [injection E as <- <- <-; csplit; constructor|].
    apply bind_ok in E as ([s1 b1] & E1 & E). apply bind_ok in E as ([[s2 e2] ls2] & E2 & E). injection E as <- <- <-.
    apply bb_nodeP_ok in E1. pose proof (bb_node_n P srt dfuel mxw _ _ _ E1) as NN.
    destruct (bb_node_ok P I rank N VM HI Hrange srt Hsrt dfuel Hfuel mxw Hmxw p0 Hp0 (popped s q h) q V1 Hq) as (s1' & E1' & V2 & F2 & K2 & C2).
    rewrite E1 in E1'. injection E1' as <-.
    assert (A2 : at_head s1) by (unfold at_head; rewrite (nf_out _ _ _ F2), (nf_ttl _ _ _ F2); cbn; now rewrite <- A).
    pose proof (bb_loopP_eq P srt dfuel lim late f mxw (S k) b1 s1) as EQ. rewrite E2 in EQ. cbn [bind] in EQ. symmetry in EQ.
    destruct (bb_loop_ok P I rank N VM HI Hrange srt Hsrt dfuel Hfuel mxw Hmxw p0 Hp0 lim f (S k) s1 s2 e2 V2 A2 EQ) as (V3 & _ & P3 & S3 & (x & X3) & _).
    destruct (IH (S k) b1 s1 s2 e2 ls2 V2 A2 E2) as (L1 & L2 & L3 & L4).
    assert (NL : s_nNode s <= s_nNode s1) by (rewrite NN; cbn; destruct (isBetter _ _ _); lia).
    pose proof (nf_primal _ _ _ F2) as Q. cbn [popped s_b] in Q. pose proof (nf_seen _ _ _ F2) as Sn. cbn [popped s_seen] in Sn.
    assert (NS : s_nNode s1 <= s_nNode s2).
    { clear - EQ. revert f k s1 EQ. induction f as [|f IHf]; intros k s1 EQ; cbn [bb_loop] in EQ; destruct (heap_empty (s_pq s1)); try discriminate; try (injection EQ as <- <-; lia).
      destruct (heap_extractMax (q_ord P) (s_pq s1)) as [[q h]|]; [|discriminate]. destruct (lim (S k)); [injection EQ as <- <-; cbn; lia|].
      apply bind_ok in EQ as (s3 & E3 & EQ). apply bb_node_n in E3. apply IHf in EQ. cbn in E3. destruct (isBetter _ _ _); lia. }
    assert (G3 : Forall (fun l => s_nNode s <= pl_n l <= s_nNode s2 /\ be P (pl_primal l) (b_primal (s_b s)) /\ be P (b_primal (s_b s2)) (pl_primal l)) ls2).
    { eapply Forall_impl; [|exact L3]. intros l (B1 & B2 & B3). split; [lia|]. split; [vlia|auto]. }
    assert (G4 : valid_qdom P I -> keys_ok P s -> s_seen s2 = s_seen s -> hist_ok P s2 -> forall V0, held P s V0 -> Forall (line_bounds V0) ls2).
    { intros QD K Es HH V0 HV. destruct (K1 K) as [K1a K1b].
      assert (HH1 : hist_ok P s1). { intros d p Hd. apply HH. rewrite X3. apply in_or_app. auto. }
      apply L4; auto; [lia|]. apply C2; auto; cbn; lia. }
    assert (W : forall pr : Prop, pr -> pr) by auto.
    destruct (better || late k); cbn [app]; [|csplit; auto].
    csplit.
    + constructor; auto. unfold line_primal, progress. cbn [pl_primal]. now apply sinv_primal.
    + constructor; auto. eapply Forall_impl; [|exact L3]. intros l (B1 & B2 & B3). unfold line_le, progress. cbn [pl_n pl_primal]. split; [lia|vlia].
    + constructor; auto. unfold progress. cbn [pl_n pl_primal]. split; [lia|]. split; [apply be_refl|vlia].
    + intros QD K Es HH V0 HV. constructor; [|now apply G4]. unfold line_bounds, progress. cbn [pl_primal pl_dual].
      destruct (head_bounds s q h V0 V K HV EX) as [B|B]; auto. right. destruct (Z.eqb_spec (snd q) (initialWorst P)) as [Eq|_]; auto. now rewrite <- Eq.
Qed.
(** without the lines forced by the clock every line shows a better primal than the one before *)
Lemma bb_loopP_strict : (forall k, late k = false) -> forall fuel k better s s' e ls, sinv P p0 s -> at_head s ->
  bb_loopP P srt dfuel lim late fuel mxw k better s = Ok (s', e, ls) ->
  StronglySorted (fun a b => bt P (pl_primal b) (pl_primal a)) ls /\
  forall p, be P (b_primal (s_b s)) p -> (better = true -> bt P (b_primal (s_b s)) p) -> Forall (fun l => bt P (pl_primal l) p) ls.
Proof.
  intros NL. induction fuel as [|f IH]; intros k better s s' e ls V A E; cbn [bb_loopP] in E.
  - destruct (heap_empty (s_pq s)); [|discriminate]. injection E as <- <- <-. split; constructor.
  - destruct (heap_empty (s_pq s)) eqn:H0; [injection E as <- <- <-; split; constructor|].
    destruct (heap_extractMax (q_ord P) (s_pq s)) as [[q h]|] eqn:EX; [|discriminate].
    destruct (popped_ok P p0 s q h V EX) as (V1 & Pm & Hq & _).
    destruct (lim k); [injection E as <- <- <-; split; constructor|].
    apply bind_ok in E as ([s1 b1] & E1 & E). apply bind_ok in E as ([[s2 e2] ls2] & E2 & E). injection E as <- <- <-.
    assert (FL : b1 = true -> bt P (b_primal (s_b s1)) (b_primal (s_b s))) by (intros ->; exact (bb_nodeP_flag (popped s q h) q s1 V1 Hq E1)).
    apply bb_nodeP_ok in E1.
    destruct (bb_node_ok P I rank N VM HI Hrange srt Hsrt dfuel Hfuel mxw Hmxw p0 Hp0 (popped s q h) q V1 Hq) as (s1' & E1' & V2 & F2 & _).
    rewrite E1 in E1'. injection E1' as <-.
    assert (A2 : at_head s1) by (unfold at_head; rewrite (nf_out _ _ _ F2), (nf_ttl _ _ _ F2); cbn; now rewrite <- A).
    destruct (IH (S k) b1 s1 s2 e2 ls2 V2 A2 E2) as (L1 & L2).
    pose proof (nf_primal _ _ _ F2) as Q. cbn [popped s_b] in Q. rewrite NL, orb_false_r.
    split.
    + destruct better; cbn [app]; auto. constructor; [auto|]. unfold progress. cbn [pl_primal]. apply L2; auto.
    + intros p Hp Hb. apply Forall_app. split.
      * destruct better; constructor; [|constructor]. unfold progress. cbn [pl_primal]. auto.
      * apply L2; [vlia|]. intros Hb1. specialize (FL Hb1). vlia.
Qed.
End Lines.

Section Whole.
Context {St : Type} (P : prob St) (I : St -> Prop) (rank : St -> nat) (N : nat) (srt : dd St -> list nat -> list nat) (dfuel mxw : nat).
Hypothesis SE : setting P I rank N srt dfuel mxw.
Variables lim late : nat -> bool.
Variable user : option Z.
Let p0 := match user with Some p => p | None => sentinel P end.
Hypothesis Hp0 : be P p0 (sentinel P).
Variables (fuel : nat) (s : @sst St) (e : ending) (ls : list pline).
Hypothesis E : searchP P srt dfuel lim late fuel mxw user = Ok (s, e, ls).
Lemma lines_facts : Forall (line_primal P p0) ls /\ StronglySorted (line_le P) ls /\ Forall (fun l => be P (b_primal (s_b s)) (pl_primal l) /\ pl_n l <= s_nNode s) ls /\
  (valid_qdom P I -> (forall V, solution P (p_init P) 0 V -> be P (initialWorst P) V) -> s_seen s = 0 -> hist_ok P s ->
    forall V, solution P (p_init P) 0 V -> Forall (line_bounds P V) ls).
Proof.
  destruct SE as [A1 A2 A3 A4 A5 A6 A7]. assert (p0 = b_primal (attach P user)) as Ep by (unfold p0, attach; destruct user; reflexivity).
  assert (Hp : be P (b_primal (attach P user)) (sentinel P)) by (now rewrite <- Ep).
  unfold searchP in E. rewrite Ep.
  destruct (bb_loopP_lines P I rank N A1 A3 A4 srt A5 dfuel A6 mxw A7 (b_primal (attach P user)) Hp lim late fuel 0 false (bb_start P mxw user) s e ls) as (B1 & B2 & B3 & B4); auto.
  { eapply start_inv; eauto. }
  { eapply at_head_start; eauto. }
  csplit; auto.
  - eapply Forall_impl; [|exact B3]. intros l (C1 & C2 & C3). split; [auto|lia].
  - intros QD HL Es HH V SV. apply B4; auto.
    + eapply start_keys; eauto.
    + now apply start_held.
Qed.
Lemma lines_strict : (forall k, late k = false) -> StronglySorted (fun a b => bt P (pl_primal b) (pl_primal a)) ls /\ Forall (fun l => bt P (pl_primal l) p0) ls.
Proof.
  intros NL. destruct SE as [A1 A2 A3 A4 A5 A6 A7]. assert (p0 = b_primal (attach P user)) as Ep by (unfold p0, attach; destruct user; reflexivity).
  assert (Hp : be P (b_primal (attach P user)) (sentinel P)) by (now rewrite <- Ep).
  unfold searchP in E. rewrite Ep.
  destruct (bb_loopP_strict P I rank N A1 A3 A4 srt A5 dfuel A6 mxw A7 (b_primal (attach P user)) Hp lim late NL fuel 0 false (bb_start P mxw user) s e ls) as (B1 & B2); auto.
  { eapply start_inv; eauto. }
  { eapply at_head_start; eauto. }
  split; auto. apply B2; [apply be_refl|discriminate].
Qed.
End Whole.

(** ** the gap column *)
Local Open Scope Q_scope.
Lemma gap_min p d V g : (0 < p)%Z -> gap_of p d = Pct g -> (d <= V <= p)%Z -> inject_Z (p - V) <= g / 100 * inject_Z p.
Proof.
  intros Hp Eg B. unfold gap_of in Eg. destruct (Z.eqb_spec p 0) as [->|Np]; [lia|]. destruct (Qlt_le_dec 100 _); [discriminate|]. injection Eg as <-.
  assert (Pq : ~ inject_Z p == 0) by (unfold Qeq; cbn; lia).
  assert (EQ : inject_Z (100 * Z.abs (p - d)) / inject_Z p / 100 * inject_Z p == inject_Z (Z.abs (p - d))).
  { rewrite inject_Z_mult. change (inject_Z 100) with 100. field. auto. }
  rewrite EQ. rewrite <- Zle_Qle. lia.
Qed.
Lemma gap_max p d V g : (0 < p)%Z -> gap_of p d = Pct g -> (p <= V <= d)%Z -> inject_Z (V - p) <= g / 100 * inject_Z p.
Proof.
  intros Hp Eg B. unfold gap_of in Eg. destruct (Z.eqb_spec p 0) as [->|Np]; [lia|]. destruct (Qlt_le_dec 100 _); [discriminate|]. injection Eg as <-.
  assert (Pq : ~ inject_Z p == 0) by (unfold Qeq; cbn; lia).
  assert (EQ : inject_Z (100 * Z.abs (p - d)) / inject_Z p / 100 * inject_Z p == inject_Z (Z.abs (p - d))).
  { rewrite inject_Z_mult. change (inject_Z 100) with 100. field. auto. }
  rewrite EQ. rewrite <- Zle_Qle. lia.
Qed.
Lemma gap_negative p d : (p < 0)%Z -> exists g, gap_of p d = Pct g /\ g <= 0 /\ (d <> p -> g < 0).
Proof.
  intros Hp. unfold gap_of. destruct (Z.eqb_spec p 0) as [->|Np]; [lia|].
  set (g := inject_Z (100 * Z.abs (p - d)) / inject_Z p).
  assert (Eg : g * inject_Z p == inject_Z (100 * Z.abs (p - d))) by (unfold g; field; unfold Qeq; cbn; lia).
  assert (G0 : g <= 0).
  { destruct (Qlt_le_dec 0 g) as [L|L]; [|auto]. exfalso.
    assert (X : g * inject_Z p < 0). { setoid_replace 0 with (g * 0) by ring. apply Qmult_lt_l; auto. change 0 with (inject_Z 0). rewrite <- Zlt_Qlt. lia. }
    rewrite Eg in X. change 0 with (inject_Z 0) in X. rewrite <- Zlt_Qlt in X. lia. }
  destruct (Qlt_le_dec 100 g) as [L|L]. { exfalso. apply (Qlt_not_le 100 g L). eapply Qle_trans; [exact G0|]. discriminate. }
  exists g. split; [reflexivity|]. split; [exact G0|]. intros Nd. apply Qle_lt_or_eq in G0 as [G|G]; auto. exfalso.
  rewrite G in Eg. rewrite Qmult_0_l in Eg. change 0 with (inject_Z 0) in Eg. apply (proj1 (inject_Z_injective _ _)) in Eg. lia.
Qed.
