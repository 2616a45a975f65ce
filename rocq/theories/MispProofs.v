(** The MISP examples: their closures are valid and their solutions are independent sets. *)
From Verif Require Import Base DDModel DDSpec DDFrame DDRestricted DDExact SearchModel SearchProofs TspModel TspProofs MispModel MispSpec.
From Coq Require Import NArith Nnat Sorting.Sorted.

(** ** sets *)
Lemma bempty_spec s : (s =? 0)%N = true <-> forall v, bmem s v = false.
Proof.
  rewrite N.eqb_eq. split; [intros ->; apply bmem_0|]. intros H. apply bmem_ext. intros v. now rewrite H, bmem_0.
Qed.
Lemma bnonempty_spec s : (s =? 0)%N = false -> exists v, bmem s v = true.
Proof.
  intros H. exists (N.to_nat (N.log2 s)). unfold bmem. rewrite N2Nat.id. apply N.bit_log2. intros ->. discriminate.
Qed.
Lemma bof_spec l v : bmem (bof l) v = true <-> In v l.
Proof.
  unfold bof. assert (H : forall s, bmem (fold_left badd l s) v = true <-> In v l \/ bmem s v = true).
  { induction l as [|a l IH]; intros s; cbn [fold_left In]; [tauto|]. rewrite IH, bmem_add, orb_true_iff, Nat.eqb_eq. tauto. }
  rewrite H, bmem_0. split; [intros [?|?]; [auto|discriminate]|auto].
Qed.
Lemma bfrom_spec p s v : bmem (bfrom p s) v = true <-> bmem s v = true /\ (p <= Z.of_nat v)%Z.
Proof.
  unfold bfrom. rewrite bmem_diff, bmem_full, andb_true_iff, negb_true_iff, Nat.ltb_ge. intuition lia.
Qed.
Lemma zmem_spec s v : zmem s v = true <-> (0 <= v)%Z /\ bmem s (Z.to_nat v) = true.
Proof. unfold zmem. rewrite andb_true_iff, Z.leb_le. tauto. Qed.
Lemma badj_spec es i j : existsb (fun e => ((fst e =? i) && (snd e =? j)) || ((fst e =? j) && (snd e =? i))) es = true <-> adjacent es i j.
Proof.
  rewrite existsb_exists. unfold adjacent. split.
  - intros ([a b] & H & E). cbn in E. rewrite orb_true_iff, !andb_true_iff, !Nat.eqb_eq in E. destruct E as [[-> ->]|[-> ->]]; auto.
  - intros [H|H]; eexists; (split; [exact H|]); cbn; rewrite !Nat.eqb_refl; auto using orb_true_r.
Qed.
Lemma nbrs_spec top es i j : bmem (nbrs top es i) j = true <-> j < top /\ (j = i \/ adjacent es i j).
Proof. unfold nbrs. rewrite bof_spec, filter_In, in_seq, orb_true_iff, Nat.eqb_eq, badj_spec. intuition lia. Qed.
Lemma adjs_spec es i j : bmem (adjs es i) j = true <-> adjacent es i j.
Proof.
  unfold adjs, adjacent. set (f := fun (acc : N) (e : nat * nat) => _).
  assert (H : forall s, bmem (fold_left f es s) j = true <-> (In (i, j) es \/ In (j, i) es) \/ bmem s j = true).
  { induction es as [|[a b] r IH]; intros s; cbn [fold_left In]; [tauto|]. rewrite IH. unfold f at 1. cbn [fst snd].
    assert (Q : bmem (let acc1 := if a =? i then badd s b else s in if b =? i then badd acc1 a else acc1) j = true <->
      (a = i /\ b = j) \/ (b = i /\ a = j) \/ bmem s j = true).
    { cbv zeta. destruct (Nat.eqb_spec a i), (Nat.eqb_spec b i); rewrite ?bmem_add, ?orb_true_iff, ?Nat.eqb_eq; intuition congruence. }
    rewrite Q. assert (E1 : (a, b) = (i, j) <-> a = i /\ b = j) by (split; [intros [= ? ?]; auto|intros [? ?]; congruence]).
    assert (E2 : (a, b) = (j, i) <-> b = i /\ a = j) by (split; [intros [= ? ?]; auto|intros [? ?]; congruence]). rewrite E1, E2. tauto. }
  rewrite H, bmem_0. intuition discriminate.
Qed.
Lemma wsum_total w l : wsum w l = total w l.
Proof. induction l as [|a l IH]; cbn; auto. unfold wsum in IH. now rewrite IH. Qed.

(** ** picks *)
Lemma picks_in vs ls x : In x (picks vs ls) -> In x vs.
Proof. revert ls. induction vs as [|v vs IH]; intros [|l ls]; cbn; try tauto. destruct (l =? 0)%Z; cbn; intros; intuition eauto. Qed.
Lemma picks_sorted vs ls : StronglySorted lt vs -> StronglySorted lt (picks vs ls).
Proof.
  intros H. revert ls. induction H as [|v vs H IH F]; intros [|l ls]; cbn; try constructor. destruct (l =? 0)%Z; auto. constructor; auto.
  apply Forall_forall. intros x Hx. rewrite Forall_forall in F. apply F. eapply picks_in; eauto.
Qed.
Lemma total_nonneg w l : (forall v, In v l -> (0 <= w v)%Z) -> (0 <= total w l)%Z.
Proof. induction l as [|a l IH]; cbn; intros H; [lia|]. specialize (IH (fun v h => H v (or_intror h))). specialize (H a (or_introl eq_refl)). lia. Qed.
Lemma total_filter w (f : nat -> bool) l : (forall v, In v l -> (0 <= w v)%Z) -> (total w (filter f l) <= total w l)%Z.
Proof.
  induction l as [|a l IH]; cbn; intros H; [lia|]. specialize (IH (fun v h => H v (or_intror h))). specialize (H a (or_introl eq_refl)).
  destruct (f a); cbn; lia.
Qed.
Lemma total_incl w : forall L S, StronglySorted lt L -> StronglySorted lt S -> incl S L -> (forall v, In v L -> (0 <= w v)%Z) -> (total w S <= total w L)%Z.
Proof.
  induction L as [|a L IH]; intros S HL HS Inc W.
  - destruct S as [|s S]; cbn; [lia|]. destruct (Inc s (or_introl eq_refl)).
  - inversion HL as [|? ? HL1 HL2]; subst. rewrite Forall_forall in HL2. cbn [total].
    assert (W0 := W a (or_introl eq_refl)). assert (W1 : forall v, In v L -> (0 <= w v)%Z) by (intros; apply W; now right).
    destruct S as [|s S]; cbn [total]; [pose proof (total_nonneg w L W1); lia|]. inversion HS as [|? ? HS1 HS2]; subst. rewrite Forall_forall in HS2.
    assert (TL : incl S L).
    { intros x Hx. destruct (Inc x (or_intror Hx)) as [<-|]; auto. specialize (HS2 a Hx).
      destruct (Inc s (or_introl eq_refl)) as [->|Q]; [lia|]. specialize (HL2 s Q). lia. }
    destruct (Inc s (or_introl eq_refl)) as [->|Q].
    + specialize (IH S HL1 HS1 TL W1). lia.
    + assert (incl (s :: S) L) as Q2 by (intros x [<-|Hx]; auto). specialize (IH (s :: S) HL1 HS Q2 W1). cbn [total] in IH. lia.
Qed.
Lemma filter_sorted (f : nat -> bool) l : StronglySorted lt l -> StronglySorted lt (filter f l).
Proof.
  intros H. induction H as [|a l H IH F]; cbn; [constructor|]. destruct (f a); auto. constructor; auto.
  apply Forall_forall. intros x Hx. apply filter_In in Hx. rewrite Forall_forall in F. now apply F.
Qed.
Lemma seq_sorted n k : StronglySorted lt (seq n k).
Proof.
  revert n. induction k as [|k IH]; intros n; cbn; constructor; auto. apply Forall_forall. intros x Hx. apply in_seq in Hx. lia.
Qed.
Lemma blist_sorted n s : StronglySorted lt (blist n s).
Proof. apply filter_sorted, seq_sorted. Qed.

(** ** vertex by vertex decisions (misp2 to misp5) *)
Section Dec.
Variables (top : nat) (es : list (nat * nat)) (weight : nat -> Z).
Context {St : Type}.
Variables (P : prob St) (sel : St -> N) (cur rank : St -> nat) (live : St -> Prop).

Definition stays (s : St) (l : Z) (v : nat) : Prop := bmem (sel s) v = true /\ v <> cur s /\ (l = 1%Z -> ~ adjacent es (cur s) v).
Record decision : Prop := {
  dc_min : p_min P = false;
  dc_eqb : forall a b, p_eqb P a b = true <-> a = b;
  dc_eqs : forall s, live s -> p_eqs P s = false;
  dc_eqst : p_eqs P (p_target P) = true;
  dc_ne : forall s, live s -> s <> p_target P;
  dc_some_sel : forall s, live s -> exists v, bmem (sel s) v = true;
  dc_sel : forall s v, live s -> bmem (sel s) v = true -> cur s <= v < top;
  dc_labels : forall s l, live s -> (In l (p_labels P s) <-> l = 0%Z \/ l = 1%Z);
  dc_cost : forall s l, live s -> p_cost P s l = (l * weight (cur s))%Z;
  dc_none : forall s, live s -> bmem (sel s) (cur s) = false -> p_stf P s 1 = None;
  dc_some : forall s l, live s -> l = 0%Z \/ (l = 1%Z /\ bmem (sel s) (cur s) = true) -> exists s', p_stf P s l = Some s' /\
    ((s' = p_target P /\ forall v, ~ stays s l v) \/
     (live s' /\ rank s' = S (rank s) /\ cur s < cur s' /\ forall v, bmem (sel s') v = true <-> stays s l v));
  dc_rank : forall s, live s -> rank s <= cur s;
  dc_merge : forall a b m, live a -> live b -> rank a = rank b -> p_smf P a b = Some m ->
    live m /\ rank m = rank a /\ forall v, bmem (sel m) v = bmem (sel a) v || bmem (sel b) v;
  dc_sdom : p_sdom P = None;
  dc_local : forall local s ctx, p_local P = Some local -> (live s -> local s ctx = total weight (blist top (sel s))) /\ local (p_target P) ctx = 0%Z;
  dc_init : live (p_init P) /\ forall v, bmem (sel (p_init P)) v = true <-> v < top }.
Hypothesis DC : decision.

(** the vertices decided along a label sequence *)
Fixpoint trace (s : St) (ls : list Z) : list nat :=
  match ls with [] => [] | l :: r => cur s :: match p_stf P s l with Some s' => trace s' r | None => [] end end.

Definition dinv (s : St) : Prop := live s \/ s = p_target P.
Lemma dinv_live s : dinv s -> s <> p_target P -> live s.
Proof. intros [?|?]; tauto. Qed.
Lemma cur_top s : live s -> cur s < top.
Proof. intros H. destruct (dc_some_sel DC s H) as [v Hv]. apply (dc_sel DC) in Hv; auto. lia. Qed.

Lemma dec_step s l s' : live s -> In l (p_labels P s) -> p_stf P s l = Some s' -> (l = 0%Z \/ (l = 1%Z /\ bmem (sel s) (cur s) = true)) /\
    ((s' = p_target P /\ forall v, ~ stays s l v) \/
     (live s' /\ rank s' = S (rank s) /\ cur s < cur s' /\ forall v, bmem (sel s') v = true <-> stays s l v)).
Proof.
  intros Hs Hl E. apply (dc_labels DC) in Hl; auto.
  assert (A : l = 0%Z \/ (l = 1%Z /\ bmem (sel s) (cur s) = true)).
  { destruct Hl as [->| ->]; auto. right. split; auto. destruct (bmem (sel s) (cur s)) eqn:B; auto. rewrite (dc_none DC) in E; auto. discriminate. }
  split; auto. destruct (dc_some DC s l Hs A) as (s2 & E2 & Q). assert (s2 = s') by congruence. subst s2. auto.
Qed.

Lemma dec_closed : closed P dinv.
Proof.
  constructor.
  - intros a b _ _. apply (dc_eqb DC).
  - intros s [Hs| ->]; [|split; auto using (dc_eqst DC)]. rewrite (dc_eqs DC) by auto. split; [discriminate|]. intros ->. now apply (dc_ne DC) in Hs.
  - now right.
  - intros s l s' Hs Nt Hl E. apply dinv_live in Hs; auto. destruct (dec_step s l s' Hs Hl E) as [_ [[-> _]|[H _]]]; [now right|now left].
Qed.
Lemma dec_layered : layered P dinv rank.
Proof.
  intros s l s' Hs Nt Hl E Nt'. apply dinv_live in Hs; auto. destruct (dec_step s l s' Hs Hl E) as [_ [[-> _]|(_ & H & _)]]; [congruence|auto].
Qed.
Lemma dec_depth : depth_le P dinv rank (top - 1).
Proof. intros s Hs Nt. apply dinv_live in Hs; auto. pose proof (cur_top s Hs). pose proof (dc_rank DC s Hs). lia. Qed.
Lemma dec_merge_layered : merge_layered P dinv rank.
Proof.
  intros a b m Ha Hb Na Nb R M. apply dinv_live in Ha, Hb; auto. destruct (dc_merge DC a b m Ha Hb R M) as (L & R' & _). csplit; auto.
  - now left.
  - now apply (dc_ne DC).
Qed.

(** every completion of a live state chooses an independent set among the candidates *)
Lemma dec_sound : forall ls s v, path P s ls v (p_target P) -> live s ->
  StronglySorted lt (trace s ls) /\ Forall (fun x => cur s <= x < top) (trace s ls) /\ length (trace s ls) = length ls /\
  Forall (fun l => l = 0%Z \/ l = 1%Z) ls /\
  Forall (fun x => bmem (sel s) x = true) (picks (trace s ls) ls) /\ independent es (picks (trace s ls) ls) /\ v = total weight (picks (trace s ls) ls).
Proof.
  induction ls as [|l ls IH]; intros s v H Hs; inversion H as [|s0 l0 s1 ls0 v0 t0 HN HL HS HP]; subst; [exfalso; exact (dc_ne DC _ Hs eq_refl)|].
  pose proof (cur_top s Hs) as CT. cbn [trace]. rewrite HS. rewrite (dc_cost DC) by auto.
  destruct (dec_step s l s1 Hs HL HS) as [A B].
  assert (C : StronglySorted lt (trace s1 ls) /\ Forall (fun x => cur s < x < top) (trace s1 ls) /\ length (trace s1 ls) = length ls /\
    Forall (fun l => l = 0%Z \/ l = 1%Z) ls /\ Forall (fun x => stays s l x) (picks (trace s1 ls) ls) /\ independent es (picks (trace s1 ls) ls) /\
    v0 = total weight (picks (trace s1 ls) ls)).
  { destruct B as [[-> B]|(L1 & _ & L2 & L3)].
    - apply path_target in HP as (-> & -> & _). cbn. csplit; auto; try constructor. intros i j [].
    - destruct (IH s1 v0 HP L1) as (I1 & I2 & I3 & I4 & I5 & I6 & I7). csplit; auto.
      + eapply Forall_impl; [|exact I2]. cbn. intros; lia.
      + eapply Forall_impl; [|exact I5]. cbn. intros x Hx. now apply L3. }
  destruct C as (C1 & C2 & C3 & C4 & C5 & C6 & C7). csplit.
  - constructor; auto. eapply Forall_impl; [|exact C2]. cbn. intros; lia.
  - constructor; [lia|]. eapply Forall_impl; [|exact C2]. cbn. intros; lia.
  - cbn. lia.
  - constructor; auto. tauto.
  - cbn [picks]. destruct A as [->|[-> B1]]; cbn [Z.eqb].
    + eapply Forall_impl; [|exact C5]. cbn. intros x Hx. apply Hx.
    + constructor; auto. eapply Forall_impl; [|exact C5]. cbn. intros x Hx. apply Hx.
  - cbn [picks]. destruct A as [->|[-> B1]]; cbn [Z.eqb]; auto. rewrite Forall_forall in C5.
    intros i j [<-|Hi] [<-|Hj] N; try congruence.
    + apply (C5 j Hj). auto.
    + intros Q. apply (C5 i Hi); auto. unfold adjacent in *. tauto.
    + auto.
  - cbn [picks]. destruct A as [->|[-> B1]]; cbn [Z.eqb total]; lia.
Qed.

(** every independent set among the candidates is chosen by some completion *)
Lemma dec_complete : forall k s, live s -> top - cur s <= k -> forall S, StronglySorted lt S -> (forall x, In x S -> bmem (sel s) x = true) -> independent es S ->
  exists ls, path P s ls (total weight S) (p_target P) /\ picks (trace s ls) ls = S.
Proof.
  induction k as [|k IH]; intros s Hs Hk S SS SI IN. { pose proof (cur_top s Hs). lia. }
  pose proof (cur_top s Hs) as CT.
  assert (D : (exists S', S = cur s :: S') \/ forall x, In x S -> x <> cur s).
  { destruct S as [|a S']; [right; intros x []|]. destruct (Nat.eq_dec a (cur s)) as [->|N]; [left; eauto|right].
    inversion SS as [|? ? Q1 Q2]; subst. rewrite Forall_forall in Q2. intros x [<-|Hx]; auto. specialize (Q2 x Hx).
    specialize (SI a (or_introl eq_refl)). apply (dc_sel DC) in SI; auto. lia. }
  assert (G : exists l S', (l = 0%Z \/ (l = 1%Z /\ bmem (sel s) (cur s) = true)) /\ StronglySorted lt S' /\ independent es S' /\
     (forall x, In x S' -> stays s l x) /\ total weight S = (l * weight (cur s) + total weight S')%Z /\ S = if (l =? 0)%Z then S' else cur s :: S').
  { destruct D as [[S' ->]|N].
    - exists 1%Z, S'. inversion SS as [|? ? Q1 Q2]; subst. rewrite Forall_forall in Q2. csplit; auto.
      + right. split; auto. apply SI. now left.
      + intros i j Hi Hj. apply IN; now right.
      + intros x Hx. specialize (Q2 x Hx). split; [apply SI; now right|]. split; [lia|]. intros _. apply IN; [now left|now right|lia].
      + cbn [total]. lia.
    - exists 0%Z, S. csplit; auto.
      + intros x Hx. split; [auto|]. split; [auto|]. discriminate. }
  destruct G as (l & S' & A & G1 & G2 & G3 & G4 & G5). destruct (dc_some DC s l Hs A) as (s' & E & B).
  assert (HL : In l (p_labels P s)) by (apply (dc_labels DC); tauto).
  assert (R : exists ls, path P s' ls (total weight S') (p_target P) /\ picks (trace s' ls) ls = S').
  { destruct B as [[-> B]|(L1 & _ & L2 & L3)].
    - exists []. destruct S' as [|x S']; [split; constructor|]. exfalso. exact (B x (G3 x (or_introl eq_refl))).
    - apply IH; auto; [lia|]. intros x Hx. apply L3. auto. }
  destruct R as (ls & R1 & R2). exists (l :: ls). split.
  - rewrite G4. rewrite <- (dc_cost DC s l Hs). econstructor; eauto. now apply (dc_ne DC).
  - cbn [trace picks]. rewrite E, R2. now rewrite <- G5.
Qed.

(** the label sequence is determined by the chosen set *)
Lemma dec_unique : forall ls s v ls' v', live s -> path P s ls v (p_target P) -> path P s ls' v' (p_target P) ->
  picks (trace s ls) ls = picks (trace s ls') ls' -> ls = ls'.
Proof.
  induction ls as [|l ls IH]; intros s v ls' v' Hs H H' E; inversion H as [|s0 l0 s1 ls0 v0 t0 HN HL HS HP]; subst; [exfalso; exact (dc_ne DC _ Hs eq_refl)|].
  inversion H' as [|s0 l' s1' ls'0 v0' t0' HN' HL' HS' HP']; subst; [exfalso; exact (dc_ne DC _ Hs eq_refl)|].
  cbn [trace picks] in E. rewrite HS, HS' in E.
  destruct (dec_step s l s1 Hs HL HS) as [A B]. destruct (dec_step s l' s1' Hs HL' HS') as [A' B'].
  assert (NC : forall l s1 ls v0, In l (p_labels P s) -> p_stf P s l = Some s1 -> path P s1 ls v0 (p_target P) -> ~ In (cur s) (picks (trace s1 ls) ls)).
  { intros m t q w Hm Ht Hq Q. destruct (dec_step s m t Hs Hm Ht) as [_ [[-> _]|(L1 & _ & L2 & _)]].
    - apply path_target in Hq as (-> & _). destruct Q.
    - destruct (dec_sound q t w Hq L1) as (_ & K & _). apply picks_in in Q. rewrite Forall_forall in K. specialize (K _ Q). cbn in K. lia. }
  assert (EL : l = l').
  { destruct A as [->|[-> _]], A' as [->|[-> _]]; auto; exfalso; cbn [Z.eqb] in E.
    - apply (NC _ _ _ _ HL HS HP). rewrite E. now left.
    - apply (NC _ _ _ _ HL' HS' HP'). rewrite <- E. now left. }
  subst l'. assert (s1 = s1') by congruence. subst s1'. f_equal.
  destruct B as [[-> _]|(L1 & _)].
  - apply path_target in HP as (-> & _). apply path_target in HP' as (-> & _). auto.
  - eapply IH; eauto. destruct (l =? 0)%Z; [auto|]. now injection E.
Qed.

Lemma dec_relaxes m a : live m -> live a -> (forall v, bmem (sel a) v = true -> bmem (sel m) v = true) -> relaxes P m a.
Proof.
  intros Hm Ha Sub v [ls H]. destruct (dec_sound ls a v H Ha) as (T1 & T2 & T3 & T4 & T5 & T6 & ->).
  exists (total weight (picks (trace a ls) ls)). split; [|apply be_refl]. rewrite Forall_forall in T5.
  destruct (dec_complete (top - cur m) m Hm (le_n _) (picks (trace a ls) ls)) as (ls' & H' & _); auto.
  - now apply picks_sorted.
  - exists ls'. auto.
Qed.
Lemma dec_valid_merge : valid_merge P dinv rank.
Proof.
  intros a b m Ha Hb Na Nb R M. apply dinv_live in Ha, Hb; auto. destruct (dc_merge DC a b m Ha Hb R M) as (L & R' & SM).
  split; apply dec_relaxes; auto; intros v Hv; rewrite SM, Hv; auto using orb_true_r.
Qed.
Lemma dec_valid_local : (forall v, v < top -> (0 <= weight v)%Z) -> valid_local P dinv.
Proof.
  intros W local s ctx v EL Hs [ls H]. unfold be, val. rewrite (dc_min DC). destruct Hs as [Hs| ->].
  - rewrite (proj1 (dc_local DC local s ctx EL) Hs). destruct (dec_sound ls s v H Hs) as (T1 & _ & _ & _ & T5 & _ & ->). rewrite Forall_forall in T5.
    assert (total weight (picks (trace s ls) ls) <= total weight (blist top (sel s)))%Z; [|lia]. apply total_incl.
    + apply blist_sorted.
    + now apply picks_sorted.
    + intros x Hx. apply in_blist. pose proof (T5 x Hx) as Q. split; auto. apply (dc_sel DC) in Q; auto. lia.
    + intros x Hx. apply in_blist in Hx. apply W. lia.
  - rewrite (proj2 (dc_local DC local (p_target P) ctx EL)). apply path_target in H as (_ & -> & _). lia.
Qed.
Lemma dec_valid : p_local P = None \/ (forall v, v < top -> (0 <= weight v)%Z) -> valid_model P dinv rank (top - 1).
Proof.
  intros W. constructor.
  - apply dec_closed.
  - apply dec_layered.
  - apply dec_depth.
  - apply dec_merge_layered.
  - apply dec_valid_merge.
  - intros sdom a b E. rewrite (dc_sdom DC) in E. discriminate.
  - intros sdom a s l E. rewrite (dc_sdom DC) in E. discriminate.
  - destruct W as [E|W]; [intros local s ctx v EL; rewrite E in EL; discriminate|now apply dec_valid_local].
Qed.

(** the solutions are the independent sets *)
Lemma dec_solution ls v : path P (p_init P) ls v (p_target P) ->
  StronglySorted lt (trace (p_init P) ls) /\ length (trace (p_init P) ls) = length ls /\
  indep_set top es (picks (trace (p_init P) ls) ls) /\ v = total weight (picks (trace (p_init P) ls) ls).
Proof.
  intros H. destruct (dc_init DC) as [Hi Ii]. destruct (dec_sound ls _ v H Hi) as (T1 & T2 & T3 & T4 & T5 & T6 & T7). csplit; auto.
  split; [now apply picks_sorted|]. split; auto. eapply Forall_impl; [|exact T5]. cbn. intros x Hx. now apply Ii.
Qed.
Lemma dec_every S : indep_set top es S ->
  exists ls, path P (p_init P) ls (total weight S) (p_target P) /\ picks (trace (p_init P) ls) ls = S /\
    forall ls' v', path P (p_init P) ls' v' (p_target P) -> picks (trace (p_init P) ls') ls' = S -> ls' = ls.
Proof.
  intros (S1 & S2 & S3). destruct (dc_init DC) as [Hi Ii]. rewrite Forall_forall in S2.
  destruct (dec_complete _ _ Hi (le_n _) S) as (ls & H1 & H2); auto. { intros x Hx. apply Ii. auto. }
  exists ls. csplit; auto. intros ls' v' H' E. eapply dec_unique; eauto. congruence.
Qed.
Lemma dec_path_nonneg : (forall v, v < top -> (0 <= weight v)%Z) -> forall s ls v t, path P s ls v t -> dinv s -> (0 <= v)%Z.
Proof.
  intros W s ls v t H. induction H as [s|s l s' ls v t N L HS H IH]; intros Is; [lia|].
  assert (Is' : dinv s') by (eapply (cl_step _ _ dec_closed); eauto). specialize (IH Is'). apply dinv_live in Is; auto.
  rewrite (dc_cost DC) by auto. apply (dc_labels DC) in L; auto. specialize (W (cur s) (cur_top s Is)). destruct L as [->| ->]; lia.
Qed.
Lemma dec_range : (forall v, v < top -> (0 <= weight v)%Z) -> in_range P (p_init P) 0.
Proof.
  intros W ls v s H. destruct (dc_init DC) as [Hi _]. apply dec_path_nonneg in H; auto; [|now left].
  unfold bt, val, sentinel. rewrite (dc_min DC). lia.
Qed.
Lemma dec_setting srt dfuel mxw : (forall v, v < top -> (0 <= weight v)%Z) -> (forall dd l, Permutation (srt dd l) l) -> top < dfuel ->
  (N.of_nat mxw < 4294967296)%N -> setting P dinv rank (top - 1) srt dfuel mxw.
Proof.
  intros W PS DF MW. destruct (dc_init DC) as [Hi _]. pose proof (cur_top _ Hi). constructor; auto; try lia.
  - apply dec_valid. auto.
  - now apply (dc_ne DC).
  - now left.
  - now apply dec_range.
Qed.
End Dec.
