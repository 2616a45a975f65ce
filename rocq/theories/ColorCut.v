(** The colouring examples with a width of at least the number of vertices: no node is refused wrongly (for PropSeen.v). *)
From Verif Require Import Base DDModel DDSpec DDFrame DDExact DDWide DDExamples DDRestricted DDRestricted2 DDRelaxedEnd SearchModel SearchProofs SearchEx SearchDyn SearchSeen SearchCut
  TspModel TspProofs MispModel MispSpec MispProofs ColorModel ColorSpec ColorProofs ColorTop ColorEnd.

Lemma fu_length c k : first_use c k -> (k <= Z.of_nat (length c))%Z.
Proof. induction 1 as [|c k l H IH L|c k H IH]; rewrite ?app_length; cbn [length]; lia. Qed.
Lemma rclose_length t : (1 <= t)%Z -> length (rclose 1 t) = Z.to_nat t.
Proof. intros H. unfold rclose. replace (1 <=? t)%Z with true by lia. rewrite map_length, seq_length. lia. Qed.
Lemma blist_nodup n m : NoDup (blist n m).
Proof. unfold blist. apply NoDup_filter, seq_NoDup. Qed.

(** the state determines the number of colours used, and there is at most one label more *)
Definition valued {St} (PP : option Z -> prob St) (rep : St -> list Z -> Z -> Prop) : Prop :=
  (forall s c k c' k', rep s c k -> rep s c' k' -> k = k') /\ forall b s c k, pos b -> rep s c k -> length (p_labels (PP b) s) <= Z.to_nat (k + 1).
Lemma c1_valued K es UB nb : valued (cg_prob K UB nb) (c1_rep K es UB).
Proof.
  split.
  - intros s c k c' k' (_ & _ & A & _) (_ & _ & B & _). congruence.
  - intros b s c k Pb ((V & _ & L & _) & _ & E & _). cbn [cg_prob p_labels]. unfold co_lgf. destruct (K <=? co_vtx s); [cbn; lia|].
    rewrite <- E. destruct b as [b|]; cbn [pos] in Pb; rewrite rclose_length by lia; lia.
Qed.
Lemma c2_valued K UB adj : valued (c2_prob K UB adj) (c2_rep K).
Proof.
  split.
  - intros s c k c' k' (_ & _ & A & _) (_ & _ & B & _). congruence.
  - intros b s c k Pb ((V & _ & L & _) & _ & E & _). cbn [c2_prob p_labels].
    transitivity (length (map (fun i => Z.of_nat i) (seq 1 (Z.to_nat (k + 1))))); [|now rewrite map_length, seq_length].
    apply NoDup_incl_length.
    + unfold c2_lgf. apply NoDup_filter, FinFun.Injective_map_NoDup; [intros x y Q; lia|apply blist_nodup].
    + intros l Hl. unfold c2_lgf in Hl. apply filter_In in Hl as [Hl A]. apply in_map_iff in Hl as (x & <- & Hx). apply blist_in in Hx as [_ Hx].
      apply forbid_mem in Hx as [Hx _]. apply labels_spec in Hx. apply in_map_iff. exists x. rewrite in_seq. split; auto. destruct b; lia.
Qed.
Lemma program_valued K es UB {St} (PP : option Z -> prob St) : 1 <= K -> program K es UB PP ->
  exists rep live vtx sup, family K es UB PP rep live vtx sup /\ valued PP rep.
Proof.
  intros HK [| |H|H]; do 4 eexists; (split; [|first [apply c1_valued|apply c2_valued]]).
  - apply (co_family K es UB HK).
  - apply (ct_family K es UB HK).
  - apply (c2_family K es UB (adjs es) HK H). apply c2_adj.
  - apply (c2_family K es UB (c3_adj es) HK H). apply c3_adj_spec.
Qed.

Section Cut.
Variables (K : nat) (es : list (nat * nat)) (UB : nat).
Hypothesis G : simple_graph K es.
Hypothesis HK : 1 <= K.
Hypothesis HU : (Z.of_nat UB < 2147483647)%Z.
Context {St : Type} (PP : option Z -> prob St).
Hypothesis PR : program K es UB PP.
Lemma pr_one_value : one_value (PP None).
Proof.
  destruct (program_valued K es UB PP HK PR) as (rep & live & vtx & sup & F & V1 & _). intros ls v ls' v' s Nt H H'.
  pose proof (fa_ext _ _ _ _ _ _ _ _ F None Logic.I) as X.
  exact (V1 s ls v ls' v' (xt_value K es UB None _ rep X s v ls H Nt) (xt_value K es UB None _ rep X s v' ls' H' Nt)).
Qed.
Lemma pr_fan p0 w : (1 <= p0)%Z -> K <= w -> fan_le (PP None) (fun b => p_labels (PP (Some b))) p0 w.
Proof.
  intros A Lw b s Ab Nt (ls & v & H). destruct (program_valued K es UB PP HK PR) as (rep & live & vtx & sup & F & _ & V2).
  pose proof (fa_ext _ _ _ _ _ _ _ _ F None Logic.I) as X. pose proof (xt_value K es UB None _ rep X s v ls H Nt) as R.
  pose proof (fam_at K es UB G HK PP rep live vtx sup F p0 b A Ab) as Pb.
  pose proof (V2 (Some b) s ls v Pb R) as L. destruct (xt_rep _ _ _ _ _ _ X _ _ _ R) as (_ & L1 & F1). apply fu_length in F1. lia.
Qed.
Section Search.
Variables (srt : dd St -> list nat -> list nat) (dfuel mxw : nat) (lim : nat -> bool).
Hypothesis Hsrt : forall d l, Permutation (srt d l) l.
Hypothesis Hfuel : K + 1 < dfuel.
Hypothesis Hmxw : (N.of_nat mxw < 4294967296)%N.
Lemma pr_optimal_fan fuel s : csearch PP srt dfuel lim fuel mxw None = Ok (s, Emptied) -> K <= mxw -> hist_ok (PP None) s ->
  forall (c : list Z) k, colouring K es c -> uses c k -> k <= UB -> (b_primal (s_b s) <= Z.of_nat k)%Z.
Proof.
  intros E Lw HH c k C U L. destruct (program_family K es UB PP HK PR) as (rep & live & vtx & sup & F). pose proof (fa_ext _ _ _ _ _ _ _ _ F None Logic.I) as X.
  pose proof (fam_setting K es UB HK HU PP rep live vtx sup F srt dfuel mxw Hsrt Hfuel Hmxw) as SE.
  assert (E0 : sentinel (PP None) = 2147483647%Z) by (unfold sentinel; now rewrite (xt_min _ _ _ _ _ _ X)).
  pose proof (fam_dyn K es UB G HK PP rep live vtx sup F 2147483647 ltac:(lia)) as DY. rewrite <- E0 in DY.
  destruct (fam_rename K es UB G HK PP rep live vtx sup F None c k Logic.I C U L Logic.I) as (ls & Hp).
  assert (B : be (PP None) (b_primal (s_b s)) (Z.of_nat k)).
  { apply (searchD_optimal_fan (PP None) (linv (PP None) live) vtx K srt dfuel mxw SE lim None (be_refl _ _) _ DY fuel s); auto.
    - apply (sh_sdom _ _ _ _ _ (fa_shape _ _ _ _ _ _ _ _ F None Logic.I)).
    - intros V SV. eapply xt_worst; eauto.
    - rewrite E0. apply pr_fan; lia.
    - apply (one_value_kept (PP None) (linv (PP None) live) vtx K srt dfuel mxw SE lim None (be_refl _ _) _ DY fuel s Emptied E). exact pr_one_value.
    - exists (Z.of_nat k). split; [exists ls; auto|lia]. }
  unfold be, val in B. rewrite (xt_min _ _ _ _ _ _ X) in B. lia.
Qed.
End Search.
End Cut.
