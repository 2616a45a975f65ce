(** Branch and bound as examples/gruler_midlb.cpp runs it: as gruler_mid.cpp, with the smallest unused distance in the states (gruler_midlb.cpp:83-147). *)
From Coq Require Import Sorting.Sorted Permutation.
From Verif Require Import Base BitModel SetModel HeapModel DDModel DDSpec DDFrame DDRestricted DDRestricted2 DDWide DDExact SearchModel SearchProofs SearchDyn NoMerge SoftEq SoftSearch
  TspModel TspProofs RulerModel RulerSpec RulerProofs RulerEnd RulerLb RulerTop RulerSearch RulerSoft OnceSearch MidSearch.
Local Open Scope Z_scope.

(** gruler_midlb.cpp:137-145 with the primal bound at its start (INT_MAX, src/dd.hpp:27-33) *)
Definition lb_base (n L : Z) (opt : Z -> Z) : prob rulerL := ml_prob n L opt 2147483647.
(** gruler_midlb.cpp:89-110 with the primal bound b *)
Definition lb_lab (n L : Z) (opt : Z -> Z) (b : Z) (s : rulerL) : list Z := ml_lgf n L opt b s.
(** gruler_midlb.cpp:137-146: BAndB engine(...); engine.search(bnds) *)
Definition lb_search (n L : Z) (opt : Z -> Z) srt dfuel lim fuel mxw user := searchD (lb_base n L opt) (lb_lab n L opt) srt dfuel lim fuel mxw user.

Section MidLb.
Variables (n L : Z) (opt : Z -> Z).
Hypothesis Hn : 2 <= n.
Hypothesis Ho : opt_valid opt n.
Hypothesis HL : 0 <= L + 1 < 2147483647.
Notation LB := (lb_base n L opt).
Notation lab := (lb_lab n L opt).
Notation E := (mx_inv n L (L + 1)).
Notation Hub b := (RulerTop.mid_ub_le n L opt b Hn Ho HL).

Lemma lb_paths b ls v : path (ml_prob n L opt b) ml_init ls v (ml_target n L) <-> path (mid_prob n L opt b) ru_init ls v (ru_target n).
Proof. exact (ml_solutions n L opt b Hn ruler_eqb rulerL_eqb ls v). Qed.
Lemma lb_gen v ls : genuine LB (p_init LB) 0 [] (p_target LB) v ls -> ruler_of n ls /\ rlen ls <= L + 1 /\ v = rlen ls.
Proof. intros (xs & u & -> & -> & H). apply lb_paths in H. apply (mid_sound n L opt 2147483647 Hn Ho) in H as (A & -> & B & C). csplit; auto. Qed.
Lemma lb_at p0 b : p0 <= 2147483647 -> at_bound LB p0 b -> b <= 2147483647.
Proof. intros H [->|(v & (ls & S) & ->)]; auto. apply lb_paths in S. apply (mid_sound n L opt 2147483647 Hn Ho) in S as (_ & -> & _ & A). lia. Qed.
Lemma lb_sub b s l : b <= 2147483647 -> In l (lab b s) -> In l (p_labels LB s).
Proof.
  intros Hb. change (p_labels LB s) with (ml_lgf n L opt 2147483647 s). unfold lb_lab, ml_lgf. rewrite !filter_In, !in_closeInc.
  pose proof (mid_ub_mono n L opt b 2147483647 (l_k s) Hb). intros [H1 H2]. split; auto. lia.
Qed.

(** a state that stems from a merge *)
Definition fewerL (s : rulerL) : Prop := ml_live n s /\ nmarks (lbase s) < l_k s.
Definition any_L (s : rulerL) : Prop := E s \/ fewerL s.
Lemma mx_marks s : mx_live n (L + 1) s -> nmarks (lbase s) = l_k s.
Proof. intros (_ & _ & xs & R & _). exact (rep_marks _ _ R). Qed.
Lemma any_liveL s : any_L s -> s <> ml_target n L -> ml_live n s /\ nmarks (lbase s) <= l_k s.
Proof. intros [[H| ->]|[A B]] N; [|now elim N|split; auto; lia]. pose proof (mx_marks s H). split; [apply H|lia]. Qed.
Lemma lb_step b s l s' : ml_live n s -> In l (p_labels (ml_prob n L opt b) s) -> p_stf (ml_prob n L opt b) s l = Some s' ->
  s' = ml_target n L \/ (l_k s < n - 1 /\ lbase s' = ru_next (lbase s) l /\ ml_live n s').
Proof.
  intros Ls Hl S. pose proof (ml_label_gt n L opt b ruler_eqb rulerL_eqb s l Ls Hl) as Lt.
  apply (ml_next n L opt b rulerL_eqb s l s' Ls Lt) in S as [[_ ->]|(A & B & C & _)]; auto.
Qed.
Lemma lb_soft b : soft (ml_prob n L opt b) E any_L lrank.
Proof.
  pose proof (mx_closed n L opt b (L + 1) HL (Hub b)) as CL. set (P := ml_prob n L opt b) in *.
  assert (EQ : forall a c, rulerL_eqb a c = true -> l_k a = l_k c /\ l_e a = l_e c /\ l_m a = l_m c) by (intros a c; unfold rulerL_eqb; rewrite !andb_true_iff, N.eqb_eq, !Z.eqb_eq; tauto).
  assert (QE : forall a c, l_k a = l_k c -> l_e a = l_e c -> l_m a = l_m c -> rulerL_eqb a c = true) by (intros a c; unfold rulerL_eqb; rewrite !andb_true_iff, N.eqb_eq, !Z.eqb_eq; tauto).
  assert (NE : forall a c, E a -> fewerL c -> rulerL_eqb a c = true -> False).
  { intros a c [Ha| ->] [F1 F2] Q; apply EQ in Q as (Q1 & _ & Q3).
    - pose proof (mx_marks a Ha) as X. unfold nmarks in X, F2. cbn [lbase r_m] in X, F2. rewrite Q3 in X. lia.
    - cbn in Q1. destruct F1 as [F1 _]. lia. }
  assert (SY : forall a c, rulerL_eqb a c = true -> rulerL_eqb c a = true) by (intros a c H; apply EQ in H as (? & ? & ?); auto).
  constructor.
  - intros s H. now left.
  - now right.
  - exact (cl_step _ _ CL).
  - intros s l s' [Is|[F1 F2]] N Hl S; [left; exact (cl_step _ _ CL _ _ _ Is N Hl S)|]. destruct (lb_step b s l s' F1 Hl S) as [->|(K & Eb & Ls')]; [left; now right|right].
    split; auto. rewrite Eb. assert (Ek : l_k s' = l_k s + 1) by (exact (f_equal r_k Eb)). unfold nmarks in *. cbn [ru_next r_m lbase] in *. pose proof (members_add (l_m s) l). lia.
  - intros a c Ia Ic Q H. destruct Ia as [Ia|Ia], Ic as [Ic|Ic]; [apply (cl_eqb _ _ CL); auto|now elim (NE a c)|elim (NE c a); auto|].
    destruct H as [H|H]; [elim (NE a a)|elim (NE c c)]; auto.
  - apply QE; auto.
  - intros a c _ _ Q. apply EQ in Q as (Q & _). unfold lrank. now rewrite Q.
  - apply Z.eqb_refl.
  - intros s l s' Is N Hl S N'. destruct (any_liveL s Is N) as [Ls _]. destruct (lb_step b s l s' Ls Hl S) as [->|(K & Eb & Ls')]; [now elim N'|].
    assert (Ek : l_k s' = l_k s + 1) by (exact (f_equal r_k Eb)). pose proof Ls as [K1 _]. unfold lrank. lia.
  - intros a c m Ia Ic Na Nc. change (p_smf P a c) with (ml_smf a c). intros Em. destruct (any_liveL a Ia Na) as [La Ma], (any_liveL c Ic Nc) as [Lc Mc].
    destruct (ml_merge_live n opt b a c m La Lc Em) as (Lm & Km & _). csplit; [|apply (ml_ne n L); exact (proj2 (proj1 Lm))|unfold lrank; now rewrite Km].
    unfold ml_smf in Em. destruct ((l_k a =? l_k c) && (l_e a =? l_e c)) eqn:Q; [|discriminate]. apply andb_true_iff in Q as [Q1 Q2]. apply Z.eqb_eq in Q1, Q2. injection Em as <-.
    destruct (members_and (l_m a) (l_m c)) as [A B]. apply NoDup_incl_length in A, B; try apply members_nodup.
    assert (FW : nmarks (lbase a) < l_k a \/ nmarks (lbase c) < l_k a ->
      any_L (mkRL (N.land (l_m a) (l_m c)) (N.land (l_d a) (l_d c)) (l_k a) (Z.min (l_e a) (l_e c)) (Z.min (l_sm a) (l_sm c)))).
    { intros X. right. split; auto. unfold nmarks in *. cbn [lbase r_m l_m l_k] in *. lia. }
    destruct Ia as [Ia|[_ Ia]]; [|apply FW; lia]. destruct Ic as [Ic|[_ Ic]]; [|apply FW; lia].
    destruct (N.eq_dec (l_m a) (l_m c)) as [Em|Nm].
    + assert (a = c) as <- by (apply (cl_eqb _ _ CL); auto; apply QE; auto). left. rewrite !N.land_diag, !Z.min_id. destruct a. exact Ia.
    + destruct Ia as [Ra| ->]; [|now elim Na]. destruct Ic as [Rc| ->]; [|now elim Nc].
      pose proof (mx_marks a Ra) as Xa. pose proof (mx_marks c Rc) as Xc. right. split; auto. unfold nmarks in *. cbn [lbase r_m l_m l_k] in *.
      pose proof (and_fewer (l_m a) (l_m c)). lia.
  - reflexivity.
  - reflexivity.
Qed.

Lemma lb_nm_valid b : valid_model (nomerge (ml_prob n L opt b)) E lrank (Z.to_nat n).
Proof.
  pose proof (mx_closed n L opt b (L + 1) HL (Hub b)) as [C1 C2 C3 C4]. constructor.
  - constructor; [exact C1|exact C2|exact C3|exact C4].
  - intros s l s' [Is| ->] N Hl S N'; [|now elim N]. pose proof Is as ((K & _) & _). destruct (lb_step b s l s' (proj1 Is) Hl S) as [->|(Ks & Eb & _)]; [now elim N'|].
    assert (Ek : l_k s' = l_k s + 1) by (exact (f_equal r_k Eb)). unfold lrank. lia.
  - intros s [((K & _) & _)| ->] N; [unfold lrank; lia|now elim N].
  - intros a c m _ _ _ _ _ H. discriminate.
  - intros a c m _ _ _ _ _ H. discriminate.
  - intros sdom a c H. discriminate.
  - intros sdom a s l H. discriminate.
  - intros local s c v H. discriminate.
Qed.
Lemma lb_dyn p0 : p0 <= 2147483647 -> dyn_sub (nomerge LB) lab p0 E lrank (Z.to_nat n).
Proof.
  intros H. constructor.
  - intros b _. exact (lb_nm_valid b).
  - intros b s l Ab. apply (lb_sub b). apply (lb_at p0); auto. destruct Ab as [->|Ab]; [now left|right]. exact (proj1 (solution_nomerge LB _ 0 b) Ab).
Qed.
Lemma lb_setting srt dfuel mxw : (forall d l, Permutation (srt d l) l) -> (Z.to_nat n + 1 < dfuel)%nat -> (N.of_nat mxw < 4294967296)%N ->
  setting (nomerge LB) E lrank (Z.to_nat n) srt dfuel mxw.
Proof.
  intros A B C. constructor; auto.
  - exact (lb_nm_valid 2147483647).
  - apply (ml_ne n L). change (1 < n). lia.
  - left. exact (mx_init n L opt 2147483647 Hn (L + 1) HL (Hub 2147483647)).
  - intros ls v s H. apply (proj1 (path_nomerge LB _ _ _ _)) in H.
    exact (mx_range n L opt 2147483647 Hn (L + 1) HL (Hub 2147483647) ls v s H).
Qed.

Variable srt : dd rulerL -> list nat -> list nat.
Hypothesis Hsrt : forall d l, Permutation (srt d l) l.
Variables dfuel mxw : nat.
Hypothesis Hfuel : (Z.to_nat n + 1 < dfuel)%nat.
Hypothesis Hmxw : (N.of_nat mxw < 4294967296)%N.
Variable lim : nat -> bool.
Variable user : option Z.
Hypothesis Hu : ru_start user <= 2147483647.
Lemma lb_start : start_bound LB user = ru_start user.
Proof. unfold start_bound, ru_start. destruct user; reflexivity. Qed.

Lemma lb_run fuel s e : lb_search n L opt srt dfuel lim fuel mxw user = Ok (s, e) ->
  (b_primal (s_b s) <> ru_start user -> ruler_of n (b_inc (s_b s)) /\ rlen (b_inc (s_b s)) <= L + 1 /\ b_primal (s_b s) = rlen (b_inc (s_b s))) /\
  (forall ls, In ls (b_log (s_b s)) -> ruler_of n ls /\ rlen ls <= L + 1 /\ rlen ls < ru_start user) /\
  b_primal (s_b s) <= ru_start user.
Proof.
  intros Er. pose proof (lb_setting srt dfuel mxw Hsrt Hfuel Hmxw) as SE. pose proof Hu as Hu'. rewrite <- lb_start in Hu' |- *.
  pose proof (lb_dyn _ Hu') as DY.
  destruct (searchD_soft LB lab E any_L lrank (Z.to_nat n) srt dfuel mxw lim user fuel s e SE Hu' DY (fun b _ => lb_soft b) Er) as (A & B & C).
  csplit.
  - intros N. exact (lb_gen _ _ (A N)).
  - intros ls Hl. destruct (B ls Hl) as (v & G & Lt). apply lb_gen in G as (G1 & G2 & ->); auto.
  - exact C.
Qed.
Lemma lb_narrow w : (2 ^ Z.to_nat (L + 1 + 1) <= w)%nat -> narrow LB ml_init w.
Proof.
  intros W k l ND H. apply Nat.le_trans with (2 ^ Z.to_nat (L + 1 + 1))%nat; auto. rewrite <- masks_length, <- (map_length (fun m => ml_of (ru_state m))).
  apply NoDup_incl_length; auto. intros x Hx. destruct (H x Hx) as (Nt & ls & v & Hp & _).
  assert (Ix : E x). { eapply (path_closed LB); [exact (mx_closed n L opt 2147483647 (L + 1) HL (Hub 2147483647))| |exact Hp]. left. exact (mx_init n L opt 2147483647 Hn (L + 1) HL (Hub 2147483647)). }
  pose proof (in_ml_states n L opt 2147483647 (L + 1) HL (Hub 2147483647) x Ix) as [Q|Q]; [|exact Q]. now elim Nt.
Qed.
Lemma lb_wide fuel : lim 0%nat = false -> narrow LB ml_init mxw -> (1 <= fuel)%nat ->
  exists s, lb_search n L opt srt dfuel lim fuel mxw user = Ok (s, Emptied) /\ s_ttl s = 1%nat /\
    (forall ls, ruler_of n ls -> rlen ls <= L + 1 -> b_primal (s_b s) <= rlen ls) /\
    (b_primal (s_b s) <> ru_start user -> ruler_of n (b_inc (s_b s)) /\ rlen (b_inc (s_b s)) <= L + 1 /\ b_primal (s_b s) = rlen (b_inc (s_b s))).
Proof.
  intros L0 Nw F. pose proof (lb_setting srt dfuel mxw Hsrt Hfuel Hmxw) as SE. pose proof Hu as Hu'. rewrite <- lb_start in Hu'.
  pose proof (lb_dyn _ Hu') as DY. apply narrow_nomerge in Nw.
  destruct (searchD_once LB lab E lrank (Z.to_nat n) srt dfuel mxw SE user Hu' DY lim fuel L0 Nw) as (s & Er & T & O); auto.
  { intros V (v & (ls & H) & ->). apply lb_paths in H. apply (mid_sound n L opt 2147483647 Hn Ho) in H as ((G & _) & -> & _ & A). pose proof (golomb_le ls 0 G (or_introl eq_refl)). change (- 2147483647 <= 0 + rlen ls). lia. }
  exists s. destruct (lb_run fuel s Emptied Er) as (A & _ & B). split; [exact Er|]. split; [exact T|]. split; [|exact A].
  intros ls R Bd. rewrite <- lb_start in B. destruct (Z_lt_le_dec (rlen ls) (start_bound LB user)) as [Lt|]; [|lia].
  destruct (short_mid n L opt (start_bound LB user) Hn Ho ls) as (zs & Hz); [unfold short; csplit; auto; lia|].
  apply O. exists (rlen ls). split; [|lia]. exists zs. apply lb_paths in Hz. exact Hz.
Qed.
End MidLb.
