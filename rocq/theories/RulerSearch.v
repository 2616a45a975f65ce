(** Branch and bound as examples/gruler.cpp:127-147 runs it: the labels of each compilation read the primal bound of that moment (gruler.cpp:95). *)
From Verif Require Import Base BitModel SetModel HeapModel DDModel DDSpec DDFrame DDRestricted DDRestricted2 DDWide DDExact SearchModel SearchProofs SearchDyn NoMerge
  TspModel TspProofs RulerModel RulerSpec RulerProofs RulerEnd RulerTop.
Local Open Scope Z_scope.

(** gruler.cpp:127-135 with the primal bound at its start (INT_MAX, src/dd.hpp:27-33), for an equality of states *)
Definition gr_base (n L : Z) (opt : Z -> Z) (eqb : ruler -> ruler -> bool) : prob ruler := gr_prob n opt (ru_ub n L opt 2147483647) eqb.
(** gruler.cpp:94-102 with the primal bound b *)
Definition gr_lab (n L : Z) (opt : Z -> Z) (b : Z) (s : ruler) : list Z := ru_lgf n opt (ru_ub n L opt b) s.
(** gruler.cpp:136-147: BAndB engine(...); engine.search(bnds); the equality as a parameter *)
Definition gr_search (n L : Z) (opt : Z -> Z) (eqb : ruler -> ruler -> bool) srt dfuel lim fuel mxw user :=
  searchD (gr_base n L opt eqb) (gr_lab n L opt) srt dfuel lim fuel mxw user.

Section RulerSearch.
Variables (n L : Z) (opt : Z -> Z).
Hypothesis Hn : 2 <= n.
Hypothesis Ho : opt_valid opt n.
Hypothesis HL : 0 <= L + 1 < 2147483647.
Notation GB := (gr_base n L opt).
Notation lab := (gr_lab n L opt).

Lemma gr_relabel eqb b : relabel (GB eqb) (lab b) = gr_prob n opt (ru_ub n L opt b) eqb.
Proof. reflexivity. Qed.
Lemma gr_eqb_path ub eqb eqb' s ls v t : path (gr_prob n opt ub eqb) s ls v t -> path (gr_prob n opt ub eqb') s ls v t.
Proof. induction 1 as [|s l s' ls v t A B C H IH]; [constructor|]. exact (path_cons (gr_prob n opt ub eqb') s l s' ls v t A B C IH). Qed.
(** the solutions, whatever the equality *)
Lemma gr_sol eqb b ls v : path (gr_prob n opt (ru_ub n L opt b) eqb) ru_init ls v (ru_target n) <-> short n L b ls /\ v = rlen ls.
Proof.
  pose proof (ru_solutions n L opt b Hn Ho ls v) as A. unfold ru_prob in A. unfold short.
  split; intros H; [apply (gr_eqb_path _ _ ruler_eqb) in H|apply (gr_eqb_path _ ruler_eqb)]; tauto.
Qed.
Lemma gr_solution eqb V : solution (GB eqb) (p_init (GB eqb)) 0 V <-> exists ls, ruler_of n ls /\ rlen ls <= L + 1 /\ V = rlen ls.
Proof.
  split.
  - intros (v & (ls & H) & ->). apply gr_sol in H as ((A & B & C) & ->). exists ls. csplit; auto.
  - intros (ls & A & B & ->). exists (rlen ls). split; [|lia]. exists ls. apply gr_sol. unfold short. csplit; auto. lia.
Qed.
Lemma gr_at eqb p0 b : p0 <= 2147483647 -> at_bound (GB eqb) p0 b -> b <= 2147483647.
Proof. intros H [->|S]; auto. apply gr_solution in S as (ls & _ & A & ->). lia. Qed.
Lemma gr_sub eqb b s l : b <= 2147483647 -> In l (lab b s) -> In l (p_labels (GB eqb) s).
Proof. intros Hb. cbn [gr_base gr_prob p_labels]. unfold gr_lab, ru_lgf. rewrite !in_closeInc. unfold ru_ub. lia. Qed.
Lemma gr_keep eqb b s vb ls v : genuine (GB eqb) (p_init (GB eqb)) 0 [] s vb ls -> compl (GB eqb) s v -> vb + v < b ->
  compl (gr_prob n opt (ru_ub n L opt b) eqb) s v.
Proof.
  intros (xs & u & _ & -> & Hp) (ys & Hq) Lt. cbn [Z.add] in Lt. pose proof (path_app _ _ _ _ _ _ _ _ Hp Hq) as H.
  apply gr_sol in H as ((A & B & C) & E).
  assert (H : path (gr_prob n opt (ru_ub n L opt b) eqb) ru_init (xs ++ ys) (u + v) (ru_target n)) by (apply gr_sol; unfold short; csplit; auto; lia).
  exists ys.
  (* the first part of that path leads to s *)
  assert (G : forall a, path (GB eqb) a xs u s -> forall w t, path (gr_prob n opt (ru_ub n L opt b) eqb) a (xs ++ ys) w t ->
    path (gr_prob n opt (ru_ub n L opt b) eqb) s ys (w - u) t).
  { clear. intros a H. induction H as [a|a l a' xs u s N Hl S Hp IH]; intros w t Hw; cbn [app] in Hw.
    - now replace (w - 0) with w by lia.
    - inversion Hw as [|? ? a2 ? w2 ? ? ? S2 H2]; subst. cbn [gr_base gr_prob p_stf] in S, S2. rewrite S in S2. injection S2 as <-. apply IH in H2.
      cbn [gr_base gr_prob p_cost]. now replace (ru_scf a l + w2 - (ru_scf a l + u)) with (w2 - u) by lia. }
  specialize (G _ Hp _ _ H). now replace (u + v - u) with v in G by lia.
Qed.

(** *** the equality that compares the distances too *)
Lemma gr2_dyn p0 : p0 <= 2147483647 -> dyn_ok (GB ruler_eqb2) lab p0 (rl_inv n) rrank (Z.to_nat n).
Proof.
  intros H. constructor.
  - intros b _. exact (gr_valid n opt (ru_ub n L opt b)).
  - intros b s l Ab. apply gr_sub. eapply gr_at; eauto.
  - intros b s vb ls v _ G _ C Lt. exists v. split; [|apply be_refl]. eapply gr_keep; eauto.
Qed.
Lemma gr2_setting srt dfuel mxw : (forall d l, Permutation (srt d l) l) -> (Z.to_nat n + 1 < dfuel)%nat -> (N.of_nat mxw < 4294967296)%N ->
  setting (GB ruler_eqb2) (rl_inv n) rrank (Z.to_nat n) srt dfuel mxw.
Proof.
  intros A B C. constructor; auto.
  - exact (gr_valid n opt (ru_ub n L opt 2147483647)).
  - apply (live_target n); change (1 < n); lia.
  - left. change (1 <= 1 < n). lia.
  - exact (gr_range n opt Hn (ru_ub n L opt 2147483647) (L + 1) HL (ru_ub_le n L opt 2147483647 Ho) ruler_eqb2).
Qed.

(** *** the equality of the code, without merging *)
Lemma gr_nm_valid b : valid_model (nomerge (gr_prob n opt (ru_ub n L opt b) ruler_eqb)) (ex_inv n (L + 1)) rrank (Z.to_nat n).
Proof.
  pose proof (gr_closed n opt (ru_ub n L opt b) (L + 1) HL (ru_ub_le n L opt b Ho)) as [C1 C2 C3 C4].
  constructor.
  - constructor; [exact C1|exact C2|exact C3|exact C4].
  - exact (ru_layered n L opt b).
  - intros s Is N. pose proof (ru_depth n L opt b Hn s Is N). lia.
  - intros a c m _ _ _ _ _ H. discriminate.
  - intros a c m _ _ _ _ _ H. discriminate.
  - intros sdom a c H. discriminate.
  - intros sdom a s l H. discriminate.
  - intros local s c v H. discriminate.
Qed.
Lemma gr_nm_dyn p0 : p0 <= 2147483647 -> dyn_ok (nomerge (GB ruler_eqb)) lab p0 (ex_inv n (L + 1)) rrank (Z.to_nat n).
Proof.
  intros H. constructor.
  - intros b _. exact (gr_nm_valid b).
  - intros b s l Ab. apply (gr_sub ruler_eqb). apply (gr_at ruler_eqb p0); auto. destruct Ab as [->|Ab]; [now left|right]. exact (proj1 (solution_nomerge (GB ruler_eqb) _ 0 b) Ab).
  - intros b s vb ls v _ (xs & u & E1 & E2 & Hp) _ (ys & Hq) Lt. exists v. split; [|apply be_refl]. apply (proj1 (path_nomerge (GB ruler_eqb) _ _ _ _)) in Hp. apply (proj1 (path_nomerge (GB ruler_eqb) _ _ _ _)) in Hq.
    assert (K : compl (gr_prob n opt (ru_ub n L opt b) ruler_eqb) s v).
    { apply (gr_keep ruler_eqb b s vb ls v); [exists xs, u; auto|exists ys; auto|exact Lt]. }
    destruct K as (zs & Hz). exists zs.
    exact (proj2 (path_nomerge (gr_prob n opt (ru_ub n L opt b) ruler_eqb) s zs v (ru_target n)) Hz).
Qed.
Lemma gr_nm_setting srt dfuel mxw : (forall d l, Permutation (srt d l) l) -> (Z.to_nat n + 1 < dfuel)%nat -> (N.of_nat mxw < 4294967296)%N ->
  setting (nomerge (GB ruler_eqb)) (ex_inv n (L + 1)) rrank (Z.to_nat n) srt dfuel mxw.
Proof.
  intros A B C. constructor; auto.
  - exact (gr_nm_valid 2147483647).
  - apply (live_target n); change (1 < n); lia.
  - left. exact (ex_init n opt Hn (ru_ub n L opt 2147483647) (L + 1) HL (ru_ub_le n L opt 2147483647 Ho)).
  - intros ls v s H. apply (proj1 (path_nomerge (GB ruler_eqb) _ _ _ _)) in H.
    exact (gr_range n opt Hn (ru_ub n L opt 2147483647) (L + 1) HL (ru_ub_le n L opt 2147483647 Ho) ruler_eqb ls v s H).
Qed.
(** a layer has at most as many states as there are sets of marks *)
Lemma gr_narrow w : (2 ^ Z.to_nat (L + 1 + 1) <= w)%nat -> narrow (GB ruler_eqb) ru_init w.
Proof.
  intros W k l ND H. apply Nat.le_trans with (2 ^ Z.to_nat (L + 1 + 1))%nat; auto. rewrite <- masks_length, <- (map_length ru_state).
  apply NoDup_incl_length; auto. intros x Hx. destruct (H x Hx) as (Nt & ls & v & Hp & _). apply ru_prefix in Hp; auto.
  pose proof (in_ru_states n opt (ru_ub n L opt 2147483647) (L + 1) HL (ru_ub_le n L opt 2147483647 Ho) x Hp) as [E|E]; [|exact E]. now elim Nt.
Qed.

(** *** statements *)
Variable srt : dd ruler -> list nat -> list nat.
Hypothesis Hsrt : forall d l, Permutation (srt d l) l.
Variables dfuel mxw : nat.
Hypothesis Hfuel : (Z.to_nat n + 1 < dfuel)%nat.
Hypothesis Hmxw : (N.of_nat mxw < 4294967296)%N.
Variable lim : nat -> bool.
Variable user : option Z.
(** src/dd.hpp:27-33, or the bound given *)
Definition ru_start : Z := match user with Some p => p | None => 2147483647 end.
Hypothesis Hu : ru_start <= 2147483647.
Notation found s := (ruler_of n (b_inc (s_b s)) /\ rlen (b_inc (s_b s)) <= L + 1 /\ b_primal (s_b s) = rlen (b_inc (s_b s))).

Lemma start_eq eqb : start_bound (GB eqb) user = ru_start.
Proof. unfold start_bound, ru_start. destruct user; reflexivity. Qed.
Lemma gr_worst eqb V : solution (GB eqb) (p_init (GB eqb)) 0 V -> be (GB eqb) (initialWorst (GB eqb)) V.
Proof. intros S. apply gr_solution in S as (ls & (G & _) & _ & ->). pose proof (golomb_le ls 0 G (or_introl eq_refl)). change (-2147483647 <= rlen ls). lia. Qed.
Lemma gen_ruler eqb v ls : genuine (GB eqb) (p_init (GB eqb)) 0 [] (p_target (GB eqb)) v ls -> ruler_of n ls /\ rlen ls <= L + 1 /\ v = rlen ls.
Proof. intros (xs & u & -> & -> & H). apply gr_sol in H as ((A & B & C) & ->). csplit; auto. Qed.

Lemma ru_wide fuel : lim 0%nat = false -> narrow (GB ruler_eqb) ru_init mxw -> (1 <= fuel)%nat ->
  exists s, gr_search n L opt ruler_eqb srt dfuel lim fuel mxw user = Ok (s, Emptied) /\ s_ttl s = 1%nat /\
    (forall ls, ruler_of n ls -> rlen ls <= L + 1 -> b_primal (s_b s) <= rlen ls) /\ (b_primal (s_b s) <> ru_start -> found s).
Proof.
  intros L0 Nw F. pose proof (gr_nm_setting srt dfuel mxw Hsrt Hfuel Hmxw) as SE. pose proof Hu as Hu'. rewrite <- (start_eq ruler_eqb) in Hu'.
  pose proof (gr_nm_dyn _ Hu') as DY. apply narrow_nomerge in Nw.
  destruct (searchD_unmerged (GB ruler_eqb) lab _ _ _ srt dfuel mxw SE user Hu' DY lim fuel L0 Nw (gr_worst ruler_eqb) F) as (s & E & E0).
  destruct (searchD_narrow (nomerge (GB ruler_eqb)) lab _ _ _ srt dfuel mxw SE lim user DY Hu' fuel L0 Nw) as (s' & E' & T & O & G); auto.
  { intros V SV. apply (gr_worst ruler_eqb). exact (proj1 (solution_nomerge (GB ruler_eqb) _ 0 V) SV). }
  rewrite E0 in E'. injection E' as <-. exists s. split; [exact E|]. split; [exact T|]. split.
  - intros ls R B. apply O. apply (proj2 (solution_nomerge (GB ruler_eqb) _ 0 (rlen ls))). apply gr_solution. eauto.
  - intros N. rewrite <- (start_eq ruler_eqb) in N. destruct (G N) as (xs & u & E1 & E2 & H). apply (gen_ruler ruler_eqb). exists xs, u. csplit; auto.
    exact (proj1 (path_nomerge (GB ruler_eqb) _ _ _ _) H).
Qed.

Lemma ru2_run fuel s e : gr_search n L opt ruler_eqb2 srt dfuel lim fuel mxw user = Ok (s, e) ->
  (b_primal (s_b s) <> ru_start -> found s) /\ (forall ls, In ls (b_log (s_b s)) -> ruler_of n ls /\ rlen ls <= L + 1 /\ rlen ls < ru_start) /\
  b_primal (s_b s) <= ru_start /\
  (e = Emptied -> s_seen s = 0%nat -> hist_ok (GB ruler_eqb2) s -> forall ls, ruler_of n ls -> rlen ls <= L + 1 -> b_primal (s_b s) <= rlen ls).
Proof.
  intros E. pose proof (gr2_setting srt dfuel mxw Hsrt Hfuel Hmxw) as SE. pose proof Hu as Hu'. rewrite <- (start_eq ruler_eqb2) in Hu' |- *.
  pose proof (gr2_dyn _ Hu') as DY.
  destruct (searchD_genuine _ lab _ _ _ srt dfuel mxw SE lim user DY Hu' fuel s e E) as [A B].
  destruct (searchD_preset _ lab _ _ _ srt dfuel mxw SE lim user DY Hu' fuel s e E) as [C _]. csplit.
  - intros N. exact (gen_ruler ruler_eqb2 _ _ (A N)).
  - intros ls Hl. destruct (B ls Hl) as (v & G & Lt). apply gen_ruler in G as (G1 & G2 & ->). csplit; auto.
  - exact C.
  - intros Ee Es HH ls R Bd. apply (searchD_optimal _ lab _ _ _ srt dfuel mxw SE lim user DY Hu' fuel s e E Ee); auto.
    + intros sdom a c H. discriminate.
    + apply gr_worst.
    + apply gr_solution. eauto.
Qed.
Lemma ru2_total fuel : (2 ^ Z.to_nat (L + 1 + 1) <= fuel)%nat -> exists s e, gr_search n L opt ruler_eqb2 srt dfuel lim fuel mxw user = Ok (s, e).
Proof.
  intros F. pose proof (gr2_setting srt dfuel mxw Hsrt Hfuel Hmxw) as SE. pose proof Hu as Hu'. rewrite <- (start_eq ruler_eqb2) in Hu'.
  pose proof (gr2_dyn _ Hu') as DY.
  apply (searchD_total _ lab _ _ _ srt dfuel mxw SE lim user DY Hu' (map ru_state (masks (Z.to_nat (L + 1 + 1))))).
  - intros x Nt (ls & v & H). apply (gr_eqb_path _ _ ruler_eqb) in H. apply (ru_prefix n L opt 2147483647) in H; auto.
    destruct (in_ru_states n opt (ru_ub n L opt 2147483647) (L + 1) HL (ru_ub_le n L opt 2147483647 Ho) x H) as [E|E]; [|exact E]. now elim Nt.
  - rewrite map_length, masks_length. exact F.
Qed.
End RulerSearch.
