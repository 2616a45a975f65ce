(** Branch and bound as examples/gruler_mid.cpp runs it: as gruler.cpp, with labels that keep the first half of the marks in the first half (gruler_mid.cpp:96-111). *)
From Coq Require Import Sorting.Sorted Permutation.
From Verif Require Import Base BitModel SetModel HeapModel DDModel DDSpec DDFrame DDRestricted DDRestricted2 DDWide DDExact SearchModel SearchProofs SearchDyn NoMerge SoftEq SoftSearch
  TspModel TspProofs RulerModel RulerSpec RulerProofs RulerEnd RulerTop RulerSearch RulerSoft OnceSearch.
Local Open Scope Z_scope.

(** gruler_mid.cpp:153-161 with the primal bound at its start (INT_MAX, src/dd.hpp:27-33) *)
Definition md_base (n L : Z) (opt : Z -> Z) : prob ruler := mid_prob n L opt 2147483647.
(** gruler_mid.cpp:96-111 with the primal bound b *)
Definition md_lab (n L : Z) (opt : Z -> Z) (b : Z) (s : ruler) : list Z := ru_lgf n opt (mid_ub n L opt b) s.
(** gruler_mid.cpp:153-162: BAndB engine(...); engine.search(bnds) *)
Definition md_search (n L : Z) (opt : Z -> Z) srt dfuel lim fuel mxw user := searchD (md_base n L opt) (md_lab n L opt) srt dfuel lim fuel mxw user.

Section MidSearch.
Variables (n L : Z) (opt : Z -> Z).
Hypothesis Hn : 2 <= n.
Hypothesis Ho : opt_valid opt n.
Hypothesis HL : 0 <= L + 1 < 2147483647.
Notation MB := (md_base n L opt).
Notation lab := (md_lab n L opt).
Notation E := (ex_inv n (L + 1)).

Lemma md_at p0 b : p0 <= 2147483647 -> at_bound MB p0 b -> b <= 2147483647.
Proof. intros H [->|(v & (ls & S) & ->)]; auto. apply (mid_sound n L opt 2147483647 Hn Ho) in S as (_ & -> & _ & A). lia. Qed.
Lemma mid_ub_mono b b' k : b <= b' -> mid_ub n L opt b k <= mid_ub n L opt b' k.
Proof. intros H. unfold mid_ub. destruct (k <? n / 2); [|lia]. pose proof (Z.div_le_mono b b' 2). lia. Qed.
Lemma md_sub b s l : b <= 2147483647 -> In l (lab b s) -> In l (p_labels MB s).
Proof.
  intros Hb. change (p_labels MB s) with (ru_lgf n opt (mid_ub n L opt 2147483647) s). unfold md_lab, ru_lgf. rewrite !in_closeInc.
  pose proof (mid_ub_mono b 2147483647 (r_k s) Hb). lia.
Qed.
Lemma gr_nm_any ub : (forall k, 1 <= k < n -> ub k <= L + 1) -> valid_model (nomerge (gr_prob n opt ub ruler_eqb)) E rrank (Z.to_nat n).
Proof.
  intros Hub. pose proof (gr_closed n opt ub (L + 1) HL Hub) as [C1 C2 C3 C4]. constructor.
  - constructor; [exact C1|exact C2|exact C3|exact C4].
  - intros s l s' Is N Hl S N'. destruct Is as [(xs & R & K & _)| ->]; [|now elim N]. pose proof (rep_k1 s xs R).
    apply gr_step in S as [_ [[_ ->]|[Ks ->]]]; [now elim N'|]. unfold rrank; cbn; lia.
  - intros s Is N. destruct Is as [(xs & R & K & _)| ->]; [|now elim N]. pose proof (rep_k1 s xs R). unfold rrank. lia.
  - intros a c m _ _ _ _ _ H. discriminate.
  - intros a c m _ _ _ _ _ H. discriminate.
  - intros sdom a c H. discriminate.
  - intros sdom a s l H. discriminate.
  - intros local s c v H. discriminate.
Qed.
Lemma md_dyn p0 : p0 <= 2147483647 -> dyn_sub (nomerge MB) lab p0 E rrank (Z.to_nat n).
Proof.
  intros H. constructor.
  - intros b _. exact (gr_nm_any (mid_ub n L opt b) (mid_ub_le n L opt b Hn Ho HL)).
  - intros b s l Ab. apply (md_sub b). apply (md_at p0); auto. destruct Ab as [->|Ab]; [now left|right]. exact (proj1 (solution_nomerge MB _ 0 b) Ab).
Qed.
Lemma md_setting srt dfuel mxw : (forall d l, Permutation (srt d l) l) -> (Z.to_nat n + 1 < dfuel)%nat -> (N.of_nat mxw < 4294967296)%N ->
  setting (nomerge MB) E rrank (Z.to_nat n) srt dfuel mxw.
Proof.
  intros A B C. constructor; auto.
  - exact (gr_nm_any (mid_ub n L opt 2147483647) (mid_ub_le n L opt 2147483647 Hn Ho HL)).
  - apply (live_target n); change (1 < n); lia.
  - left. exact (ex_init n opt Hn (mid_ub n L opt 2147483647) (L + 1) HL (mid_ub_le n L opt 2147483647 Hn Ho HL)).
  - intros ls v s H. apply (proj1 (path_nomerge MB _ _ _ _)) in H.
    exact (gr_range n opt Hn (mid_ub n L opt 2147483647) (L + 1) HL (mid_ub_le n L opt 2147483647 Hn Ho HL) ruler_eqb ls v s H).
Qed.
Lemma md_gen v ls : genuine MB (p_init MB) 0 [] (p_target MB) v ls -> ruler_of n ls /\ rlen ls <= L + 1 /\ v = rlen ls.
Proof. intros (xs & u & -> & -> & H). apply (mid_sound n L opt 2147483647 Hn Ho) in H as (A & -> & B & C). csplit; auto. Qed.

Variable srt : dd ruler -> list nat -> list nat.
Hypothesis Hsrt : forall d l, Permutation (srt d l) l.
Variables dfuel mxw : nat.
Hypothesis Hfuel : (Z.to_nat n + 1 < dfuel)%nat.
Hypothesis Hmxw : (N.of_nat mxw < 4294967296)%N.
Variable lim : nat -> bool.
Variable user : option Z.
Hypothesis Hu : ru_start user <= 2147483647.
Lemma md_start : start_bound MB user = ru_start user.
Proof. unfold start_bound, ru_start. destruct user; reflexivity. Qed.

Lemma md_run fuel s e : md_search n L opt srt dfuel lim fuel mxw user = Ok (s, e) ->
  (b_primal (s_b s) <> ru_start user -> ruler_of n (b_inc (s_b s)) /\ rlen (b_inc (s_b s)) <= L + 1 /\ b_primal (s_b s) = rlen (b_inc (s_b s))) /\
  (forall ls, In ls (b_log (s_b s)) -> ruler_of n ls /\ rlen ls <= L + 1 /\ rlen ls < ru_start user) /\
  b_primal (s_b s) <= ru_start user.
Proof.
  intros Er. pose proof (md_setting srt dfuel mxw Hsrt Hfuel Hmxw) as SE. pose proof Hu as Hu'. rewrite <- md_start in Hu' |- *.
  pose proof (md_dyn _ Hu') as DY.
  destruct (searchD_soft MB lab E (any_inv n L) rrank (Z.to_nat n) srt dfuel mxw lim user fuel s e SE Hu' DY
    (fun b _ => gr_soft n L opt HL (mid_ub n L opt b) (mid_ub_le n L opt b Hn Ho HL)) Er) as (A & B & C).
  csplit.
  - intros N. exact (md_gen _ _ (A N)).
  - intros ls Hl. destruct (B ls Hl) as (v & G & Lt). apply md_gen in G as (G1 & G2 & ->); auto.
  - exact C.
Qed.
(** as gr_narrow *)
Lemma md_narrow w : (2 ^ Z.to_nat (L + 1 + 1) <= w)%nat -> narrow MB ru_init w.
Proof.
  intros W k l ND H. apply Nat.le_trans with (2 ^ Z.to_nat (L + 1 + 1))%nat; auto. rewrite <- masks_length, <- (map_length ru_state).
  apply NoDup_incl_length; auto. intros x Hx. destruct (H x Hx) as (Nt & ls & v & Hp & _).
  pose proof (mid_ub_le n L opt 2147483647 Hn Ho HL) as Hub.
  assert (Ix : E x). { eapply (path_closed MB); [exact (gr_closed n opt (mid_ub n L opt 2147483647) (L + 1) HL Hub)| |exact Hp]. left. exact (ex_init n opt Hn (mid_ub n L opt 2147483647) (L + 1) HL Hub). }
  pose proof (in_ru_states n opt (mid_ub n L opt 2147483647) (L + 1) HL Hub x Ix) as [Q|Q]; [|exact Q]. now elim Nt.
Qed.
Lemma md_wide fuel : lim 0%nat = false -> narrow MB ru_init mxw -> (1 <= fuel)%nat ->
  exists s, md_search n L opt srt dfuel lim fuel mxw user = Ok (s, Emptied) /\ s_ttl s = 1%nat /\
    (forall ls, ruler_of n ls -> rlen ls <= L + 1 -> b_primal (s_b s) <= rlen ls) /\
    (b_primal (s_b s) <> ru_start user -> ruler_of n (b_inc (s_b s)) /\ rlen (b_inc (s_b s)) <= L + 1 /\ b_primal (s_b s) = rlen (b_inc (s_b s))).
Proof.
  intros L0 Nw F. pose proof (md_setting srt dfuel mxw Hsrt Hfuel Hmxw) as SE. pose proof Hu as Hu'. rewrite <- md_start in Hu'.
  pose proof (md_dyn _ Hu') as DY. apply narrow_nomerge in Nw.
  destruct (searchD_once MB lab E rrank (Z.to_nat n) srt dfuel mxw SE user Hu' DY lim fuel L0 Nw) as (s & Er & T & O); auto.
  { intros V (v & (ls & H) & ->). apply (mid_sound n L opt 2147483647 Hn Ho) in H as ((G & _) & -> & _ & A). pose proof (golomb_le ls 0 G (or_introl eq_refl)). change (- 2147483647 <= 0 + rlen ls). lia. }
  exists s. destruct (md_run fuel s Emptied Er) as (A & _ & B). split; [exact Er|]. split; [exact T|]. split; [|exact A].
  intros ls R Bd. rewrite <- md_start in B. destruct (Z_lt_le_dec (rlen ls) (start_bound MB user)) as [Lt|]; [|lia].
  destruct (short_mid n L opt (start_bound MB user) Hn Ho ls) as (zs & Hz); [unfold short; csplit; auto; lia|].
  apply O. exists (rlen ls). split; [|lia]. exists zs. exact Hz.
Qed.
End MidSearch.

(** *** a node that loses its rulers when the bound improves *)
Lemma md_lost_path : path (md_base 6 25 OPT) ru_init [12] 12 (ru_next ru_init 12) /\ path (md_base 6 25 OPT) (ru_next ru_init 12) [13; 16; 21; 23] 11 (ru_target 6).
Proof.
  split.
  - change 12 with (p_cost (md_base 6 25 OPT) ru_init 12 + 0) at 2. eapply path_cons; [apply (live_target 6); reflexivity|vm_compute; tauto|reflexivity|constructor].
  - change 11 with (1 + (3 + (5 + (2 + 0)))). do 4 (eapply (path_cons (md_base 6 25 OPT)); [first [apply (live_target 6); reflexivity|discriminate]|vm_compute; tauto|reflexivity|]).
    constructor.
Qed.
