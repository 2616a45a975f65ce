(** The colouring examples: exact diagrams, the search and the checker (for PropColor.v). *)
From Verif Require Import Base DDModel DDSpec DDFrame DDExact DDWide DDRestricted DDRestricted2 DDRelaxedEnd SearchModel SearchProofs SearchEx SearchDyn TspModel TspProofs MispModel MispSpec MispProofs ColorModel ColorSpec ColorProofs.

(** ** all label sequences, padded with 0 *)
Fixpoint words (n m : nat) : list (list Z) :=
  match n with O => [[]] | S k => flat_map (fun w => map (fun i => Z.of_nat i :: w) (seq 0 m)) (words k m) end.
Lemma words_length n m : length (words n m) = m ^ n.
Proof.
  induction n as [|n IH]; cbn [words]; auto. cbn [Nat.pow]. rewrite <- IH. generalize (words n m) as ws. induction ws as [|w ws IHw]; cbn [flat_map length]; [lia|].
  rewrite app_length, map_length, seq_length, IHw. lia.
Qed.
Lemma in_words n m w : length w = n -> (forall l, In l w -> (0 <= l < Z.of_nat m)%Z) -> In w (words n m).
Proof.
  revert w. induction n as [|n IH]; intros [|l w] L H; cbn [words]; try discriminate; [now left|]. apply in_flat_map. exists w. split.
  - apply IH; [now injection L|]. intros x Hx. apply H. now right.
  - apply in_map_iff. exists (Z.to_nat l). specialize (H l (or_introl eq_refl)). split; [f_equal; lia|]. apply in_seq. lia.
Qed.
Fixpoint play {St} (P : prob St) (s : St) (ls : list Z) : St :=
  match ls with [] => s | l :: r => if (l =? 0)%Z then s else match p_stf P s l with Some s' => play P s' r | None => s end end.
Lemma play_path {St} (P : prob St) s ls v t n : path P s ls v t -> (forall l, In l ls -> l <> 0%Z) -> play P s (ls ++ repeat 0%Z n) = t.
Proof.
  induction 1 as [s|s l s' ls v t N Hl S Hp IH]; intros Nz; cbn [app].
  - destruct n; reflexivity.
  - cbn [play]. destruct (Z.eqb_spec l 0) as [->|_]; [exfalso; now apply (Nz 0%Z (or_introl eq_refl))|]. rewrite S. apply IH. intros x Hx. apply Nz. now right.
Qed.

Section Top.
Variables (K : nat) (es : list (nat * nat)) (UB : nat).
Hypothesis G : simple_graph K es.
Hypothesis HK : 1 <= K.
Hypothesis HU : (Z.of_nat UB < 2147483647)%Z.
Context {St : Type} (PP : option Z -> prob St) (rep : St -> list Z -> Z -> Prop) (live : St -> Prop) (vtx : St -> nat) (sup : St -> St -> Prop).
Hypothesis F : family K es UB PP rep live vtx sup.
Let lab b := p_labels (PP (Some b)).

Lemma fam_solutions b ls v : pos b -> (path (PP b) (p_init (PP b)) ls v (p_target (PP b)) <-> first_use ls v /\ colouring K es ls /\ (v <= Z.of_nat UB)%Z /\ within b v).
Proof. intros Pb. exact (xt_solutions K es UB b G (PP b) rep (fa_ext _ _ _ _ _ _ _ _ F b Pb) HK ls v). Qed.
(** colourings in any colours, renamed *)
Lemma fam_rename b (c : list Z) k : pos b -> colouring K es c -> uses c k -> k <= UB -> within b (Z.of_nat k) ->
  exists ls, path (PP b) (p_init (PP b)) ls (Z.of_nat k) (p_target (PP b)).
Proof.
  intros Pb [L C] U Lk W. destruct (rename Z.eq_dec c k U) as (c' & F' & L' & S). exists c'. apply fam_solutions; auto. csplit; auto; [|lia].
  split; [lia|]. intros x y Hxy u Hx Hy. pose proof (S x y u Hx Hy) as E. destruct (G x y Hxy) as (Lx & _). 
  destruct (nth_error c x) as [w|] eqn:Ex; [|apply nth_error_None in Ex; lia]. symmetry in E. exact (C x y Hxy w Ex E).
Qed.
Lemma fam_found b ls v : pos b -> path (PP b) (p_init (PP b)) ls v (p_target (PP b)) -> colouring K es ls /\ uses ls (Z.to_nat v) /\ (0 <= v)%Z.
Proof. intros Pb H. apply fam_solutions in H as (A & B & _); auto. csplit; auto; [now apply fu_uses|exact (proj1 (fu_bound _ _ A))]. Qed.

Definition fam_states b : list St := p_target (PP b) :: map (play (PP b) (p_init (PP b))) (words K (S UB)).
Lemma fam_reach b ls v s : pos b -> path (PP b) (p_init (PP b)) ls v s -> In s (fam_states b).
Proof.
  intros Pb H. pose proof (fa_ext _ _ _ _ _ _ _ _ F b Pb) as X.
  destruct (xt_path_fwd K es UB b (PP b) rep X _ _ _ _ H [] 0%Z (xt_init _ _ _ _ _ _ X)) as [E C]. cbn in E, C.
  assert (L : length ls <= K) by lia.
  assert (B : forall l, In l ls -> (1 <= l <= Z.of_nat UB)%Z).
  { destruct (ext_sound es UB b _ _ _ _ E) as (A1 & _ & A3 & _); [constructor|intros i j Lt Lj; cbn in Lj; lia|lia|now right|].
    intros l Hl. pose proof (fu_bound _ _ A1) as (_ & A4 & _). specialize (A4 l Hl). lia. }
  right. apply in_map_iff. exists (ls ++ repeat 0%Z (K - length ls)). split.
  - eapply play_path; eauto. intros l Hl E0. specialize (B l Hl). lia.
  - apply in_words; [rewrite app_length, repeat_length; lia|]. intros l Hl. apply in_app_or in Hl as [Hl|Hl]; [specialize (B l Hl); lia|].
    apply repeat_spec in Hl. lia.
Qed.
Lemma fam_states_length b : length (fam_states b) = S UB ^ K + 1.
Proof. unfold fam_states. cbn [length]. rewrite map_length, words_length. lia. Qed.
Lemma fam_acyclic b : pos b -> acyclic (PP b) (linv (PP b) live) vtx.
Proof.
  intros Pb s l s' Is Nt Hl S. pose proof (fa_shape _ _ _ _ _ _ _ _ F b Pb) as H. apply linv_live in Is; auto.
  pose proof (sh_vtx _ _ _ _ _ H s Is). destruct (sh_step _ _ _ _ _ H s l s' Is Hl S) as [->|[_ ->]]; [rewrite (sh_vtxt _ _ _ _ _ H)|]; lia.
Qed.

(** ** exact diagrams *)
Lemma fam_exact b fuel primal : pos b -> S UB ^ K + 1 <= fuel -> (exists (c : list Z) k, colouring K es c /\ uses c k /\ k <= UB /\ within b (Z.of_nat k)) ->
  exists d n, ex_compute (PP b) fuel (initDefault (PP b) (dd_empty (PP b) true)) primal = Ok d /\ trg_node d = Ok n /\
    colouring K es (n_lab n) /\ uses (n_lab n) (Z.to_nat (n_bound n)) /\
    forall (c : list Z) k, colouring K es c -> uses c k -> (n_bound n <= Z.of_nat k)%Z.
Proof.
  intros Pb Fu (c0 & k0 & C0 & U0 & L0 & W0). pose proof (fa_ext _ _ _ _ _ _ _ _ F b Pb) as X. pose proof (fa_shape _ _ _ _ _ _ _ _ F b Pb) as H.
  destruct (fam_rename b c0 k0 Pb C0 U0 L0 W0) as (ls0 & H0).
  destruct (exact_best (PP b) (linv (PP b) live) vtx (fam_states b) fuel primal) as (d & n & E & T & A & B).
  - apply (sh_closed K _ _ vtx sup H).
  - apply (sh_local _ _ _ _ _ H).
  - now apply fam_acyclic.
  - left. eapply (fa_live _ _ _ _ _ _ _ _ F). apply (xt_init _ _ _ _ _ _ X).
  - apply (xt_rep _ _ _ _ _ _ X _ _ _ (xt_init _ _ _ _ _ _ X)).
  - eapply xt_range; eauto.
  - intros s _ (ls & v & Hp). eapply fam_reach; eauto.
  - now left.
  - rewrite fam_states_length. exact Fu.
  - eauto.
  - exists d, n. destruct (fam_found b _ _ Pb A) as (A1 & A2 & A3). csplit; auto. intros c k C U.
    assert (Q : forall ls v, path (PP b) (p_init (PP b)) ls v (p_target (PP b)) -> (n_bound n <= v)%Z).
    { intros ls v Hp. apply B in Hp. unfold be, val in Hp. rewrite (xt_min _ _ _ _ _ _ X) in Hp. lia. }
    destruct (Nat.le_gt_cases k k0) as [Lk|Gk].
    + destruct (fam_rename b c k Pb C U) as (ls & Hp); [lia|unfold within in *; destruct b; auto; lia|]. eapply Q; eauto.
    + specialize (Q _ _ H0). lia.
Qed.

(** ** the search *)
Section Search.
Variables (srt : dd St -> list nat -> list nat) (dfuel mxw : nat) (lim : nat -> bool).
Hypothesis Hsrt : forall d l, Permutation (srt d l) l.
Hypothesis Hfuel : K + 1 < dfuel.
Hypothesis Hmxw : (N.of_nat mxw < 4294967296)%N.
Notation run := (searchD (PP None) lab srt dfuel lim).
Let SE := fam_setting K es UB HK HU PP rep live vtx sup F srt dfuel mxw Hsrt Hfuel Hmxw.
Let DY := fam_dyn K es UB G HK PP rep live vtx sup F 2147483647 ltac:(lia).
Lemma sent : sentinel (PP None) = 2147483647%Z.
Proof. unfold sentinel. now rewrite (xt_min _ _ _ _ _ _ (fa_ext _ _ _ _ _ _ _ _ F None I)). Qed.
Lemma fam_search_found fuel s e : run fuel mxw None = Ok (s, e) ->
  (b_primal (s_b s) <> 2147483647%Z -> colouring K es (b_inc (s_b s)) /\ uses (b_inc (s_b s)) (Z.to_nat (b_primal (s_b s))) /\ (0 <= b_primal (s_b s) <= Z.of_nat UB)%Z) /\
  forall ls, In ls (b_log (s_b s)) -> colouring K es ls.
Proof.
  intros E. pose proof SE as SE'. pose proof DY as DY'. rewrite <- sent in DY'.
  destruct (searchD_genuine (PP None) lab (linv (PP None) live) vtx K srt dfuel mxw SE' lim None DY' (be_refl _ _) fuel s e E) as [A B]. cbn in A. rewrite sent in A.
  split.
  - intros N. destruct (A N) as (ls & v & -> & -> & Hp). cbn [app]. rewrite Z.add_0_l. destruct (fam_found None _ _ Logic.I Hp) as (C1 & C2 & C3).
    apply fam_solutions in Hp as (_ & _ & Hp & _); [|exact Logic.I]. csplit; auto.
  - intros ls Hl. destruct (B ls Hl) as (v & (ls' & v' & -> & -> & Hp) & _). cbn [app]. now apply fam_found in Hp.
Qed.
Lemma fam_search_optimal fuel s : run fuel mxw None = Ok (s, Emptied) -> s_seen s = 0 -> hist_ok (PP None) s ->
  forall (c : list Z) k, colouring K es c -> uses c k -> k <= UB -> (b_primal (s_b s) <= Z.of_nat k)%Z.
Proof.
  intros E Es HH c k C U L. pose proof SE as SE'. pose proof DY as DY'. rewrite <- sent in DY'. pose proof (fa_ext _ _ _ _ _ _ _ _ F None Logic.I) as X.
  destruct (fam_rename None c k Logic.I C U L Logic.I) as (ls & Hp).
  assert (B : be (PP None) (b_primal (s_b s)) (Z.of_nat k)).
  { apply (searchD_optimal (PP None) lab (linv (PP None) live) vtx K srt dfuel mxw SE' lim None DY' (be_refl _ _) fuel s Emptied E); auto.
    - intros sdom a b Q. rewrite (sh_sdom _ _ _ _ _ (fa_shape _ _ _ _ _ _ _ _ F None Logic.I)) in Q. discriminate.
    - intros V SV. eapply xt_worst; eauto.
    - exists (Z.of_nat k). split; [exists ls; auto|lia]. }
  unfold be, val in B. rewrite (xt_min _ _ _ _ _ _ X) in B. lia.
Qed.
Lemma fam_search_wide fuel : lim 0 = false -> narrow (PP None) (p_init (PP None)) mxw -> 1 <= fuel ->
  exists s, run fuel mxw None = Ok (s, Emptied) /\ s_ttl s = 1 /\
    forall (c : list Z) k, colouring K es c -> uses c k -> k <= UB -> (b_primal (s_b s) <= Z.of_nat k)%Z.
Proof.
  intros L0 Nw Fu. pose proof SE as SE'. pose proof DY as DY'. rewrite <- sent in DY'. pose proof (fa_ext _ _ _ _ _ _ _ _ F None Logic.I) as X.
  destruct (searchD_narrow (PP None) lab (linv (PP None) live) vtx K srt dfuel mxw SE' lim None DY' (be_refl _ _) fuel L0 Nw) as (s & E & T & O & _); auto.
  { intros V SV. eapply xt_worst; eauto. }
  exists s. csplit; auto. intros c k C U L. destruct (fam_rename None c k Logic.I C U L Logic.I) as (ls & Hp).
  assert (B : be (PP None) (b_primal (s_b s)) (Z.of_nat k)) by (apply O; exists (Z.of_nat k); split; [exists ls; auto|lia]).
  unfold be, val in B. rewrite (xt_min _ _ _ _ _ _ X) in B. lia.
Qed.
Lemma fam_search_total fuel : S UB ^ K + 1 <= fuel -> exists s e, run fuel mxw None = Ok (s, e).
Proof.
  intros Fu. pose proof SE as SE'. pose proof DY as DY'. rewrite <- sent in DY'.
  apply (searchD_total (PP None) lab (linv (PP None) live) vtx K srt dfuel mxw SE' lim None DY' (be_refl _ _) (fam_states None)).
  - intros s _ (ls & v & Hp). exact (fam_reach None ls v s Logic.I Hp).
  - rewrite fam_states_length. exact Fu.
Qed.
End Search.
End Top.

(** ** the checker *)
Lemma check_ok K es c : simple_graph K es -> colouring K es c -> co_check es c = Ok true.
Proof.
  intros G [L C]. unfold co_check.
  assert (H : forall l, incl l es -> fold_left (fun r e => do ok <- r ;
    match nth_error c (fst e), nth_error c (snd e) with Some x, Some y => Ok (ok && negb (x =? y)%Z) | _, _ => Err UB end) l (Ok true) = Ok true).
  { induction l as [|[x y] l IH]; intros Hi; cbn [fold_left fst snd bind]; auto. assert (Hxy : In (x, y) es) by (apply Hi; now left).
    destruct (G x y Hxy) as (Lx & Ly & _). destruct (nth_error c x) as [u|] eqn:Ex; [|apply nth_error_None in Ex; lia].
    destruct (nth_error c y) as [w|] eqn:Ey; [|apply nth_error_None in Ey; lia].
    destruct (Z.eqb_spec u w) as [->|N]; [exfalso; eapply C; eauto|]. cbn [negb andb]. apply IH. intros e He. apply Hi. now right. }
  apply H. apply incl_refl.
Qed.
