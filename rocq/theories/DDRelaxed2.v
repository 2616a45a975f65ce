(** Relaxed diagrams on layered models: the completed diagram and its cut set. *)
From Verif Require Import Base DDModel DDSpec DDFrame DDInv DDLayer DDRestricted DDExpand DDRestricted2 DDMerge DDRelaxed DDTopo DDPasses.

Lemma gpath_ext {St} (d d' : dd St) : d_ed d' = d_ed d -> d_ne d' = d_ne d -> forall i es w j, gpath d i es w j -> gpath d' i es w j.
Proof.
  intros E1 E2 i es w j Q. induction Q as [i|e es v j He Q IH]; [constructor|]. rewrite <- E1. constructor; [now rewrite E2|]. now rewrite E1.
Qed.

(** ** cut sets of any diagram *)
Section CutSet.
Context {St : Type}.
Variable d : dd St.
Hypothesis Hend : forall i e, i < d_nn d -> In e (kids d i) -> to d e < d_nn d.

Lemma cs_push_spec i q seen : forall q1 seen1, cs_push d i q seen = (q1, seen1) ->
  exists new, q1 = q ++ new /\ Permutation seen1 (new ++ seen) /\ NoDup new /\ (forall j, In j new -> ~ In j seen) /\
    (forall j, In j new -> exists e, In e (kids d i) /\ j = to d e /\ d_trg d <> Some j) /\
    (forall e, In e (kids d i) -> d_trg d <> Some (to d e) -> In (to d e) (new ++ seen)).
Proof.
  unfold cs_push. generalize (kids d i) as es. intros es. revert q seen.
  induction es as [|e es IH]; intros q seen q1 seen1 E; cbn [fold_left] in E.
  - injection E as <- <-. exists []. rewrite app_nil_r. csplit; auto; try constructor; intros j [].
  - destruct (negb (existsb (Nat.eqb (to d e)) seen) && negb (is_ptr (d_trg d) (to d e))) eqn:C.
    + apply andb_true_iff in C as [C1 C2]. apply negb_true_iff in C1, C2. apply is_ptr_false in C2.
      assert (Ns : ~ In (to d e) seen).
      { intros Hin. assert (existsb (Nat.eqb (to d e)) seen = true); [|congruence]. apply existsb_exists. exists (to d e). split; auto. apply Nat.eqb_refl. }
      apply IH in E as (new & -> & Pm & ND & Dj & Or & Cv). exists (to d e :: new). csplit.
      * now rewrite <- app_assoc.
      * rewrite Pm. cbn. symmetry. apply Permutation_middle.
      * constructor; auto. intros H. apply (Dj _ H). now left.
      * intros j [<-|H]; auto. intros Hin. apply (Dj _ H). now right.
      * intros j [<-|H]; [exists e; cbn; auto|]. destruct (Or j H) as (e' & ? & ?). exists e'. cbn; auto.
      * intros e' [<-|H] N; [now left|]. specialize (Cv e' H N). apply in_app_or in Cv as [Cv|[Cv|Cv]]; cbn; rewrite in_app_iff; auto.
    + apply IH in E as (new & -> & Pm & ND & Dj & Or & Cv). exists new. csplit; auto.
      * intros j H. destruct (Or j H) as (e' & ? & ?). exists e'. cbn; auto.
      * intros e' [<-|H] N; auto. apply in_or_app. right. apply andb_false_iff in C as [C|C]; apply negb_false_iff in C.
        -- apply existsb_exists in C as (x & Hx & Ex). apply Nat.eqb_eq in Ex. congruence.
        -- apply is_ptr_true in C. congruence.
Qed.

Definition settled (seen cs : list nat) (i : nat) : Prop :=
  exa d i = false \/ In i cs \/
  (forall e, In e (kids d i) -> d_trg d = Some (to d e) \/ (exa d (to d e) = true /\ In (to d e) seen)).
Lemma all_kids_exact_true i : all_kids_exact d i = true <-> forall e, In e (kids d i) -> d_trg d = Some (to d e) \/ exa d (to d e) = true.
Proof.
  unfold all_kids_exact. rewrite forallb_forall. split; intros H e He; specialize (H e He).
  - apply orb_true_iff in H as [H|H]; auto. left. now apply is_ptr_true.
  - apply orb_true_iff. rewrite is_ptr_true. auto.
Qed.

Variable Q : nat -> Prop.
Hypothesis Qstep : forall i e, Q i -> In e (kids d i) -> d_trg d <> Some (to d e) -> Q (to d e).

Lemma cs_loop_ok : forall fuel q seen cs,
  NoDup seen -> NoDup q -> incl q seen -> (forall i, In i seen -> i < d_nn d /\ Q i) ->
  NoDup cs -> (forall i, In i cs -> In i seen /\ ~ In i q /\ exa d i = true /\ all_kids_exact d i = false) ->
  (forall i, In i seen -> In i q \/ settled seen cs i) -> d_nn d + length q < fuel + length seen ->
  exists cs' seen', cs_loop fuel d q seen cs = Ok cs' /\ incl seen seen' /\ (forall i, In i seen' -> i < d_nn d /\ Q i) /\
    NoDup cs' /\ (forall i, In i cs' -> In i seen' /\ exa d i = true /\ all_kids_exact d i = false) /\ (forall i, In i seen' -> settled seen' cs' i).
Proof.
  induction fuel as [|fuel IH]; intros q seen cs NS NQ IQ HS NC HCs HSt F.
  - assert (length seen <= length (seq 0 (d_nn d))).
    { apply NoDup_incl_length; auto. intros i Hi. apply in_seq. destruct (HS i Hi). lia. }
    rewrite seq_length in H. destruct q as [|n q]; cbn in F; lia.
  - destruct q as [|n q]; cbn [cs_loop].
    + exists cs, seen. csplit; auto.
      * intros i Hi; auto.
      * intros i Hi. destruct (HCs i Hi) as (? & _ & ? & ?). auto.
      * intros i Hi. destruct (HSt i Hi) as [[]|?]; auto.
    + apply NoDup_cons_iff in NQ as [Nn NQ]. assert (In n seen) as Hn by (apply IQ; now left). destruct (HS n Hn) as [Ln Qn].
      assert (HCs' : forall i, In i cs -> In i seen /\ ~ In i q /\ exa d i = true /\ all_kids_exact d i = false).
      { intros i Hi. destruct (HCs i Hi) as (A1 & A2 & A3). csplit; try apply A3; auto. intros ?. apply A2. now right. }
      destruct (exa d n) eqn:X.
      * destruct (all_kids_exact d n) eqn:AK.
        -- destruct (cs_push d n q seen) as [q1 seen1] eqn:E. apply cs_push_spec in E as (new & -> & Pm & ND & Dj & Or & Cv).
           assert (In1 : forall i, In i seen1 <-> In i new \/ In i seen).
           { intros i. split; intros H; [apply in_app_or; eapply Permutation_in; [exact Pm|exact H]|].
             eapply Permutation_in; [symmetry; exact Pm|]. now apply in_or_app. }
           assert (Mono : forall i, settled seen cs i -> settled seen1 cs i).
           { intros i [?|[?|H]]; [now left|right; now left|]. right. right. intros e He. destruct (H e He) as [?|[? ?]]; auto. right. split; auto. apply In1. auto. }
           destruct (IH (q ++ new) seen1 cs) as (cs' & seen' & E' & A1 & A2 & A3 & A4 & A5); auto.
           ++ eapply Permutation_NoDup; [symmetry; exact Pm|]. apply NoDup_app_join; auto.
           ++ apply NoDup_app_join; auto. intros i H1 H2. apply (Dj i H2). apply IQ. now right.
           ++ intros i Hi. apply In1. apply in_app_or in Hi as [Hi|Hi]; auto. right. apply IQ. now right.
           ++ intros i Hi. apply In1 in Hi as [Hi|Hi]; auto. destruct (Or i Hi) as (e & He & -> & N). split; [now apply (Hend n)|].
              eapply Qstep; eauto.
           ++ intros i Hi. destruct (HCs' i Hi) as (B1 & B2 & B3). csplit; try apply B3; [apply In1; auto|].
              intros H. apply in_app_or in H as [H|H]; auto. eapply Dj; eauto.
           ++ intros i Hi. apply In1 in Hi as [Hi|Hi]; [left; apply in_or_app; auto|].
              destruct (HSt i Hi) as [[->|H]|H]; [right|left; apply in_or_app; auto|right; auto].
              right. right. intros e He. apply all_kids_exact_true with (e := e) in AK; auto.
              destruct (is_ptr (d_trg d) (to d e)) eqn:T; [left; now apply is_ptr_true|]. apply is_ptr_false in T.
              destruct AK as [?|AK]; auto. right. split; auto. apply In1. apply in_app_or. auto.
           ++ rewrite app_length. apply Permutation_length in Pm. rewrite app_length in Pm. cbn [length] in F. lia.
           ++ exists cs', seen'. csplit; auto. intros i Hi. apply A1, In1. auto.
        -- destruct (IH q seen (cs ++ [n])) as (cs' & seen' & E' & A1 & A2 & A3 & A4 & A5); auto.
           ++ intros i Hi. apply IQ. now right.
           ++ apply NoDup_app_join; auto; [repeat constructor; auto|]. intros i H1 [<-|[]]. destruct (HCs n H1) as (_ & H & _). apply H. now left.
           ++ intros i Hi. apply in_app_or in Hi as [Hi|[<-|[]]]; auto.
           ++ intros i Hi. destruct (HSt i Hi) as [[->|H]|[H|[H|H]]]; auto; right.
              ** right. left. apply in_or_app. cbn. auto.
              ** now left.
              ** right. left. apply in_or_app. auto.
              ** right. right. auto.
           ++ cbn [length] in F. lia.
           ++ exists cs', seen'. csplit; auto.
      * destruct (IH q seen cs) as (cs' & seen' & E' & A1 & A2 & A3 & A4 & A5); auto.
        -- intros i Hi. apply IQ. now right.
        -- intros i Hi. destruct (HSt i Hi) as [[->|H]|H]; auto. right. now left.
        -- cbn [length] in F. lia.
        -- exists cs', seen'. csplit; auto.
Qed.

Lemma computeCutSet_ok r : d_root d = Some r -> r < d_nn d -> Q r ->
  exists cs seen, computeCutSet d = Ok cs /\ In r seen /\ (forall i, In i seen -> i < d_nn d /\ Q i) /\
    NoDup cs /\ (forall i, In i cs -> In i seen /\ exa d i = true /\ all_kids_exact d i = false) /\ (forall i, In i seen -> settled seen cs i).
Proof.
  intros R Hr Qr. unfold computeCutSet. rewrite R.
  destruct (cs_loop_ok (S (d_nn d)) [r] [r] []) as (cs & seen & E & A1 & A2 & A3 & A4 & A5).
  - repeat constructor; auto.
  - repeat constructor; auto.
  - intros i; auto.
  - intros i [<-|[]]; auto.
  - constructor.
  - intros i [].
  - intros i [<-|[]]; left; now left.
  - cbn. lia.
  - exists cs, seen. csplit; auto. apply A1. now left.
Qed.
End CutSet.

Section R.
Context {St : Type}.
Variable P : prob St.
Variable I : St -> Prop.
Hypothesis HC : closed P I.
Variables (rs : St) (rb : Z) (rl : list Z).
Hypothesis Hrs : rs <> p_target P.
Hypothesis HI : I rs.
Hypothesis Hrange : in_range P rs rb.
Variable rank : St -> nat.
Hypothesis Hlay : layered P I rank.
Hypothesis Hdom : valid_dom P I rank.
Hypothesis Hdt : dom_avoids_target P I rank.
Hypothesis Hml : merge_layered P I rank.
Hypothesis Hvm : valid_merge P I rank.
Variable N : nat.
Hypothesis HN : depth_le P I rank N.
Notation dd := (dd St).
Notation linv := (linv P I 0 1 rs rb rl rank).

Lemma linv_wfg primal mode d K : linv primal mode d K nobody nobody [] [] -> wfg d (fun i => if i =? 1 then K + 2 else lay d i).
Proof.
  intros H. pose proof (l_gen H) as G. pose proof (g_base G) as B. destruct (b_t B) as [Ht Et].
  assert (An : forall i, In i (d_an d) -> i < d_nn d) by (intros i Hi; now apply (l_an H) in Hi).
  constructor.
  - apply (l_nda H).
  - intros e He. destruct (b_ends B e He) as [E1 E2]. destruct (g_edge G e He) as (L & _). split; apply (l_an H); split; auto.
    left. right. intros E0. eapply (no_ptr_child P I 0 1 rs d e); eauto.
  - intros i e Hi. now apply (b_par B), An.
  - intros i e Hi. now apply (b_kids B), An.
  - intros i Hi. now apply (b_ndp B), An.
  - intros i Hi. now apply (b_ndk B), An.
  - intros e He. destruct (b_ends B e He) as [E1 E2]. destruct (g_edge G e He) as (L & S & _).
    rewrite (st_target B E1) in S. destruct (Nat.eqb_spec (from d e) 1); [congruence|].
    destruct (Nat.eqb_spec (to d e) 1) as [E|E].
    + pose proof (l_le H (from d e) E1 n). lia.
    + rewrite (l_lbl H e He E). lia.
Qed.
Lemma tightened_wfg (d : dd) t d' f : tightened P d t d' -> wfg d f -> wfg d' f.
Proof.
  intros T [W1 W2 W3 W4 W5 W6 W7]. constructor; rewrite ?(tg_an _ _ _ _ T), ?(tg_ne _ _ _ _ T), ?(tg_ed _ _ _ _ T); auto;
   intros i *; rewrite ?(tg_par _ _ _ _ T), ?(tg_kids _ _ _ _ T); auto.
Qed.

Section Total.
Variable srt : dd -> list nat -> list nat.
Hypothesis Hsrt : forall d l, Permutation (srt d l) l.

(** the completed relaxed diagram d': built by the loop (d2), sink tightened (d3), backward bounds added *)
Record completed (primal : Z) (w : nat) (d2 : dd) (K : nat) (d3 d' : dd) : Prop := {
  k_inv : linv primal true d2 K nobody nobody [] [];
  k_tight : tightened P d2 1 d3;
  k_bb : bbonly d3 d';
  k_bell : forall i, In i (d_an d3) -> bellman_back P d' i;
  k_width : p_sdom P = None -> merge_total P I rank -> width_le 0 1 (Nat.max w 1) K d2 }.

Theorem relaxed_total fuel d primal w : started d rs rb rl -> N + 1 < fuel + rank rs ->
  exists d2 K d3 d', rx_compute P srt fuel d primal w = Ok d' /\ completed primal w d2 K d3 d'.
Proof.
  intros S HF. pose proof (prep_ok P I d rs rb rl HC HI Hrs S) as PP.
  pose proof (prepped_linv P I HC rs rb rl Hrs HI rank primal true (prep P d) PP) as H0.
  destruct (rx_loop_linv P I HC 0 1 rs rb rl Hrs Hrange rank Hlay Hdom Hdt Hml Hvm primal srt Hsrt fuel (prep P d) 0 w [0] N)
    as (d2 & K & E & H & W); auto.
  { eapply linv_fresh; eauto. }
  { lia. }
  pose proof (l_gen H) as G. pose proof (g_base G) as B. pose proof (tighten_spec P d2 1 (b_trg B)) as T.
  destruct (bback_ok P (tighten P d2 1) _ (tightened_wfg _ _ _ _ T (linv_wfg _ _ _ _ H))) as (d' & E' & BO & BB).
  exists d2, K, (tighten P d2 1), d'. split.
  - unfold rx_compute. rewrite (sd_root _ _ _ _ S).
    change (with_node (target P (with_dexact d true)) 0 (nset_layer (d_nd (target P (with_dexact d true)) 0) 0)) with (prep P d).
    cbn [lq_enQueue]. rewrite E. cbn [bind]. now rewrite (b_trg B).
  - constructor; auto. intros SD MT. apply W; auto.
    + intros i Hi Ni. rewrite (pp_nn _ _ _ _ _ PP) in Hi. assert (i = 0) as -> by lia.
      rewrite (pp_st _ _ _ _ _ PP), (pp_lay _ _ _ _ _ PP). lia.
    + intros k ns Hk. lia.
Qed.
End Total.

Section Done.
Variables (primal : Z) (w : nat) (d2 : dd) (K : nat) (d3 d' : dd).
Hypothesis KC : completed primal w d2 K d3 d'.
Let H := k_inv _ _ _ _ _ _ KC.
Let T := k_tight _ _ _ _ _ _ KC.
Let BO := k_bb _ _ _ _ _ _ KC.
Let B := g_base (l_gen H).

Lemma done_node i : st d' i = st d2 i /\ kids d' i = kids d2 i /\ par d' i = par d2 i /\ exa d' i = exa d2 i /\ lay d' i = lay d2 i /\
  bd d' i = bd d3 i /\ lab d' i = lab d3 i /\ (i <> 1 -> bd d' i = bd d2 i /\ lab d' i = lab d2 i).
Proof.
  rewrite (bo_nd _ _ BO). dsimp. rewrite (tg_st _ _ _ _ T), (tg_kids _ _ _ _ T), (tg_par _ _ _ _ T), (tg_ex _ _ _ _ T), (tg_lay _ _ _ _ T).
  csplit; auto. intros Ni. now rewrite (tg_bd _ _ _ _ T), (tg_lab _ _ _ _ T).
Qed.
Lemma done_an i : In i (d_an d') <-> i < d_nn d2 /\ (live 0 d2 i \/ i = 1).
Proof. rewrite (bo_an _ _ BO), (tg_an _ _ _ _ T), (l_an H). unfold nobody. tauto. Qed.
Lemma done_trg : d_trg d' = Some 1.
Proof. now rewrite (bo_trg _ _ BO), (tg_trg _ _ _ _ T), (b_trg B). Qed.
Lemma done_root : d_root d' = Some 0.
Proof. now rewrite (bo_root _ _ BO), (tg_root _ _ _ _ T), (b_root B). Qed.
Lemma done_ed : d_ed d' = d_ed d2 /\ d_ne d' = d_ne d2 /\ d_nn d' = d_nn d2 /\ d_exact d' = d_exact d2.
Proof.
  now rewrite (bo_ed _ _ BO), (tg_ed _ _ _ _ T), (bo_ne _ _ BO), (tg_ne _ _ _ _ T), (bo_nn _ _ BO), (tg_nn _ _ _ _ T), (bo_dex _ _ BO), (tg_dex _ _ _ _ T).
Qed.

(** dual bound *)
Lemma done_dual V : valid_local P I -> solution P rs rb V -> bt P V primal -> be P (bd d' 1) V.
Proof.
  intros HL SV BV. destruct (done_node 1) as (_ & _ & _ & _ & _ & -> & _).
  eapply (tighten_cover P I HC 0 1 rs rb rl Hrs rank primal HL true d2 K); eauto; [now left|apply (l_root H)].
Qed.

(** exact nodes are genuine *)
Lemma done_sink_genuine : exa d' 1 = true -> bt P (bd d' 1) (sentinel P) -> genuine P rs rb rl (p_target P) (bd d' 1) (lab d' 1).
Proof.
  destruct (done_node 1) as (_ & _ & _ & -> & _ & -> & -> & _). intros X Bt. pose proof (l_gen H) as G.
  destruct (b_t B) as [T1 T2].
  destruct (tg_t _ _ _ _ T) as [(E & _)|(e & Hin & _ & -> & ->)]; [rewrite E in Bt; vlia|].
  apply (b_par B) in Hin as [He Et]; auto.
  destruct (g_edge G e He) as (L & Nt & Hl & ->). destruct (b_ends B e He) as [F _].
  eapply genuine_snoc; eauto; [|now apply (g_trg G)]. apply (g_gen G); auto. apply (l_txm H e); auto.
Qed.
Lemma done_genuine i : In i (d_an d') -> exa d' i = true -> i <> 1 -> genuine P rs rb rl (st d' i) (bd d' i) (lab d' i).
Proof.
  intros Hi X Ni. apply done_an in Hi as [Hi [L|L]]; [|congruence]. destruct (done_node i) as (-> & _ & _ & E & _ & _ & _ & Q).
  destruct (Q Ni) as [-> ->]. apply (g_gen (l_gen H)); auto. congruence.
Qed.
Lemma done_exact : d_exact d' = true -> forall i, i < d_nn d' -> exa d' i = true.
Proof.
  destruct done_ed as (_ & _ & -> & ->). intros X i Hi. destruct (done_node i) as (_ & _ & _ & -> & _). now apply (l_dx H X).
Qed.

(** backward bounds *)
Lemma done_back i v : valid_local P I -> In i (d_an d') -> compl P (st d' i) v -> i = 1 \/ bt P (bd d' i + v) primal -> be P (bb d' i) v.
Proof.
  intros HL Hi C Bt. pose proof Hi as Hi0. apply done_an in Hi as [Hi L]. destruct (done_node i) as (Es & _ & _ & _ & _ & _ & _ & Q). rewrite Es in C.
  destruct (b_t B) as [T1 T2].
  assert (A3 : In i (d_an d3)) by (now rewrite <- (bo_an _ _ BO)).
  pose proof (tightened_wfg _ _ _ _ T (linv_wfg _ _ _ _ H)) as W.
  assert (Kt : kids d3 1 = []).
  { rewrite (tg_kids _ _ _ _ T). apply (dead_kids (l_gen H)); auto. }
  assert (T3 : d_trg d3 = Some 1) by (rewrite (tg_trg _ _ _ _ T); apply B).
  assert (A1 : In 1 (d_an d3)) by (rewrite <- (bo_an _ _ BO); apply done_an; auto).
  destruct (Nat.eq_dec i 1) as [->|Ni].
  - rewrite T2 in C. apply compl_target in C. subst v. eapply (back_le P d3 _ W d' BO (k_bell _ _ _ _ _ _ KC) 1 T3 Kt A1 1 []); auto. constructor.
  - destruct L as [L|L]; [|congruence]. destruct (Q Ni) as [Eb _]. rewrite Eb in Bt. destruct Bt as [|Bt]; [congruence|].
    destruct (cover P I HC 0 1 rs rb rl rank primal HL true d2 K H (or_introl eq_refl) i v Hi L Ni C Bt) as (es & w' & e & Gp & Le & _).
    assert (G3 : gpath d3 i es w' 1).
    { eapply gpath_ext; [apply (tg_ed _ _ _ _ T)|apply (tg_ne _ _ _ _ T)|exact Gp]. }
    pose proof (back_le P d3 _ W d' BO (k_bell _ _ _ _ _ _ KC) 1 T3 Kt A1 i es w' G3 A3). vlia.
Qed.

(** width *)
Lemma done_width k : p_sdom P = None -> merge_total P I rank -> length (layer_nodes d' k) <= Nat.max w 1.
Proof.
  intros SD MT. pose proof (k_width _ _ _ _ _ _ KC SD MT) as W.
  assert (F : forall i, In i (layer_nodes d' k) -> i < d_nn d2 /\ live 0 d2 i /\ i <> 1 /\ lay d2 i = k).
  { intros i Hi. unfold layer_nodes in Hi. apply filter_In in Hi as [Hi F]. apply done_an in Hi as [Hi L].
    rewrite done_trg in F. destruct (done_node i) as (_ & _ & _ & _ & E & _). rewrite E in F.
    apply andb_true_iff in F as [F1 F2]. cbn [is_ptr] in F1. apply negb_true_iff, Nat.eqb_neq in F1. apply Nat.eqb_eq in F2.
    csplit; auto. destruct L; auto. congruence. }
  destruct (Nat.le_gt_cases k K) as [LK|LK].
  - apply (W k); auto. apply NoDup_filter. rewrite (bo_an _ _ BO), (tg_an _ _ _ _ T). apply (l_nda H).
  - destruct (layer_nodes d' k) as [|i l] eqn:EL; [cbn; lia|]. exfalso.
    destruct (F i (or_introl eq_refl)) as (A1 & A2 & A3 & A4). pose proof (l_le H i A1 A3).
    apply (l_top H i); auto. lia.
Qed.

(** cut set *)
Lemma done_cutset : valid_local P I -> exists cs, computeCutSet d' = Ok cs /\ NoDup cs /\
  (forall i, In i cs -> In i (d_an d') /\ i <> 1 /\ exa d' i = true) /\
  (forall V, solution P rs rb V -> bt P V primal ->
     (exists i v, In i cs /\ compl P (st d' i) v /\ be P (bd d' i + v) V) \/
     (exists i l, In i (d_an d') /\ i <> 1 /\ exa d' i = true /\ In l (p_labels P (st d' i)) /\ p_stf P (st d' i) l = Some (p_target P) /\
         be P (bd d' 1) (bd d' i + p_cost P (st d' i) l) /\
         be P (bd d' i + p_cost P (st d' i) l) V)).
Proof.
  intros HL. pose proof (l_gen H) as G. destruct (b_r B) as [Hr Er]. destruct (b_t B) as [Ht Et].
  destruct done_ed as (Ed & En & Enn & _).
  assert (KB : forall i e, i < d_nn d2 -> In e (kids d' i) -> e < d_ne d2 /\ from d2 e = i).
  { intros i e Hi He. destruct (done_node i) as (_ & E & _). rewrite E in He. now apply (b_kids B) in He. }
  destruct (computeCutSet_ok d') with (r := 0) (Q := fun i => i < d_nn d2 /\ live 0 d2 i /\ i <> 1) as (cs & seen & E & A1 & A2 & A3 & A4 & A5).
  - intros i e Hi He. rewrite Enn in *. apply KB in He as [He _]; auto. rewrite Ed. now apply (b_ends B).
  - intros i e (Hi & L & Ni) He Nt. rewrite done_trg in Nt. apply KB in He as [He _]; auto. destruct (b_ends B e He) as [_ E2].
    rewrite Ed in *. csplit; auto. right.
    intros E0. eapply (no_ptr_child P I 0 1 rs d2 e); eauto.
  - apply done_root.
  - now rewrite Enn.
  - csplit; [auto|now left|lia].
  - exists cs. csplit; auto.
    + intros i Hi. destruct (A4 i Hi) as (S1 & S2 & _). destruct (A2 i S1) as (_ & S3 & S4 & S5). csplit; auto. apply done_an. auto.
    + intros V (v & Cv & ->) Bt.
      assert (Z : forall n i v, S K - lay d2 i < n -> In i seen -> exa d' i = true -> compl P (st d2 i) v -> bt P (bd d2 i + v) primal ->
        (exists j u, In j cs /\ compl P (st d' j) u /\ be P (bd d' j + u) (bd d2 i + v)) \/
        (exists j l, In j (d_an d') /\ j <> 1 /\ exa d' j = true /\ In l (p_labels P (st d' j)) /\ p_stf P (st d' j) l = Some (p_target P) /\
         be P (bd d' 1) (bd d' j + p_cost P (st d' j) l) /\
         be P (bd d' j + p_cost P (st d' j) l) (bd d2 i + v))).
      { clear v Cv Bt. induction n as [|n IH]; intros i v Hn Hs X Cv Bt; [lia|].
        destruct (A2 i Hs) as (_ & Hi & L & Ni). destruct (done_node i) as (Es & Ek & _ & _ & _ & _ & _ & Q). destruct (Q Ni) as [Eb _].
        destruct (A5 i Hs) as [X0|[Hc|Hk]]; [congruence| |].
        - left. exists i, v. rewrite Es, Eb. csplit; auto. apply be_refl.
        - assert (Nt : st d2 i <> p_target P) by (now rewrite (st_target B Hi)).
          destruct (compl_inv P _ _ Nt Cv) as (l & s' & v' & Hl & S & Cv' & ->).
          assert (LK : lay d2 i <= K).
          { pose proof (l_le H i Hi Ni). destruct (Nat.eq_dec (lay d2 i) (Datatypes.S K)) as [E0|]; [|lia].
            destruct (l_top H i Hi L Ni E0). }
          destruct (l_exp H (or_introl eq_refl) i Hi L Ni LK (fun f => f) (fun f => f) l Hl s' S) as [(loc & Eloc & NB)|(e & He & Eo & El & R)].
          + exfalso. apply NB. pose proof (HL loc s' true v' Eloc) as HB.
            assert (Is : I s') by (apply (cl_step P I HC (st d2 i) l s' (b_I B i Hi) Nt Hl S)).
            specialize (HB Is Cv'). vlia.
          + rewrite Ek, Ed in Hk. specialize (Hk e He). rewrite done_trg in Hk.
            apply (b_kids B) in He as HH; auto. destruct HH as [He' Fe]. destruct (b_ends B e He') as [_ Te].
            destruct (R v' Cv') as (v2 & C2 & B2). pose proof (l_M H e He') as M. rewrite Fe, Eo in M.
            destruct (Nat.eq_dec (to d2 e) 1) as [Et'|Nt'].
            * right. rewrite Et', Et in C2. apply compl_target in C2. subst v2.
              pose proof (g_trg G e He' Et') as S1. rewrite Fe, El in S1.
              exists i, l. rewrite Es, Eb. csplit; auto.
              -- apply done_an. auto.
              -- destruct (done_node 1) as (_ & _ & _ & _ & _ & -> & _).
                 assert (Hin : In e (par d2 1)) by (apply (b_par B); auto). pose proof (proj2 (tg_le _ _ _ _ T) e Hin) as Q1.
                 rewrite Fe, Eo in Q1. exact Q1.
              -- replace (bd d2 i + p_cost P (st d2 i) l)%Z with (bd d2 i + (p_cost P (st d2 i) l + 0))%Z by lia. vlia.
            * destruct Hk as [Hk|[X' Hs']]; [congruence|]. pose proof (l_lbl H e He' Nt') as LL. rewrite Fe in LL.
              destruct (IH (to d2 e) v2) as [(j & u & D1 & D2 & D3)|(j & l' & D1 & D2 & D3 & D4 & D5 & D6 & D7)]; auto; try lia; try vlia.
              -- left. exists j, u. csplit; auto. vlia.
              -- right. exists j, l'. csplit; auto. vlia. }
      destruct (l_root H) as (Rb & _ & Rx). 
      destruct (Z (Datatypes.S (S K - lay d2 0)) 0 v) as [(j & u & D1 & D2 & D3)|(j & l' & D1 & D2 & D3 & D4 & D5 & D6 & D7)]; auto.
      * destruct (done_node 0) as (_ & _ & _ & -> & _). auto.
      * now rewrite Er.
      * now rewrite Rb.
      * left. exists j, u. rewrite Rb in D3. auto.
      * right. exists j, l'. rewrite Rb in D7. csplit; auto.
Qed.
End Done.
End R.
