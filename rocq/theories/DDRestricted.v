(** Restricted diagrams, any model: the reported labels are a genuine label sequence (C04). *)
From Verif Require Import Base HeapProofs MSortModel MSortProofs DDModel DDSpec DDFrame DDInv.
From Coq Require Import Sorting.Sorted.

Lemma msort_swo {T} (cmp : T -> T -> bool) d l : SWO cmp ->
  StronglySorted (fun x y => cmp y x = false) (msort_list cmp d l) /\ Permutation (msort_list cmp d l) l.
Proof. intros [A B]. apply msort_list_ok; auto. Qed.

(** a diagram that holds only its root (node 0) *)
Record started {St} (d : dd St) (rs : St) (rb : Z) (rl : list Z) : Prop := {
  sd_nn : d_nn d = 1; sd_ne : d_ne d = 0; sd_an : d_an d = [0]; sd_root : d_root d = Some 0; sd_trg : d_trg d = None;
  sd_st : st d 0 = rs; sd_bd : bd d 0 = rb; sd_lab : lab d 0 = rl; sd_par : par d 0 = []; sd_kids : kids d 0 = [];
  sd_lay : lay d 0 = 0; sd_ex : exa d 0 = true }.

Section Start.
Context {St : Type}.
Variable P : prob St.

Lemma started_from d src : started (initFrom P d src) (n_state src) (n_bound src) (n_lab src).
Proof. unfold initFrom, duplicate, dd_reset, dd_empty, hasNode. cbn. constructor; reflexivity. Qed.
Lemma started_default b : started (initDefault P (dd_empty P b)) (p_init P) 0 [].
Proof. unfold initDefault, makeNode, dd_empty, hasNode. cbn. constructor; reflexivity. Qed.

(** the diagram on which the main loop starts *)
Definition prep (d : dd St) : dd St :=
  let d0 := target P (with_dexact d true) in with_node d0 0 (nset_layer (d_nd d0 0) 0).

Record prepped (d1 : dd St) (rs : St) (rb : Z) (rl : list Z) : Prop := {
  pp_nn : d_nn d1 = 2; pp_ne : d_ne d1 = 0; pp_an : d_an d1 = [0; 1]; pp_root : d_root d1 = Some 0; pp_trg : d_trg d1 = Some 1;
  pp_st : st d1 0 = rs; pp_bd : bd d1 0 = rb; pp_lab : lab d1 0 = rl; pp_par : par d1 0 = []; pp_kids : kids d1 0 = [];
  pp_lay : lay d1 0 = 0; pp_ex : exa d1 0 = true; pp_dex : d_exact d1 = true;
  pp_st1 : st d1 1 = p_target P; pp_bd1 : bd d1 1 = sentinel P; pp_lab1 : lab d1 1 = []; pp_par1 : par d1 1 = [];
  pp_kids1 : kids d1 1 = []; pp_lay1 : lay d1 1 = 0; pp_ex1 : exa d1 1 = true }.

Lemma prep_ok I d rs rb rl : closed P I -> I rs -> rs <> p_target P -> started d rs rb rl -> prepped (prep d) rs rb rl.
Proof.
  intros HC Irs N H. destruct H. destruct d as [nd nn ed ne an root trg ex]. dsimp. subst.
  unfold prep, target, makeNode.
  assert (hasNode P (with_dexact (mkDD nd 1 ed 0 [0] (Some 0) None ex) true) (p_target P) = None) as ->.
  { unfold hasNode. cbn. destruct (p_eqb P (n_state (nd 0)) (p_target P)) eqn:E; auto.
    apply (cl_eqb P I HC) in E; auto; [congruence|apply (cl_target P I HC)]. }
  constructor; reflexivity || (dsimp; fcase; auto; try lia).
Qed.
End Start.

Section Tighten.
Context {St : Type}.
Variable P : prob St.
Notation dd := (dd St).

Lemma tighten_fold (d : dd) es : forall c0 l0 cur lb,
  fold_left (fun '(cur, lab) e =>
      let ep := (n_bound (d_nd d (e_from (d_ed d e))) + e_obj (d_ed d e))%Z in
      if isBetter P ep cur then (ep, n_lab (d_nd d (e_from (d_ed d e))) ++ [e_lbl (d_ed d e)]) else (cur, lab))
    es (c0, l0) = (cur, lb) ->
  ((cur = c0 /\ lb = l0) \/
   (exists e, In e es /\ bt P cur c0 /\ cur = (bd d (from d e) + obj d e)%Z /\ lb = lab d (from d e) ++ [lbl d e])) /\
  be P cur c0 /\ (forall e, In e es -> be P cur (bd d (from d e) + obj d e)).
Proof.
  induction es as [|e es IH]; intros c0 l0 cur lb H; cbn [fold_left] in H.
  - injection H as <- <-. csplit; auto using be_refl. intros e [].
  - cbn zeta in H. destruct (isBetter P (bd d (from d e) + obj d e) c0) eqn:B.
    + apply IH in H as (H1 & H2 & H3). apply isBetter_bt in B. split; [|split].
      * right. destruct H1 as [(-> & ->)|(e' & Hin & Bt & -> & ->)]; [exists e; cbn; auto|exists e'; cbn; csplit; auto; vlia].
      * vlia.
      * intros e' [<-|Hin]; auto.
    + apply IH in H as (H1 & H2 & H3). apply isBetter_nbt in B. split; [|split]; auto.
      * destruct H1 as [?|(e' & Hin & ?)]; auto. right. exists e'. cbn. auto.
      * intros e' [<-|Hin]; auto. vlia.
Qed.

Record tightened (d : dd) (t : nat) (d' : dd) : Prop := {
  tg_nn : d_nn d' = d_nn d; tg_ne : d_ne d' = d_ne d; tg_ed : d_ed d' = d_ed d; tg_an : d_an d' = d_an d;
  tg_root : d_root d' = d_root d; tg_trg : d_trg d' = d_trg d; tg_dex : d_exact d' = d_exact d;
  tg_st : forall i, st d' i = st d i; tg_par : forall i, par d' i = par d i; tg_kids : forall i, kids d' i = kids d i;
  tg_lay : forall i, lay d' i = lay d i; tg_ex : forall i, exa d' i = exa d i; tg_bb : forall i, bb d' i = bb d i;
  tg_bd : forall i, i <> t -> bd d' i = bd d i; tg_lab : forall i, i <> t -> lab d' i = lab d i;
  tg_t : (bd d' t = sentinel P /\ lab d' t = lab d t) \/
         (exists e, In e (par d t) /\ bt P (bd d' t) (sentinel P) /\ bd d' t = (bd d (from d e) + obj d e)%Z /\
                    lab d' t = lab d (from d e) ++ [lbl d e]);
  tg_le : be P (bd d' t) (sentinel P) /\ forall e, In e (par d t) -> be P (bd d' t) (bd d (from d e) + obj d e) }.

Lemma tighten_spec d t : d_trg d = Some t -> tightened d t (tighten P d t).
Proof.
  intros T. unfold tighten. rewrite T. cbn [is_ptr]. rewrite Nat.eqb_refl. cbn [negb]. rewrite andb_false_r.
  destruct (fold_left _ _ _) as [cur lb] eqn:F. apply tighten_fold in F as (F1 & F2 & F3).
  constructor; dsimp; intros; auto; fcase; auto; try congruence.
Qed.
End Tighten.

Section Restricted.
Context {St : Type}.
Variable P : prob St.
Variable I : St -> Prop.
Hypothesis HC : closed P I.
Variables (rs : St) (rb : Z) (rl : list Z).
Hypothesis Hrs : rs <> p_target P.
Hypothesis HI : I rs.
Notation dd := (dd St).
Notation base := (base P I 0 1 rs).
Notation gen := (gen P I 0 1 rs rb rl).

Lemma prepped_gen (d : dd) : prepped P d rs rb rl -> gen d.
Proof.
  intros [nn ne an root trg sst sbd slab spar skids slay sex sdex st1 bd1 lab1 par1 kids1 lay1 ex1].
  assert (C : forall i, i < d_nn d -> i = 0 \/ i = 1) by (intros; lia).
  constructor; [constructor|..]; auto; rewrite ?nn, ?ne.
  - intros i j Hi Hj. destruct (C i), (C j); subst; try lia; congruence.
  - intros i Hi. destruct (C i); subst; try lia; [congruence|]. rewrite st1. apply HC.
  - split; auto; lia.
  - split; auto; lia.
  - intros e He. lia.
  - intros i e Hi. destruct (C i); subst; try lia; rewrite ?spar, ?par1; cbn; lia.
  - intros i e Hi. destruct (C i); subst; try lia; rewrite ?skids, ?kids1; cbn; lia.
  - intros i Hi. destruct (C i); subst; try lia; rewrite ?spar, ?par1; constructor.
  - intros i Hi. destruct (C i); subst; try lia; rewrite ?skids, ?kids1; constructor.
  - intros i Hi L X. destruct (C i); subst; try lia.
    + apply genuine_root.
    + destruct L as [?|L]; [lia|congruence].
  - intros e He. lia.
  - intros e He. lia.
Qed.
Lemma prepped_exact (d : dd) : prepped P d rs rb rl -> all_exact d.
Proof.
  intros H i Hi. rewrite (pp_nn _ _ _ _ _ H) in Hi. assert (i = 0 \/ i = 1) as [->| ->] by lia; apply H.
Qed.
Lemma prepped_open (d : dd) : prepped P d rs rb rl -> openq 0 1 d [0].
Proof. intros H i [<-|[]]. rewrite (pp_nn _ _ _ _ _ H). repeat split; auto; try lia. now left. Qed.

(** a tightened diagram: the sink is genuine *)
Lemma tighten_genuine d d' : gen d -> all_exact d -> tightened P d 1 d' -> bt P (bd d' 1) (sentinel P) ->
  genuine P rs rb rl (p_target P) (bd d' 1) (lab d' 1).
Proof.
  intros G AX T Bt. pose proof (g_base G) as B.
  destruct (b_t B) as [T1 T2].
  destruct (tg_t _ _ _ _ T) as [(E & _)|(e & Hin & _ & -> & ->)]; [rewrite E in Bt; vlia|].
  apply (b_par B) in Hin as [He Et]; auto.
  destruct (g_edge G e He) as (L & N & Hl & ->).
  destruct (b_ends B e He) as [F _].
  eapply genuine_snoc; eauto. { apply (g_gen G); auto. } now apply (g_trg G).
Qed.

Hypothesis Hrange : in_range P rs rb.

Lemma isBetter_swo (d : dd) : SWO (fun a b => isBetter P (bd d a) (bd d b)).
Proof. constructor; intros; unfold isBetter in *; destruct (p_min P); lia. Qed.

Lemma rs_pull_perm d n q lk q1 : rs_pull P d n q = (lk, q1) ->
  exists a, q = a ++ q1 /\ Permutation lk (n :: a) /\ (forall i, In i lk -> lay d i = lay d n) /\
    StronglySorted (fun x y => be P (bd d x) (bd d y)) lk.
Proof.
  unfold rs_pull. destruct (same_layer_prefix d (lay d n) q) as [a b] eqn:SL. intros [= <- <-]. exists a.
  destruct (msort_swo (fun a b => isBetter P (bd d a) (bd d b)) 0 (n :: a) (isBetter_swo d)) as [S1 S2].
  pose proof (same_layer_prefix_app d _ _ _ _ SL) as Eq. csplit; auto.
  - intros i Hi. apply (Permutation_in _ S2) in Hi. destruct Hi as [<-|Hi]; auto.
    clear - SL Hi. revert a b SL Hi. induction q as [|j q IH]; cbn; intros a b E Hi.
    + injection E as <- <-. destruct Hi.
    + destruct (Nat.eqb_spec (lay d j) (lay d n)) as [e|].
      * destruct (same_layer_prefix d (lay d n) q) as [a1 b1]. injection E as <- <-. destruct Hi as [<-|Hi]; eauto.
      * injection E as <- <-. destruct Hi.
  - assert (W : forall l, StronglySorted (fun x y => isBetter P (bd d y) (bd d x) = false) l -> StronglySorted (fun x y => be P (bd d x) (bd d y)) l).
    { induction 1 as [|x l Hl IH HF]; constructor; auto. eapply Forall_impl; [|exact HF]. intros y Hy. now apply isBetter_nbt in Hy. }
    apply W. exact S1.
Qed.

Lemma rs_loop_gen : forall fuel d primal w q d',
  gen d -> all_exact d -> openq 0 1 d q ->
  rs_loop P fuel d primal w q = Ok d' -> gen d' /\ all_exact d' /\ grows 0 d d'.
Proof.
  induction fuel as [|fuel IH]; intros d primal w q d' G AX Q E; cbn [rs_loop] in E; destruct q as [|n q].
  - injection E as <-. auto using grows_refl.
  - discriminate.
  - injection E as <-. auto using grows_refl.
  - destruct (rs_pull P d n q) as [lk q1] eqn:PL. apply rs_pull_perm in PL as (a & -> & Pm & _).
    apply bind_ok in E as ([d1 q2] & E1 & E).
    assert (Q' : openq 0 1 d q1 /\ openq 0 1 d lk).
    { split; intros i Hi; apply Q.
      - right. apply in_or_app. auto.
      - apply (Permutation_in _ Pm) in Hi. destruct Hi as [<-|Hi]; [now left|right; apply in_or_app; auto]. }
    eapply (rs_layer_gen P I HC 0 1 rs rb rl Hrange) in E1 as (G1 & AX1 & Gr1 & Q1); try apply Q'; auto.
    apply IH in E as (G2 & AX2 & Gr2); auto. csplit; auto. eapply grows_trans; eauto.
Qed.

(** C04 for a diagram started at (rs, rb, rl) *)
Theorem restricted_genuine fuel d primal w d' : started d rs rb rl ->
  rs_compute P fuel d primal w = Ok d' ->
  exists n, trg_node d' = Ok n /\ n_state n = p_target P /\
    (bt P (n_bound n) (sentinel P) -> genuine P rs rb rl (p_target P) (n_bound n) (n_lab n)).
Proof.
  intros S E. unfold rs_compute in E. rewrite (sd_root _ _ _ _ S) in E.
  change (with_node (target P (with_dexact d true)) 0 (nset_layer (d_nd (target P (with_dexact d true)) 0) 0)) with (prep P d) in E.
  apply bind_ok in E as (d2 & E2 & E).
  pose proof (prep_ok P I d rs rb rl HC HI Hrs S) as PP.
  apply rs_loop_gen in E2 as (G & AX & _); auto using prepped_gen, prepped_exact, prepped_open.
  pose proof (g_base G) as B.
  rewrite (b_trg B) in E. injection E as <-.
  pose proof (tighten_spec P d2 1 (b_trg B)) as T.
  exists (d_nd (tighten P d2 1) 1). unfold trg_node. rewrite (tg_trg _ _ _ _ T), (b_trg B).
  split; [auto|]. split; [rewrite (tg_st _ _ _ _ T); apply (b_t B)|].
  intros. eapply tighten_genuine; eauto.
Qed.
End Restricted.
