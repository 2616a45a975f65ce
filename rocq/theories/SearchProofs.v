(** Branch and bound: invariants of the search (C16, C17, C18, C19, C22, C23, C53). *)
From Coq Require Import Sorted.
From Verif Require Import Base HeapModel HeapProofs DDModel DDSpec DDFrame DDRestricted DDRestricted2 DDRelaxedEnd DDWide SearchModel.

(** ** the queue as a list of entries *)
Definition entries (h : heap qnode) : list qnode := map snd (heap_elems h).
Lemma entries_in (h : heap qnode) l : In l (heap_locs h) -> In (hval h l) (entries h).
Proof. intros H. unfold entries, heap_elems. rewrite map_map. cbn. now apply in_map. Qed.
Lemma entries_locs (h : heap qnode) q : In q (entries h) -> exists l, In l (heap_locs h) /\ q = hval h l.
Proof. unfold entries, heap_elems. rewrite map_map. cbn. intros H. apply in_map_iff in H as (l & E & H). eauto. Qed.
Lemma nth_locs (h : heap qnode) : map (heap_nth h) (seq 0 (heap_size h)) = heap_locs h.
Proof.
  unfold heap_locs, heap_nth, heap_size. rewrite <- (seq_shift (hat h - 1) 0), map_map. apply map_ext. intros i. f_equal. lia.
Qed.

Section Queue.
Context {St : Type} (P : prob St).
Lemma q_ord_swo : SWO (q_ord P).
Proof. constructor; unfold q_ord, isBetter; intros; destruct (p_min P); lia. Qed.

Lemma pq_remove_ok : forall ls (h : heap qnode), heap_ok (q_ord P) h -> NoDup ls -> incl ls (heap_locs h) ->
  exists h', pq_remove P h ls = Ok h' /\ heap_ok (q_ord P) h' /\ Permutation (entries h) (map (hval h) ls ++ entries h') /\
    (forall l, In l (heap_locs h) -> ~ In l ls -> In l (heap_locs h') /\ hval h' l = hval h l).
Proof.
  induction ls as [|l ls IH]; intros h H ND IN; cbn [pq_remove].
  - exists h. csplit; auto.
  - apply NoDup_cons_iff in ND as [Nl ND].
    destruct (remove_some _ q_ord_swo h l H (IN l (or_introl eq_refl))) as (v & h1 & E). rewrite E.
    destruct (remove_ok _ q_ord_swo h l v h1 H (IN l (or_introl eq_refl)) E) as (H1 & Pm & ->).
    assert (Sub : forall l', In l' (heap_locs h1) -> In l' (heap_locs h) /\ hval h1 l' = hval h l').
    { intros l' Hl'. assert (In (l', hval h1 l') (heap_elems h)) as Q.
      { eapply Permutation_in; [symmetry; exact Pm|]. right. unfold heap_elems. apply in_map_iff. eauto. }
      unfold heap_elems in Q. apply in_map_iff in Q as (x & Q & Hx). injection Q as -> Q. auto. }
    assert (Sup : forall l', In l' (heap_locs h) -> l' <> l -> In l' (heap_locs h1)).
    { intros l' Hl' Nl'. assert (In (l', hval h l') ((l, hval h l) :: heap_elems h1)) as Q.
      { eapply Permutation_in; [exact Pm|]. unfold heap_elems. apply in_map_iff. eauto. }
      destruct Q as [Q|Q]; [congruence|]. unfold heap_elems in Q. apply in_map_iff in Q as (x & Q & Hx). injection Q as -> Q. auto. }
    destruct (IH h1 H1 ND) as (h' & E' & A1 & A2 & A3).
    { intros l' Hl'. apply Sup; [apply IN; now right|]. intros ->. auto. }
    exists h'. csplit; auto.
    + unfold entries in *. apply (Permutation_map snd) in Pm. cbn [map snd] in Pm. rewrite Pm. cbn [map app]. constructor. rewrite A2.
      apply Permutation_app_tail. apply Permutation_refl'. apply map_ext_in. intros l' Hl'. apply Sub, Sup; [apply IN; now right|]. intros ->; auto.
    + intros l' Hl' Nl'. cbn [In] in Nl'. destruct (A3 l') as [B1 B2]; [apply Sup; auto|auto|]. split; auto. rewrite B2. apply Sub. apply Sup; auto.
Qed.

(** what the scan of the queue establishes *)
Definition q_dominates (sdom : St -> St -> bool) (a b : node St) : Prop :=
  be P (n_bound a) (n_bound b) /\ sdom (n_state a) (n_state b) = true.
Lemma dom_scan_ok sdom pool (h : heap qnode) n : forall locs acc b ls, NoDup (acc ++ locs) -> dom_scan P sdom pool h n locs acc = (b, ls) ->
  exists sel, ls = acc ++ sel /\ NoDup ls /\ incl sel locs /\
    (forall l, In l sel -> q_dominates sdom n (pool_node P pool (fst (hval h l)))) /\
    (b = true -> exists l, In l locs /\ ~ In l ls /\ q_dominates sdom (pool_node P pool (fst (hval h l))) n).
Proof.
  induction locs as [|l r IH]; intros acc b ls ND E; cbn [dom_scan] in E.
  - injection E as <- <-. exists []. rewrite !app_nil_r in *. csplit; auto; [intros l []|intros l []|discriminate].
  - assert (ND' : NoDup (acc ++ r)) by (now apply NoDup_remove_1 in ND). assert (Nl : ~ In l (acc ++ r)) by (now apply NoDup_remove_2 in ND).
    destruct (isBetterEQ P _ _ && sdom _ _) eqn:C1.
    + injection E as <- <-. exists []. rewrite app_nil_r. csplit; auto; [..|intros x []|intros x []|].
      * clear - ND'. induction acc as [|a acc IH]; [constructor|]. cbn in ND'. apply NoDup_cons_iff in ND' as [Na ND']. constructor; auto.
        intros H. apply Na. apply in_or_app. auto.
      * intros _. exists l. csplit; [now left| |].
        -- intros H. apply Nl. apply in_or_app. auto.
        -- apply andb_true_iff in C1 as [C1 C2]. apply isBetterEQ_be in C1. split; auto.
    + destruct (isBetterEQ P (n_bound n) _ && _) eqn:C2.
      * apply IH in E as (sel & -> & A1 & A2 & A3 & A4); [|now rewrite <- app_assoc].
        exists (l :: sel). rewrite <- app_assoc in *. cbn [app] in *. csplit; auto.
        -- intros x [<-|Hx]; [now left|right; auto].
        -- intros x [<-|Hx]; auto. apply andb_true_iff in C2 as [C2 C3]. apply isBetterEQ_be in C2. split; auto.
        -- intros Eb. destruct (A4 Eb) as (x & B1 & B2 & B3). exists x. csplit; auto. now right.
      * apply IH in E as (sel & -> & A1 & A2 & A3 & A4); auto. exists sel. csplit; auto.
        -- intros x Hx. right. auto.
        -- intros Eb. destruct (A4 Eb) as (x & B1 & B2 & B3). exists x. csplit; auto. now right.
Qed.

Lemma dom_phase_ok pool (h : heap qnode) n : heap_ok (q_ord P) h ->
  exists h' k b, dom_phase P pool h n = Ok (h', k, b) /\ heap_ok (q_ord P) h' /\
    exists gone, Permutation (entries h) (gone ++ entries h') /\
      (forall q, In q gone -> exists sdom, p_sdom P = Some sdom /\ q_dominates sdom n (pool_node P pool (fst q))) /\
      (b = true -> exists sdom q, p_sdom P = Some sdom /\ In q (entries h') /\ q_dominates sdom (pool_node P pool (fst q)) n).
Proof.
  intros H. unfold dom_phase. destruct (p_sdom P) as [sdom|] eqn:ES.
  - rewrite nth_locs. destruct (dom_scan P sdom pool h n (heap_locs h) []) as [b ls] eqn:E.
    destruct (dom_scan_ok sdom pool h n (heap_locs h) [] b ls) as (sel & -> & A1 & A2 & A3 & A4); auto.
    { apply NoDup_locs. apply H. }
    cbn [app] in *.
    destruct (pq_remove_ok sel h H A1 A2) as (h' & E' & B1 & B2 & B3). rewrite E'. cbn [bind].
    exists h', (length sel), b. csplit; auto. exists (map (hval h) sel). csplit; auto.
    + intros q Hq. apply in_map_iff in Hq as (l & <- & Hl). eauto.
    + intros Eb. destruct (A4 Eb) as (l & C1 & C2 & C3). destruct (B3 l C1 C2) as [D1 D2]. exists sdom, (hval h' l). csplit; auto.
      * now apply entries_in.
      * now rewrite D2.
  - exists h, 0, false. csplit; auto. exists []. csplit; auto; [intros q []|discriminate].
Qed.
End Queue.

(** ** specification vocabulary *)
Section Vocab.
Context {St : Type} (P : prob St).

(** The solution log: [vs] are the costs of the label sequences handed to the callbacks (most recent first).  Each is genuine, each
    improves strictly on all earlier ones and on the initial primal [p0]; primal and incumbent are those of the latest one. *)
Definition log_of (p0 : Z) (b : bounds) (vs : list Z) : Prop :=
  Forall2 (fun lab v => genuine P (p_init P) 0 [] (p_target P) v lab) (b_log b) vs /\
  StronglySorted (bt P) vs /\ Forall (fun v => bt P v p0) vs /\
  b_primal b = hd p0 vs /\ b_inc b = hd [] (b_log b).

(** a node of the search: reached from the initial state with the cost and labels it carries *)
Definition node_ok (n : node St) : Prop :=
  genuine P (p_init P) 0 [] (n_state n) (n_bound n) (n_lab n) /\ n_state n <> p_target P.

Record sinv (p0 : Z) (s : sst) : Prop := {
  i_pool : Forall node_ok (s_pool s);
  i_nds : NoDup (map n_state (s_pool s));
  i_heap : heap_ok (q_ord P) (s_pq s);
  i_idx : forall q, In q (s_out s ++ entries (s_pq s)) -> fst q < length (s_pool s);
  i_ndq : NoDup (map fst (s_out s ++ entries (s_pq s)));
  i_log : exists vs, log_of p0 (s_b s) vs }.

(** node n has a completion at least as good as V *)
Definition covers (n : node St) (V : Z) : Prop := exists v, compl P (n_state n) v /\ be P (n_bound n + v) V.
Definition q_covers (pool : list (node St)) (es : list qnode) (V : Z) : Prop := exists q, In q es /\ covers (pool_node P pool (fst q)) V.
(** the key of a queue entry never under-promises, as far as improvements on [p] are concerned *)
Definition key_ok (pool : list (node St)) (p : Z) (q : qnode) : Prop :=
  forall v, compl P (n_state (pool_node P pool (fst q))) v -> bt P (n_bound (pool_node P pool (fst q)) + v) p ->
    be P (snd q) (n_bound (pool_node P pool (fst q)) + v).
(** dominance as the queue uses it: between states of any two depths *)
Definition valid_qdom (I : St -> Prop) : Prop :=
  forall sdom a b, p_sdom P = Some sdom -> I a -> I b -> a <> p_target P -> b <> p_target P -> sdom a b = true -> relaxes P a b.

Lemma covers_le n V V' : covers n V -> be P V V' -> covers n V'.
Proof. intros (v & C & B) L. exists v. split; auto. vlia. Qed.
Lemma pool_node_app pool x i : i < length pool -> pool_node P (pool ++ x) i = pool_node P pool i.
Proof. intros H. unfold pool_node. now rewrite app_nth1. Qed.
Lemma pool_node_in pool i : i < length pool -> In (pool_node P pool i) pool.
Proof. apply nth_In. Qed.
Lemma log_primal p0 b vs : log_of p0 b vs -> be P (b_primal b) p0.
Proof.
  intros (_ & _ & F & -> & _). destruct vs as [|v vs]; cbn; [apply be_refl|]. inversion F; subst. vlia.
Qed.
Lemma log_push p0 b vs v lab : log_of p0 b vs -> genuine P (p_init P) 0 [] (p_target P) v lab -> bt P v (b_primal b) ->
  log_of p0 (mkBounds (better P v (b_primal b)) lab (lab :: b_log b)) (v :: vs).
Proof.
  intros L G B. pose proof (log_primal _ _ _ L) as L0. destruct L as (A1 & A2 & A3 & A4 & A5).
  assert (Fv : Forall (bt P v) vs).
  { destruct vs as [|u vs]; [constructor|]. cbn in A4. rewrite A4 in B. apply StronglySorted_inv in A2 as [_ A2].
    constructor; auto. eapply Forall_impl; [|exact A2]. intros a Ha. vlia. }
  unfold log_of. cbn. csplit; auto.
  - constructor; auto.
  - constructor; auto. vlia.
  - unfold better. destruct (isBetter P v (b_primal b)) eqn:E; auto. apply isBetter_nbt in E. vlia.
Qed.
End Vocab.

Section Search.
Context {St : Type} (P : prob St) (I : St -> Prop) (rank : St -> nat) (N : nat).
Hypothesis VM : valid_model P I rank N.
Hypothesis Hinit : p_init P <> p_target P.
Hypothesis HI : I (p_init P).
Hypothesis Hrange : in_range P (p_init P) 0.
Variable srt : dd St -> list nat -> list nat.
Hypothesis Hsrt : forall d l, Permutation (srt d l) l.
Variable dfuel : nat.
Hypothesis Hfuel : N + 1 < dfuel.
Variable mxw : nat.
Hypothesis Hmxw : (N.of_nat mxw < 4294967296)%N.
Variable p0 : Z.
Hypothesis Hp0 : be P p0 (sentinel P).

Let HC := vm_closed _ _ _ _ VM.
Notation sst := (@sst St).
Notation sinv := (sinv P p0).
Notation node_ok := (node_ok P).
Notation covers := (covers P).
Notation q_covers := (q_covers P).
Notation key_ok := (key_ok P).

Lemma node_I n : node_ok n -> I (n_state n).
Proof. intros [(ls & v & _ & _ & H) _]. eapply path_closed; eauto. Qed.
Lemma node_range n : node_ok n -> in_range P (n_state n) (n_bound n).
Proof. intros [G _]. eapply in_range_step; eauto. Qed.
Lemma covers_solution n V : covers n V <-> exists V', solution P (n_state n) (n_bound n) V' /\ be P V' V.
Proof.
  split.
  - intros (v & C & B). exists (n_bound n + v)%Z. split; auto. exists v; auto.
  - intros (V' & (v & C & ->) & B). exists v; auto.
Qed.

(** *** one relaxed diagram *)
Lemma apply_relaxed w d from b vs : node_ok from -> log_of P p0 b vs ->
  exists d1 b1 db vs1, apply P srt dfuel (SRelaxed w) d from b = Ok (d1, b1, db) /\ log_of P p0 b1 vs1 /\ be P (b_primal b1) (b_primal b) /\
    rx_compute P srt dfuel (initFrom P d from) (b_primal b) w = Ok d1 /\
    (db = false -> b1 = b /\ forall V, covers from V -> be P (b_primal b1) V) /\
    (d_exact d1 = true -> forall V, covers from V -> be P (b_primal b1) V) /\
    (d_exact d1 = false -> b1 = b).
Proof.
  intros Nk L. pose proof (node_I _ Nk) as Is. pose proof (node_range _ Nk) as Rg. destruct Nk as [G Nt].
  pose proof (started_from P d from) as S0. assert (F : N + 1 < dfuel + rank (n_state from)) by lia.
  unfold apply. cbn [compute].
  destruct (relaxed_terminates P I rank N VM _ _ _ Nt Is Rg srt Hsrt dfuel _ (b_primal b) w S0 F) as [d1 E]. rewrite E. cbn [bind].
  destruct (relaxed_dual_bound P I rank N VM _ _ _ Nt Is Rg srt Hsrt dfuel _ (b_primal b) w d1 S0 F E) as (t & Et & _ & DB). rewrite Et. cbn [bind].
  destruct (isBetter P (n_bound t) (b_primal b)) eqn:C.
  - apply isBetter_bt in C. unfold update. rewrite Et. cbn [bind st_primal st_dual orb andb].
    destruct (d_exact d1) eqn:X; cbn [bind].
    + destruct (relaxed_exact P I rank N VM _ _ _ Nt Is Rg srt Hsrt dfuel _ (b_primal b) w d1 S0 F E X) as (t' & Et' & Gt & _).
      rewrite Et in Et'. injection Et' as <-.
      assert (Gt' : genuine P (p_init P) 0 [] (p_target P) (n_bound t) (n_lab t)).
      { eapply genuine_trans; [exact G|]. apply Gt. pose proof (log_primal P _ _ _ L). vlia. }
      pose proof (log_push P _ _ _ _ _ L Gt' C) as L1. do 4 eexists. split; [reflexivity|]. split; [exact L1|].
      assert (Ep : better P (n_bound t) (b_primal b) = n_bound t) by (unfold better; apply isBetter_bt in C; now rewrite C).
      cbn. rewrite Ep, X. csplit; auto; try discriminate; [vlia|].
      intros _ V HV. apply covers_solution in HV as (V' & SV & LV). destruct (isBetter P V' (b_primal b)) eqn:CV.
      * apply isBetter_bt in CV. specialize (DB V' SV CV). vlia.
      * apply isBetter_nbt in CV. vlia.
    + do 4 eexists. split; [reflexivity|]. split; [exact L|]. rewrite X. csplit; auto using be_refl; discriminate.
  - apply isBetter_nbt in C. cbn [bind]. assert (Q : forall V, covers from V -> be P (b_primal b) V).
    { intros V HV. apply covers_solution in HV as (V' & SV & LV). destruct (isBetter P V' (b_primal b)) eqn:CV.
      * apply isBetter_bt in CV. specialize (DB V' SV CV). vlia.
      * apply isBetter_nbt in CV. vlia. }
    do 4 eexists. split; [reflexivity|]. split; [exact L|]. csplit; auto using be_refl.
Qed.

(** *** one restricted diagram *)
Lemma apply_restricted d from b vs : node_ok from -> log_of P p0 b vs ->
  exists d2 b2 pb vs2, apply P srt dfuel (SRestricted mxw) d from b = Ok (d2, b2, pb) /\ log_of P p0 b2 vs2 /\ be P (b_primal b2) (b_primal b) /\
    (d_exact d2 = true -> forall V, covers from V -> be P (b_primal b2) V).
Proof.
  intros Nk L. pose proof (node_I _ Nk) as Is. pose proof (node_range _ Nk) as Rg. destruct Nk as [G Nt].
  pose proof (started_from P d from) as S0. assert (F : N + 1 < dfuel + rank (n_state from)) by lia.
  unfold apply. cbn [compute].
  destruct (restricted_any_width P I rank N VM _ _ _ Nt Is Rg dfuel _ (b_primal b) mxw S0 Hmxw F) as (d2 & E & _ & X). rewrite E. cbn [bind].
  destruct (restricted_genuine P I HC _ _ _ Nt Is Rg dfuel _ (b_primal b) mxw d2 S0 E) as (t & Et & _ & Gt). rewrite Et. cbn [bind].
  assert (DB : d_exact d2 = true -> forall V, covers from V -> be P (b_primal b) V \/ be P (n_bound t) V).
  { intros Xd V HV. destruct (X Xd) as (t' & Et' & DB). rewrite Et in Et'. injection Et' as <-.
    apply covers_solution in HV as (V' & SV & LV). destruct (isBetter P V' (b_primal b)) eqn:CV.
    - right. apply isBetter_bt in CV. specialize (DB V' SV CV). vlia.
    - left. apply isBetter_nbt in CV. vlia. }
  destruct (isBetter P (n_bound t) (b_primal b)) eqn:C.
  - apply isBetter_bt in C. unfold update. rewrite Et. cbn [bind st_primal st_dual orb andb].
    assert (Gt' : genuine P (p_init P) 0 [] (p_target P) (n_bound t) (n_lab t)).
    { eapply genuine_trans; [exact G|]. apply Gt. pose proof (log_primal P _ _ _ L). vlia. }
    pose proof (log_push P _ _ _ _ _ L Gt' C) as L1. do 4 eexists. split; [reflexivity|]. split; [exact L1|].
    assert (Ep : better P (n_bound t) (b_primal b) = n_bound t) by (unfold better; apply isBetter_bt in C; now rewrite C).
    cbn. rewrite Ep. csplit; auto; [vlia|]. intros Xd V HV. destruct (DB Xd V HV); auto. vlia.
  - apply isBetter_nbt in C. cbn [bind]. do 4 eexists. split; [reflexivity|]. split; [exact L|]. csplit; auto using be_refl.
    intros Xd V HV. destruct (DB Xd V HV); auto. vlia.
Qed.

(** *** one node of the cut set *)
Lemma clone_node_ok n : node_ok n -> node_ok (clone_of n).
Proof. intros H. exact H. Qed.

Record cut_frame (s s' : sst) : Prop := {
  cf_b : s_b s' = s_b s; cf_out : s_out s' = s_out s; cf_hist : s_hist s' = s_hist s; cf_ttl : s_ttl s' = s_ttl s;
  cf_seen : s_seen s <= s_seen s'; cf_pool : exists x, s_pool s' = s_pool s ++ x }.
Lemma cut_frame_refl s : cut_frame s s.
Proof. constructor; auto. exists []. now rewrite app_nil_r. Qed.
Lemma cut_frame_trans a b c : cut_frame a b -> cut_frame b c -> cut_frame a c.
Proof.
  intros [A1 A2 A3 A4 A5 (x & A6)] [B1 B2 B3 B4 B5 (y & B6)]. constructor; try congruence; [lia|].
  exists (x ++ y). rewrite B6, A6. symmetry. apply app_assoc.
Qed.

(** coverage of V by the queue of s or by the primal *)
Definition held (s : sst) (V : Z) : Prop := be P (b_primal (s_b s)) V \/ q_covers (s_pool s) (entries (s_pq s)) V.
Definition keys_ok (s : sst) : Prop := forall q, In q (entries (s_pq s)) -> key_ok (s_pool s) (b_primal (s_b s)) q.

Lemma sinv_gone s h gone w k1 k2 k3 : sinv s -> heap_ok (q_ord P) h -> Permutation (entries (s_pq s)) (gone ++ entries h) ->
  sinv (cut_upd s (s_pool s) h w k1 k2 k3).
Proof.
  intros V H Pm. destruct V as [i_pool i_nds i_heap i_idx i_ndq i_log]. constructor; cbn; auto.
  - intros q Hq. apply i_idx. apply in_or_app. apply in_app_or in Hq as [?|Hq]; auto. right.
    eapply Permutation_in; [symmetry; exact Pm|]. apply in_or_app; auto.
  - assert (Q : Permutation (s_out s ++ entries (s_pq s)) (gone ++ (s_out s ++ entries h))).
    { rewrite Pm, !app_assoc. apply Permutation_app_tail. apply Permutation_app_comm. }
    apply (Permutation_map fst) in Q. apply (Permutation_NoDup Q) in i_ndq. rewrite map_app in i_ndq.
    clear - i_ndq. induction gone as [|g gone IH]; auto. cbn in i_ndq. apply NoDup_cons_iff in i_ndq as [_ ?]; auto.
Qed.

Lemma cut_step_ok d s i : sinv s -> node_ok (d_nd d i) ->
  exists s', cut_step P d s i = Ok s' /\ sinv s' /\ cut_frame s s' /\
   (keys_ok s -> (forall v, compl P (n_state (d_nd d i)) v -> bt P (n_bound (d_nd d i) + v) (b_primal (s_b s)) -> be P (n_bb (d_nd d i)) v) -> keys_ok s') /\
   (valid_qdom P I -> s_seen s' = s_seen s ->
    (forall v, compl P (n_state (d_nd d i)) v -> bt P (n_bound (d_nd d i) + v) (b_primal (s_b s)) -> be P (n_bb (d_nd d i)) v) ->
    forall V, held s V \/ covers (d_nd d i) V -> held s' V).
Proof.
  intros V Nk. set (n := d_nd d i) in *. unfold cut_step. fold n. cbn zeta.
  set (w := if is_ptr (d_root d) i then S (s_w s) else s_w s). pose proof (i_heap _ _ _ V) as Hh.
  destruct (isBetter P (n_bound n + n_bb n) (b_primal (s_b s))) eqn:C; cbn [negb].
  2:{ eexists. split; [reflexivity|]. csplit.
      - apply (sinv_gone s (s_pq s) []); auto.
      - constructor; cbn; auto. exists []. now rewrite app_nil_r.
      - intros K _. exact K.
      - intros _ _ HB V0 [H|(v & Cv & Bv)]; [exact H|]. left. cbn. apply isBetter_nbt in C.
        destruct (isBetter P (n_bound n + v) (b_primal (s_b s))) eqn:C2.
        + apply isBetter_bt in C2. specialize (HB v Cv C2). vlia.
        + apply isBetter_nbt in C2. vlia. }
  apply isBetter_bt in C.
  destruct (dom_phase_ok P (s_pool s) (s_pq s) n Hh) as (h & k & b & E & Hh' & gone & Pm & Gone & Dom). rewrite E. cbn [bind].
  pose proof (sinv_gone s h gone w (s_pruned s + k) (s_insDom s) (s_seen s) V Hh' Pm) as V1.
  assert (Sub : forall q, In q (entries h) -> In q (entries (s_pq s))).
  { intros q Hq. eapply Permutation_in; [symmetry; exact Pm|]. apply in_or_app; auto. }
  assert (PN : forall q, In q (entries (s_pq s)) -> node_ok (pool_node P (s_pool s) (fst q))).
  { intros q Hq. pose proof (i_pool _ _ _ V) as FP. rewrite Forall_forall in FP. apply FP. apply pool_node_in.
    apply (i_idx _ _ _ V). apply in_or_app; auto. }
  (* what the removed entries covered is covered by n or by the entries left *)
  assert (Keep : valid_qdom P I -> forall V0, q_covers (s_pool s) (entries (s_pq s)) V0 -> q_covers (s_pool s) (entries h) V0 \/ covers n V0).
  { intros QD V0 (q & Hq & v & Cv & Bv). pose proof (Permutation_in _ Pm Hq) as Hq'. apply in_app_or in Hq' as [Hq'|Hq'].
    - right. destruct (Gone q Hq') as (sdom & Es & Bd & Sd). pose proof (PN q Hq) as Nq.
      destruct (QD sdom _ _ Es (node_I _ Nk) (node_I _ Nq) (proj2 Nk) (proj2 Nq) Sd v Cv) as (v' & Cv' & Bv').
      exists v'. split; auto. vlia.
    - left. exists q. split; auto. exists v; auto. }
  assert (KeepKeys : forall w k1 k2 k3, keys_ok s -> keys_ok (cut_upd s (s_pool s) h w k1 k2 k3)).
  { intros w' k1 k2 k3 K q Hq. cbn in *. apply K. auto. }
  destruct b.
  - eexists. split; [reflexivity|]. csplit.
    + apply (sinv_gone s h gone); auto.
    + constructor; cbn; auto. exists []. now rewrite app_nil_r.
    + intros K _. now apply KeepKeys.
    + intros QD _ HB V0 HV. assert (NV : covers n V0 -> q_covers (s_pool s) (entries h) V0).
      { intros (v & Cv & Bv). destruct (Dom eq_refl) as (sdom & q & Es & Hq & Bd & Sd). pose proof (PN q (Sub q Hq)) as Nq.
        destruct (QD sdom _ _ Es (node_I _ Nq) (node_I _ Nk) (proj2 Nq) (proj2 Nk) Sd v Cv) as (v' & Cv' & Bv').
        exists q. split; auto. exists v'. split; auto. vlia. }
      destruct HV as [[HV|HV]|HV]; [left; auto| |right; auto].
      destruct (Keep QD V0 HV) as [?|?]; right; cbn; auto.
  - unfold cloneNode. destruct (existsb (fun x => p_eqb P (n_state x) (n_state n)) (s_pool s)) eqn:Ex.
    + eexists. split; [reflexivity|]. csplit.
      * apply (sinv_gone s h gone); auto.
      * constructor; cbn; auto. exists []. now rewrite app_nil_r.
      * intros K _. now apply KeepKeys.
      * cbn. intros _ Hs. exfalso. lia.
    + assert (Fresh : ~ In (n_state n) (map n_state (s_pool s))).
      { intros H. apply in_map_iff in H as (x & Ex' & Hx). assert (existsb (fun x => p_eqb P (n_state x) (n_state n)) (s_pool s) = true); [|congruence].
        apply existsb_exists. exists x. split; auto. apply (cl_eqb P I HC); auto; [|now apply node_I].
        apply node_I. pose proof (i_pool _ _ _ V) as FP. rewrite Forall_forall in FP. auto. }
      set (bwd := match p_local P with Some local => local (n_state n) false | None => n_bb n end).
      set (key := (n_bound n + bwd)%Z). set (new := (length (s_pool s), key)).
      assert (PNew : pool_node P (s_pool s ++ [clone_of n]) (length (s_pool s)) = clone_of n).
      { unfold pool_node. rewrite app_nth2 by lia. now rewrite Nat.sub_diag. }
      set (h2 := if isBetter P key (b_primal (s_b s)) then fst (heap_insertHeap (q_ord P) q_dflt h new) else h).
      assert (H2 : heap_ok (q_ord P) h2 /\ ((isBetter P key (b_primal (s_b s)) = true /\ Permutation (entries h2) (new :: entries h)) \/
                    (isBetter P key (b_primal (s_b s)) = false /\ h2 = h))).
      { unfold h2. destruct (isBetter P key (b_primal (s_b s))); [|auto].
        destruct (heap_insertHeap (q_ord P) q_dflt h new) as [h3 l] eqn:EI.
        destruct (insertHeap_ok _ q_dflt (q_ord_swo P) h new h3 l Hh' EI) as (O & Pm2 & _). cbn [fst]. split; auto. left. split; auto.
        unfold entries. now rewrite Pm2. }
      destruct H2 as [Hh2 H2].
      assert (In2 : forall q, In q (entries h2) -> q = new \/ In q (entries h)).
      { intros q Hq. destruct H2 as [(_ & Pm2)|(_ & ->)]; auto. apply (Permutation_in _ Pm2) in Hq as [<-|?]; auto. }
      assert (PO : forall q, In q (entries (s_pq s)) -> pool_node P (s_pool s ++ [clone_of n]) (fst q) = pool_node P (s_pool s) (fst q)).
      { intros q Hq. apply pool_node_app. apply (i_idx _ _ _ V). apply in_or_app; auto. }
      assert (KN : (forall v, compl P (n_state n) v -> bt P (n_bound n + v) (b_primal (s_b s)) -> be P (n_bb n) v) ->
         forall v, compl P (n_state n) v -> bt P (n_bound n + v) (b_primal (s_b s)) -> be P key (n_bound n + v)).
      { intros HB v Cv Bv. unfold key, bwd. destruct (p_local P) as [local|] eqn:El.
        - pose proof (vm_local _ _ _ _ VM local (n_state n) false v El (node_I _ Nk) Cv). vlia.
        - specialize (HB v Cv Bv). vlia. }
      eexists. split; [reflexivity|]. csplit.
      * destruct V1 as [i_pool i_nds i_heap i_idx i_ndq i_log]. cbn in *. constructor; cbn; auto.
        -- apply Forall_app. split; auto. 
        -- rewrite map_app. cbn. eapply Permutation_NoDup; [apply Permutation_app_comm|]. cbn. constructor; auto.
        -- intros q Hq. rewrite app_length. cbn. apply in_app_or in Hq as [Hq|Hq].
           ++ specialize (i_idx q (in_or_app _ _ _ (or_introl Hq))). lia.
           ++ apply In2 in Hq as [->|Hq]; [cbn; lia|]. specialize (i_idx q (in_or_app _ _ _ (or_intror Hq))). lia.
        -- destruct H2 as [(_ & Pm2)|(_ & ->)]; auto.
           assert (Q : Permutation (s_out s ++ entries h2) (new :: (s_out s ++ entries h))).
           { rewrite Pm2. symmetry. apply Permutation_middle. }
           apply (Permutation_map fst) in Q. eapply Permutation_NoDup; [symmetry; exact Q|]. cbn [map]. constructor; auto.
           intros Hin. apply in_map_iff in Hin as (q & Eq & Hq). specialize (i_idx q Hq). cbn in Eq. lia.
      * constructor; cbn; auto. eauto.
      * intros K HB q Hq. cbn in *. apply In2 in Hq as [->|Hq].
        -- unfold key_ok. cbn [fst new]. unfold new. cbn [fst snd]. rewrite PNew. apply KN; auto.
        -- unfold SearchProofs.key_ok. rewrite PO by auto. apply K. auto.
      * cbn. intros QD _ HB V0 HV.
        assert (NV : covers n V0 -> be P (b_primal (s_b s)) V0 \/ q_covers (s_pool s ++ [clone_of n]) (entries h2) V0).
        { intros (v & Cv & Bv). destruct (isBetter P (n_bound n + v) (b_primal (s_b s))) eqn:C2.
          - apply isBetter_bt in C2. pose proof (KN HB v Cv C2) as Kb. destruct H2 as [(_ & Pm2)|(Kf & _)].
            + right. exists new. split; [eapply Permutation_in; [symmetry; exact Pm2|now left]|]. cbn [fst new]. unfold new. cbn [fst]. rewrite PNew.
              exists v. auto.
            + exfalso. apply isBetter_nbt in Kf. vlia.
          - apply isBetter_nbt in C2. left. vlia. }
        assert (OV : q_covers (s_pool s) (entries h) V0 -> q_covers (s_pool s ++ [clone_of n]) (entries h2) V0).
        { intros (q & Hq & HV'). exists q. rewrite PO by auto. split; auto.
          destruct H2 as [(_ & Pm2)|(_ & ->)]; auto. eapply Permutation_in; [symmetry; exact Pm2|now right]. }
        unfold held. cbn. destruct HV as [[HV|HV]|HV]; [left; auto| |auto].
        destruct (Keep QD V0 HV) as [?|?]; auto.
Qed.

Lemma cut_loop_ok d : forall cs s, sinv s -> (forall i, In i cs -> node_ok (d_nd d i)) ->
  exists s', cut_loop P d s cs = Ok s' /\ sinv s' /\ cut_frame s s' /\
   ((forall i v, In i cs -> compl P (n_state (d_nd d i)) v -> bt P (n_bound (d_nd d i) + v) (b_primal (s_b s)) -> be P (n_bb (d_nd d i)) v) ->
    (keys_ok s -> keys_ok s') /\
    (valid_qdom P I -> s_seen s' = s_seen s -> forall V, held s V \/ (exists i, In i cs /\ covers (d_nd d i) V) -> held s' V)).
Proof.
  induction cs as [|i cs IH]; intros s V Nk; cbn [cut_loop].
  - exists s. csplit; auto using cut_frame_refl. intros _. split; auto. intros _ _ V0 [?|(? & [] & _)]; auto.
  - destruct (cut_step_ok d s i V (Nk i (or_introl eq_refl))) as (s1 & E1 & V1 & F1 & K1 & C1). rewrite E1. cbn [bind].
    destruct (IH s1 V1 (fun j Hj => Nk j (or_intror Hj))) as (s' & E' & V' & F' & X'). exists s'. csplit; auto.
    + eapply cut_frame_trans; eauto.
    + intros HB.
      destruct X' as [K' C'].
      { intros j v Hj. rewrite (cf_b _ _ F1). apply HB. now right. }
      assert (HBi : forall v, compl P (n_state (d_nd d i)) v -> bt P (n_bound (d_nd d i) + v) (b_primal (s_b s)) -> be P (n_bb (d_nd d i)) v).
      { intros v. apply HB. now left. }
      split; [auto|]. intros QD Es V0 HV. pose proof (cf_seen _ _ F1). pose proof (cf_seen _ _ F').
      apply C'; auto; [lia|]. destruct HV as [HV|(j & [<-|Hj] & HV)]; [left|left|right; eauto]; apply C1; auto; lia.
Qed.

(** *** one node of the search *)
Definition direct_ok (d : dd St) (p : Z) : Prop :=
  forall i l, In i (d_an d) -> n_exact (d_nd d i) = true -> In l (p_labels P (n_state (d_nd d i))) ->
    p_stf P (n_state (d_nd d i)) l = Some (p_target P) -> ~ bt P (n_bound (d_nd d i) + p_cost P (n_state (d_nd d i)) l) p.
Definition hist_ok (s : sst) : Prop := forall d p, In (d, p) (s_hist s) -> direct_ok d p.

Record node_frame (s s' : sst) : Prop := {
  nf_out : s_out s' = s_out s; nf_ttl : s_ttl s' = S (s_ttl s);
  nf_primal : be P (b_primal (s_b s')) (b_primal (s_b s));
  nf_seen : s_seen s <= s_seen s'; nf_hist : exists x, s_hist s' = x ++ s_hist s }.

Lemma sinv_run s b d1 d2 nn ttl hist : sinv s -> (exists vs, log_of P p0 b vs) -> sinv (run_upd s b d1 d2 nn ttl hist).
Proof. intros [A1 A2 A3 A4 A5 A6] L. constructor; auto. Qed.
Lemma key_mono pool p p' q : be P p' p -> key_ok pool p q -> key_ok pool p' q.
Proof. intros L K v Cv Bv. apply K; auto. vlia. Qed.

Lemma bb_node_ok s q : sinv s -> fst q < length (s_pool s) ->
  exists s', bb_node P srt dfuel mxw s q = Ok s' /\ sinv s' /\ node_frame s s' /\ (keys_ok s -> keys_ok s') /\
   (valid_qdom P I -> key_ok (s_pool s) (b_primal (s_b s)) q -> s_seen s' = s_seen s -> hist_ok s' ->
     forall V, held s V \/ covers (pool_node P (s_pool s) (fst q)) V -> held s' V).
Proof.
  intros V Hq. unfold bb_node. cbn zeta. set (from := pool_node P (s_pool s) (fst q)).
  assert (Nf : node_ok from). { pose proof (i_pool _ _ _ V) as FP. rewrite Forall_forall in FP. apply FP. now apply pool_node_in. }
  destruct (i_log _ _ _ V) as [vs L].
  destruct (isBetter P (snd q) (b_primal (s_b s))) eqn:C; cbn [negb].
  2:{ apply isBetter_nbt in C. eexists. split; [reflexivity|]. csplit.
      - apply sinv_run; eauto.
      - constructor; cbn; auto using be_refl. exists []; auto.
      - intros K. exact K.
      - intros _ K _ _ V0 [HV|(v & Cv & Bv)]; [exact HV|]. left. cbn.
        destruct (isBetter P (n_bound from + v) (b_primal (s_b s))) eqn:C2; [|apply isBetter_nbt in C2; vlia].
        apply isBetter_bt in C2. specialize (K v Cv C2). fold from in K. vlia. }
  destruct (apply_relaxed (s_w s) (s_relaxed s) from (s_b s) vs Nf L) as (d1 & b1 & db & vs1 & E1 & L1 & P1 & RX & DBF & DX & DI).
  rewrite E1. cbn [bind].
  assert (Mono : forall s', s_pool s' = s_pool s -> s_pq s' = s_pq s -> be P (b_primal (s_b s')) (b_primal (s_b s)) ->
    (keys_ok s -> keys_ok s') /\ (forall V0, held s V0 -> held s' V0)).
  { intros s' Ep Eq Lp. unfold keys_ok, held. rewrite Ep, Eq. split.
    - intros K q' Hq'. eapply key_mono; eauto.
    - intros V0 [H|H]; auto. left. vlia. }
  destruct db.
  2:{ destruct (DBF eq_refl) as [-> DB]. eexists. split; [reflexivity|].
      match goal with |- sinv ?s' /\ _ => destruct (Mono s' eq_refl eq_refl P1) as [M1 M2] end. csplit.
      - apply sinv_run; eauto.
      - constructor; cbn; auto. exists []; auto.
      - exact M1.
      - intros _ _ _ _ V0 [HV|HV]; auto. left. cbn. auto. }
  destruct (apply_restricted (s_restr s) from b1 vs1 Nf L1) as (d2 & b2 & pb & vs2 & E2 & L2 & P2 & RE). rewrite E2. cbn [bind].
  assert (P12 : be P (b_primal b2) (b_primal (s_b s))) by vlia.
  destruct (negb (d_exact d2) && negb (d_exact d1)) eqn:X.
  2:{ eexists. split; [reflexivity|].
      match goal with |- sinv ?s' /\ _ => destruct (Mono s' eq_refl eq_refl P12) as [M1 M2] end. csplit.
      - apply sinv_run; eauto.
      - constructor; cbn; auto. exists []; auto.
      - exact M1.
      - intros _ _ _ _ V0 [HV|HV]; auto. left. cbn. apply andb_false_iff in X as [X|X]; apply negb_false_iff in X; auto.
        pose proof (DX X V0 HV). vlia. }
  apply andb_true_iff in X as [_ X]. apply negb_true_iff in X. pose proof (DI X) as ->.
  pose proof (node_I _ Nf) as Is. pose proof (node_range _ Nf) as Rg. destruct Nf as [G Nt].
  pose proof (started_from P (s_relaxed s) from) as S0. assert (F : N + 1 < dfuel + rank (n_state from)) by lia.
  destruct (relaxed_cutset P I rank N VM _ _ _ Nt Is Rg srt Hsrt dfuel _ (b_primal (s_b s)) (s_w s) d1 S0 F RX) as (cs & Ec & ND & CN & CC).
  rewrite Ec. cbn [bind].
  set (s1 := run_upd s b2 d1 d2 (S (s_nNode s)) (S (s_ttl s)) ((d1, b_primal b2) :: s_hist s)).
  destruct (Mono s1 eq_refl eq_refl P12) as [M1 M2].
  assert (V1 : sinv s1) by (apply sinv_run; eauto).
  destruct (cut_loop_ok d1 cs s1 V1) as (s' & E' & V' & F' & X').
  { intros i Hi. destruct (CN i Hi) as (_ & B1 & _ & B2). split; auto. eapply genuine_trans; eauto. }
  exists s'.
  destruct X' as [K' C'].
  { intros i v Hi Cv Bv. cbn in Bv. destruct (CN i Hi) as (B1 & B2 & _ & _).
    apply (relaxed_backward P I rank N VM _ _ _ Nt Is Rg srt Hsrt dfuel _ (b_primal (s_b s)) (s_w s) d1 S0 F RX i v B1); auto; [|vlia].
    intros Et. destruct (relaxed_dual_bound P I rank N VM _ _ _ Nt Is Rg srt Hsrt dfuel _ (b_primal (s_b s)) (s_w s) d1 S0 F RX) as (t & Et' & St' & _).
    unfold trg_node in Et'. rewrite Et in Et'. injection Et' as <-. auto. }
  csplit; auto.
  - destruct F' as [f1 f2 f3 f4 f5 f6]. constructor; auto.
    + rewrite f1. exact P12.
    + rewrite f3. exists [(d1, b_primal b2)]. auto.
  - intros QD Kq Es HH V0 HV. apply C'; auto.
    destruct HV as [HV|HV]; [left; auto|].
    apply covers_solution in HV as (U & SV & LV).
    destruct (isBetter P U (b_primal (s_b s))) eqn:CV.
    2:{ left. left. cbn. apply isBetter_nbt in CV. vlia. }
    apply isBetter_bt in CV. destruct (CC U SV CV) as [(i & v & Hi & Cv & Bv)|(i & l & sink & Hi & Xi & _ & Hl & Hs & _ & Bv)].
    + right. exists i. split; auto. exists v. split; auto. vlia.
    + left. left. cbn. assert (Hd : In (d1, b_primal b2) (s_hist s')) by (rewrite (cf_hist _ _ F'); now left).
      pose proof (HH _ _ Hd i l Hi Xi Hl Hs) as Q. vlia.
Qed.

(** a node whose relaxed diagram stays exact *)
Lemma bb_node_wide s q : sinv s -> fst q < length (s_pool s) -> key_ok (s_pool s) (b_primal (s_b s)) q ->
  narrow P (n_state (pool_node P (s_pool s) (fst q))) (s_w s) ->
  exists s', bb_node P srt dfuel mxw s q = Ok s' /\ s_pq s' = s_pq s /\ s_ttl s' = S (s_ttl s) /\
    forall V, covers (pool_node P (s_pool s) (fst q)) V -> be P (b_primal (s_b s')) V.
Proof.
  intros V Hq K Nw. unfold bb_node. cbn zeta. set (from := pool_node P (s_pool s) (fst q)) in *.
  assert (Nf : node_ok from). { pose proof (i_pool _ _ _ V) as FP. rewrite Forall_forall in FP. apply FP. now apply pool_node_in. }
  destruct (i_log _ _ _ V) as [vs L].
  destruct (isBetter P (snd q) (b_primal (s_b s))) eqn:C; cbn [negb].
  2:{ apply isBetter_nbt in C. eexists. split; [reflexivity|]. csplit; auto. intros V0 (v & Cv & Bv). cbn.
      destruct (isBetter P (n_bound from + v) (b_primal (s_b s))) eqn:C2; [|apply isBetter_nbt in C2; vlia].
      apply isBetter_bt in C2. specialize (K v Cv C2). fold from in K. vlia. }
  destruct (apply_relaxed (s_w s) (s_relaxed s) from (s_b s) vs Nf L) as (d1 & b1 & db & vs1 & E1 & L1 & P1 & RX & DBF & DX & DI).
  rewrite E1. cbn [bind]. pose proof (node_I _ Nf) as Is. pose proof (node_range _ Nf) as Rg.
  assert (X : d_exact d1 = true).
  { apply (relaxed_wide P I rank N VM (n_state from) (n_bound from) (n_lab from) (proj2 Nf) Is Rg srt Hsrt (s_w s) Nw (b_primal (s_b s)) dfuel
      (initFrom P (s_relaxed s) from)); auto; [apply started_from|lia]. }
  destruct db.
  2:{ eexists. split; [reflexivity|]. csplit; auto. }
  destruct (apply_restricted (s_restr s) from b1 vs1 Nf L1) as (d2 & b2 & pb & vs2 & E2 & L2 & P2 & RE). rewrite E2. cbn [bind].
  rewrite X, andb_false_r. eexists. split; [reflexivity|]. csplit; auto. intros V0 HV. pose proof (DX X V0 HV). cbn. vlia.
Qed.

(** *** the loop *)
Variable lim : nat -> bool.
Notation bb_loop := (bb_loop P srt dfuel lim).
Definition at_head (s : sst) : Prop := length (s_out s) = s_ttl s.
Definition end_ok (s : sst) (e : ending) : Prop :=
  match e with
  | Emptied => entries (s_pq s) = [] /\ length (s_out s) = s_ttl s
  | Limited q => length (s_out s) = S (s_ttl s) /\ hd_error (s_out s) = Some q
  end.
Definition held_end (s : sst) (e : ending) (V : Z) : Prop :=
  held s V \/ match e with Emptied => False | Limited q => covers (pool_node P (s_pool s) (fst q)) V end.

Lemma popped_ok s q h : sinv s -> heap_extractMax (q_ord P) (s_pq s) = Some (q, h) ->
  sinv (popped s q h) /\ Permutation (entries (s_pq s)) (q :: entries h) /\ fst q < length (s_pool s) /\
  (keys_ok s -> keys_ok (popped s q h) /\ key_ok (s_pool s) (b_primal (s_b s)) q) /\
  (forall V, held s V -> held (popped s q h) V \/ covers (pool_node P (s_pool s) (fst q)) V).
Proof.
  intros V E. destruct (extractMax_ok _ (q_ord_swo P) _ _ _ (i_heap _ _ _ V) E) as (H1 & (l & Pm) & _).
  apply (Permutation_map snd) in Pm. cbn [map snd] in Pm. change (Permutation (entries (s_pq s)) (q :: entries h)) in Pm.
  assert (Hq : In q (entries (s_pq s))) by (eapply Permutation_in; [symmetry; exact Pm|now left]).
  assert (Sub : forall x, In x (entries h) -> In x (entries (s_pq s))) by (intros x Hx; eapply Permutation_in; [symmetry; exact Pm|now right]).
  assert (Pm2 : Permutation (s_out s ++ entries (s_pq s)) ((q :: s_out s) ++ entries h)).
  { rewrite Pm. cbn. symmetry. apply Permutation_middle. }
  csplit; auto.
  - destruct V as [A1 A2 A3 A4 A5 A6]. constructor; cbn [popped s_pool s_pq s_out s_b]; auto.
    + intros x Hx. apply A4. eapply Permutation_in; [symmetry; exact Pm2|exact Hx].
    + apply (Permutation_map fst) in Pm2. eapply Permutation_NoDup; eauto.
  - apply (i_idx _ _ _ V). apply in_or_app; auto.
  - intros K. split; [intros x Hx; apply K; auto|apply K; auto].
  - intros V0 [H|(x & Hx & HV)]; [left; left; auto|]. apply (Permutation_in _ Pm) in Hx as [<-|Hx]; auto. left. right. exists x. auto.
Qed.

Lemma bb_loop_ok : forall fuel k s s' e, sinv s -> at_head s -> bb_loop fuel mxw k s = Ok (s', e) ->
  sinv s' /\ end_ok s' e /\ be P (b_primal (s_b s')) (b_primal (s_b s)) /\ s_seen s <= s_seen s' /\ (exists x, s_hist s' = x ++ s_hist s) /\
  (valid_qdom P I -> keys_ok s -> s_seen s' = s_seen s -> hist_ok s' -> forall V, held s V -> held_end s' e V).
Proof.
  induction fuel as [|fuel IH]; intros k s s' e V A E; cbn [SearchModel.bb_loop] in E.
  - destruct (heap_empty (s_pq s)) eqn:H0; [|discriminate]. injection E as <- <-. apply empty_elems in H0; [|apply (i_heap _ _ _ V)].
    csplit; auto using be_refl; [split; auto; unfold entries; exact (f_equal (map snd) H0)|exists []; auto|]. intros _ _ _ _ V0 HV. now left.
  - destruct (heap_empty (s_pq s)) eqn:H0.
    + injection E as <- <-. apply empty_elems in H0; [|apply (i_heap _ _ _ V)].
      csplit; auto using be_refl; [split; auto; unfold entries; exact (f_equal (map snd) H0)|exists []; auto|]. intros _ _ _ _ V0 HV. now left.
    + destruct (heap_extractMax (q_ord P) (s_pq s)) as [[q h]|] eqn:EX; [|discriminate].
      destruct (popped_ok s q h V EX) as (V1 & Pm & Hq & K1 & C1).
      destruct (lim k).
      * injection E as <- <-. assert (end_ok (popped s q h) (Limited q)) by (cbn; rewrite <- A; auto).
        csplit; auto using be_refl; try (exists []; reflexivity).
      * apply bind_ok in E as (s1 & E1 & E).
        destruct (bb_node_ok (popped s q h) q V1 Hq) as (s1' & E1' & V2 & F2 & K2 & C2). rewrite E1 in E1'. injection E1' as <-.
        destruct (IH (S k) s1 s' e V2) as (V3 & E3 & P3 & S3 & (x & X3) & C3); auto.
        { unfold at_head. rewrite (nf_out _ _ F2), (nf_ttl _ _ F2). cbn. now rewrite <- A. }
        destruct F2 as [f1 f2 f3 f4 (y & f5)]. cbn in f3, f4, f5. csplit; auto; [vlia|lia|exists (x ++ y); rewrite X3, f5; apply app_assoc|].
        intros QD K Es HH V0 HV. destruct (K1 K) as [K1a K1b].
        assert (HH1 : hist_ok s1). { intros d p Hd. apply HH. rewrite X3. apply in_or_app. auto. }
        apply C3; auto; [lia|]. apply C2; auto; cbn; lia.
Qed.

(** termination: at most one round per state *)
Lemma bb_loop_total (L : list St) : (forall s, s <> p_target P -> (exists ls v, path P (p_init P) ls v s) -> In s L) ->
  forall fuel k s, sinv s -> length L <= fuel + length (s_out s) -> exists s' e, bb_loop fuel mxw k s = Ok (s', e).
Proof.
  intros HL. induction fuel as [|fuel IH]; intros k s V F; cbn [SearchModel.bb_loop].
  - destruct (heap_empty (s_pq s)) eqn:H0; [eauto|]. exfalso.
    assert (Q : length (s_out s ++ entries (s_pq s)) <= length L).
    { transitivity (length (s_pool s)).
      - rewrite <- (map_length (fst : qnode -> nat) (s_out s ++ entries (s_pq s))), <- (seq_length (length (s_pool s)) 0). apply NoDup_incl_length; [apply (i_ndq _ _ _ V)|].
        intros i Hi. apply in_map_iff in Hi as (q & <- & Hq). apply in_seq. pose proof (i_idx _ _ _ V q Hq). lia.
      - rewrite <- (map_length n_state (s_pool s)). apply NoDup_incl_length; [apply (i_nds _ _ _ V)|].
        intros x Hx. apply in_map_iff in Hx as (n & <- & Hn). pose proof (i_pool _ _ _ V) as FP. rewrite Forall_forall in FP.
        destruct (FP n Hn) as [(ls & v & _ & _ & Pt) Nt]. apply HL; eauto. }
    rewrite app_length in Q.
    assert (entries (s_pq s) = []) by (destruct (entries (s_pq s)); auto; cbn in Q; lia).
    assert (heap_elems (s_pq s) = []) by (unfold entries in H; destruct (heap_elems (s_pq s)); auto; discriminate).
    apply (empty_elems (s_pq s)) in H1; [|apply (i_heap _ _ _ V)]. congruence.
  - destruct (heap_empty (s_pq s)) eqn:H0; [eauto|].
    destruct (extractMax_some (q_ord P) (s_pq s)) as (q & h & EX); [apply (i_heap _ _ _ V)| |].
    { intros H. apply (empty_elems (s_pq s)) in H; [|apply (i_heap _ _ _ V)]. congruence. }
    rewrite EX. destruct (lim k); [eauto|]. destruct (popped_ok s q h V EX) as (V1 & _ & Hq & _).
    destruct (bb_node_ok (popped s q h) q V1 Hq) as (s1 & -> & V2 & F2 & _). cbn [bind]. apply IH; auto.
    rewrite (nf_out _ _ F2). cbn. lia.
Qed.
End Search.

(** ** the whole search *)
Section Whole.
Context {St : Type} (P : prob St) (I : St -> Prop) (rank : St -> nat) (N : nat).
Hypothesis VM : valid_model P I rank N.
Hypothesis Hinit : p_init P <> p_target P.
Hypothesis HI : I (p_init P).
Hypothesis Hrange : in_range P (p_init P) 0.
Variable srt : dd St -> list nat -> list nat.
Hypothesis Hsrt : forall d l, Permutation (srt d l) l.
Variable dfuel : nat.
Hypothesis Hfuel : N + 1 < dfuel.
Variable lim : nat -> bool.
Variable mxw : nat.
Hypothesis Hmxw : (N.of_nat mxw < 4294967296)%N.
Variable user : option Z.
Let p0 := b_primal (attach P user).
Hypothesis Hp0 : be P p0 (sentinel P).

Lemma start_proj : s_pool (bb_start P mxw user) =
    [match p_local P with Some local => nset_bb (clone_of (mkNode (p_init P) [] [] [] 0%Z 0%Z 0 true)) (local (p_init P) false)
     | None => clone_of (mkNode (p_init P) [] [] [] 0%Z 0%Z 0 true) end] /\
  s_out (bb_start P mxw user) = [] /\ s_b (bb_start P mxw user) = attach P user /\ s_ttl (bb_start P mxw user) = 0 /\
  s_seen (bb_start P mxw user) = 0 /\ s_hist (bb_start P mxw user) = [] /\ s_w (bb_start P mxw user) = mxw.
Proof. csplit; reflexivity. Qed.
Lemma start_entries : exists key, entries (s_pq (bb_start P mxw user)) = [(0, key)] /\
  key = match p_local P with Some local => local (p_init P) false | None => initialWorst P end /\ heap_ok (q_ord P) (s_pq (bb_start P mxw user)).
Proof.
  set (key := match p_local P with Some local => local (p_init P) false | None => initialWorst P end). exists key.
  unfold bb_start. cbn zeta. cbn [s_pq]. fold key.
  assert (Hcap : 1 <= pq_cap) by (unfold pq_cap; apply Nat.leb_le; vm_compute; reflexivity). revert Hcap. generalize pq_cap as cap. intros cap Hcap.
  destruct (new_ok (q_ord P) q_dflt cap Hcap) as [H0 E0].
  destruct (heap_insertHeap (q_ord P) q_dflt (heap_new q_dflt cap) (0, key)) as [h l] eqn:E.
  destruct (insertHeap_ok _ q_dflt (q_ord_swo P) _ _ _ _ H0 E) as (H1 & Pm & _). cbn [fst]. csplit; auto.
  rewrite E0 in Pm. apply (Permutation_map snd) in Pm. cbn [map snd] in Pm. symmetry in Pm. now apply Permutation_length_1_inv in Pm.
Qed.
Lemma start_inv : sinv P p0 (bb_start P mxw user).
Proof.
  destruct start_entries as (key & E & _ & H). destruct start_proj as (E1 & E2 & E3 & _). set (s0 := bb_start P mxw user) in *. clearbody s0. constructor; rewrite ?E1, ?E2, ?E3, ?E.
  - constructor; [|constructor]. split; [|destruct (p_local P); auto]. destruct (p_local P); apply genuine_root.
  - cbn [map]. repeat constructor; auto.
  - exact H.
  - cbn [app]. intros q [<-|[]]. cbn [fst length]. lia.
  - cbn [app map fst]. repeat constructor; auto.
  - exists []. split; [constructor|]. csplit; auto; constructor.
Qed.
Lemma start_root : n_state (pool_node P (s_pool (bb_start P mxw user)) 0) = p_init P /\ n_bound (pool_node P (s_pool (bb_start P mxw user)) 0) = 0%Z.
Proof. destruct start_proj as (-> & _). unfold pool_node. cbn [nth]. destruct (p_local P); auto. Qed.
Lemma start_held V : solution P (p_init P) 0 V -> held P (bb_start P mxw user) V.
Proof.
  intros (v & C & ->). right. destruct start_entries as (key & E & _). exists (0, key). rewrite E. split; [now left|]. cbn [fst].
  exists v. destruct start_root as [-> ->]. split; auto. apply be_refl.
Qed.
Lemma start_keys : (forall V, solution P (p_init P) 0 V -> be P (initialWorst P) V) -> keys_ok P (bb_start P mxw user).
Proof.
  intros HL q Hq. destruct start_entries as (key & E & Ek & _). rewrite E in Hq. destruct Hq as [<-|[]]. intros v. cbn [fst snd].
  destruct start_root as [-> ->]. intros Cv _. rewrite Ek. destruct (p_local P) as [local|] eqn:El.
  - rewrite Z.add_0_l. eapply (vm_local _ _ _ _ VM); eauto.
  - apply HL. exists v; auto.
Qed.

Lemma at_head_start : at_head (bb_start P mxw user).
Proof. destruct start_proj as (_ & E & _ & E' & _). unfold at_head. now rewrite E, E'. Qed.

Lemma search_wide fuel : lim 0 = false -> narrow P (p_init P) mxw -> (forall V, solution P (p_init P) 0 V -> be P (initialWorst P) V) -> 1 <= fuel ->
  exists s, search P srt dfuel lim fuel mxw user = Ok (s, Emptied) /\ s_ttl s = 1 /\
    forall V, solution P (p_init P) 0 V -> be P (b_primal (s_b s)) V.
Proof.
  intros L0 Nw HL F. destruct fuel as [|f]; [lia|]. unfold search. pose proof start_inv as V. pose proof (start_keys HL) as K.
  destruct start_entries as (key & E & _ & Hh). destruct start_proj as (_ & _ & _ & Et & _ & _ & Ew). destruct start_root as [R1 R2].
  set (s0 := bb_start P mxw user) in *. clearbody s0. cbn [bb_loop].
  assert (Ne : heap_elems (s_pq s0) <> []) by (intros H; unfold entries in E; rewrite H in E; discriminate).
  destruct (heap_empty (s_pq s0)) eqn:H0. { apply (empty_elems (s_pq s0)) in H0; [|apply Hh]. exfalso. apply Ne, H0. }
  destruct (extractMax_some (q_ord P) (s_pq s0)) as (q & h & EX); [apply Hh|exact Ne|].
  rewrite EX, L0. destruct (popped_ok P p0 s0 q h V EX) as (V1 & Pm & Hq & K1 & _). destruct (K1 K) as [_ Kq].
  rewrite E in Pm. apply Permutation_length_1_inv in Pm. injection Pm as -> Eh.
  destruct (bb_node_wide P I rank N VM HI Hrange srt Hsrt dfuel Hfuel mxw Hmxw p0 Hp0 (popped s0 (0, key) h) (0, key) V1 Hq Kq) as (s1 & E1 & A1 & A2 & A3).
  { cbn [popped s_pool s_w fst]. rewrite R1, Ew. exact Nw. }
  rewrite E1. cbn [bind].
  assert (H1 : heap_empty (s_pq s1) = true).
  { rewrite A1. cbn [popped s_pq]. apply (proj2 (empty_elems h (proj1 (i_heap _ _ _ V1)))). apply (map_eq_nil snd). exact Eh. }
  exists s1. split; [destruct f; cbn [bb_loop]; now rewrite H1|]. split; [rewrite A2; cbn; now rewrite Et|].
  intros V0 (v & Cv & ->). apply A3. exists v. cbn [popped s_pool fst]. rewrite R1, R2. split; auto. apply be_refl.
Qed.

Variable fuel : nat.
Variables (s : @sst St) (e : ending).
Hypothesis E : search P srt dfuel lim fuel mxw user = Ok (s, e).

Lemma search_facts : sinv P p0 s /\ end_ok s e /\
  (valid_qdom P I -> (forall V, solution P (p_init P) 0 V -> be P (initialWorst P) V) -> s_seen s = 0 -> hist_ok P s ->
    forall V, solution P (p_init P) 0 V -> held_end P s e V).
Proof.
  destruct (bb_loop_ok P I rank N VM HI Hrange srt Hsrt dfuel Hfuel mxw Hmxw p0 Hp0 lim fuel 0 _ s e start_inv at_head_start E) as (A1 & A2 & _ & _ & _ & A3).
  csplit; auto. intros QD HL Es HH V SV. apply A3; auto using start_keys, start_held.
Qed.
End Whole.

Lemma nodup_fst {A} (a b : list A) : NoDup (a ++ b) -> NoDup a.
Proof. induction a as [|x a IH]; cbn; intros H; [constructor|]. apply NoDup_cons_iff in H as [H1 H2]. constructor; auto. intros C. apply H1, in_or_app. auto. Qed.

(** ** the statements of PropSearch.v *)
Record setting {St} (P : prob St) (I : St -> Prop) (rank : St -> nat) (N : nat) (srt : dd St -> list nat -> list nat) (dfuel mxw : nat) : Prop := {
  se_model : valid_model P I rank N;
  se_init : p_init P <> p_target P;
  se_I : I (p_init P);
  se_range : in_range P (p_init P) 0;
  se_srt : forall d l, Permutation (srt d l) l;
  se_fuel : N + 1 < dfuel;
  se_mxw : (N.of_nat mxw < 4294967296)%N }.

Section Statements.
Context {St : Type} (P : prob St) (I : St -> Prop) (rank : St -> nat) (N : nat) (srt : dd St -> list nat -> list nat) (dfuel mxw : nat).
Hypothesis SE : setting P I rank N srt dfuel mxw.
Variable lim : nat -> bool.
Variable user : option Z.
Let p0 := match user with Some p => p | None => sentinel P end.
Hypothesis Hp0 : be P p0 (sentinel P).
Lemma p0_attach : p0 = b_primal (attach P user).
Proof. unfold p0, attach. destruct user; reflexivity. Qed.

Section Run.
Variables (fuel : nat) (s : @sst St) (e : ending).
Hypothesis E : search P srt dfuel lim fuel mxw user = Ok (s, e).
Lemma run_facts : sinv P p0 s /\ end_ok s e /\
  (valid_qdom P I -> (forall V, solution P (p_init P) 0 V -> be P (initialWorst P) V) -> s_seen s = 0 -> hist_ok P s ->
    forall V, solution P (p_init P) 0 V -> held_end P s e V).
Proof.
  destruct SE as [A1 A2 A3 A4 A5 A6 A7]. pose proof Hp0 as Q. rewrite p0_attach in *.
  apply (search_facts P I rank N A1 A2 A3 A4 srt A5 dfuel A6 lim mxw A7 user Q fuel s e E).
Qed.

Lemma search_genuine : (b_primal (s_b s) <> p0 -> genuine P (p_init P) 0 [] (p_target P) (b_primal (s_b s)) (b_inc (s_b s))) /\
  forall lab, In lab (b_log (s_b s)) -> exists v, genuine P (p_init P) 0 [] (p_target P) v lab /\ bt P v p0.
Proof.
  destruct run_facts as (V & _). destruct (i_log _ _ _ V) as (vs & A1 & A2 & A3 & A4 & A5). split.
  - rewrite A4, A5. destruct A1; cbn; [congruence|auto].
  - intros lab Hl. clear - Hl A1 A3. induction A1 as [|x v l vs G A1 IH]; [destruct Hl|]. inversion A3; subst. destruct Hl as [<-|Hl]; eauto.
Qed.
Lemma search_monotone : exists vs, Forall2 (fun lab v => genuine P (p_init P) 0 [] (p_target P) v lab) (b_log (s_b s)) vs /\
  StronglySorted (bt P) vs /\ Forall (fun v => bt P v p0) vs /\ b_primal (s_b s) = hd p0 vs /\ b_inc (s_b s) = hd [] (b_log (s_b s)).
Proof. destruct run_facts as (V & _). apply (i_log _ _ _ V). Qed.
Lemma search_preset : be P (b_primal (s_b s)) p0 /\
  ((forall V, solution P (p_init P) 0 V -> ~ bt P V p0) -> b_primal (s_b s) = p0 /\ b_inc (s_b s) = [] /\ b_log (s_b s) = []).
Proof.
  destruct run_facts as (V & _). destruct (i_log _ _ _ V) as (vs & A). split; [eapply log_primal; eauto|].
  destruct A as (A1 & A2 & A3 & A4 & A5). intros H. rewrite A4, A5. destruct A1 as [|x v l vs G A1]; auto. exfalso.
  inversion A3; subst. apply (H v); auto. destruct G as (ls & v' & _ & -> & Pt). exists v'. split; auto. exists ls; auto.
Qed.
Lemma search_once : NoDup (map fst (s_out s ++ entries (s_pq s))) /\
  NoDup (map (fun q => n_state (pool_node P (s_pool s) (fst q))) (s_out s ++ entries (s_pq s))) /\
  (forall q, In q (s_out s ++ entries (s_pq s)) -> let n := pool_node P (s_pool s) (fst q) in
     n_state n <> p_target P /\ genuine P (p_init P) 0 [] (n_state n) (n_bound n) (n_lab n)) /\
  s_ttl s <= length (s_out s).
Proof.
  destruct run_facts as (V & En & _). csplit.
  - apply (i_ndq _ _ _ V).
  - rewrite <- (map_map fst (fun i => n_state (pool_node P (s_pool s) i))). apply NoDup_map_on; [|apply (i_ndq _ _ _ V)].
    intros i j Hi Hj Eq. assert (B : forall x, In x (map fst (s_out s ++ entries (s_pq s))) -> x < length (s_pool s)).
    { intros x Hx. apply in_map_iff in Hx as (q & <- & Hq). now apply (i_idx _ _ _ V). }
    apply (proj1 (NoDup_nth (map n_state (s_pool s)) (n_state (dflt_node P))) (i_nds _ _ _ V)); rewrite ?map_length; auto.
    now rewrite !map_nth.
  - intros q Hq. pose proof (i_pool _ _ _ V) as FP. rewrite Forall_forall in FP.
    destruct (FP (pool_node P (s_pool s) (fst q))) as [G Nt]; [apply pool_node_in, (i_idx _ _ _ V); auto|]. split; auto.
  - destruct e; cbn in En; lia.
Qed.
Lemma search_lim : lim_flag s = true <-> entries (s_pq s) <> [].
Proof.
  unfold lim_flag. rewrite size_elems. unfold entries, elems. destruct (heap_elems (s_pq s)) as [|x l]; cbn [length map].
  - split; [discriminate|congruence].
  - split; intros _; [discriminate|reflexivity].
Qed.
Lemma search_emptied : e = Emptied -> lim_flag s = false.
Proof.
  intros Ee. destruct run_facts as (_ & En & _). rewrite Ee in En. destruct En as [En _]. destruct (lim_flag s) eqn:X; auto.
  apply search_lim in X. congruence.
Qed.
Lemma search_cover : valid_qdom P I -> (forall V, solution P (p_init P) 0 V -> be P (initialWorst P) V) -> s_seen s = 0 -> hist_ok P s ->
  forall V, solution P (p_init P) 0 V -> bt P V (b_primal (s_b s)) ->
  exists q, (In q (entries (s_pq s)) \/ e = Limited q) /\ covers P (pool_node P (s_pool s) (fst q)) V.
Proof.
  intros QD HL Es HH V SV B. destruct run_facts as (_ & _ & C). destruct (C QD HL Es HH V SV) as [[C1|(q & Hq & C1)]|C1].
  - vlia.
  - eauto.
  - destruct e as [|q]; [destruct C1|]. exists q. auto.
Qed.
Lemma search_optimal : e = Emptied -> valid_qdom P I -> (forall V, solution P (p_init P) 0 V -> be P (initialWorst P) V) -> s_seen s = 0 -> hist_ok P s ->
  forall V, solution P (p_init P) 0 V -> be P (b_primal (s_b s)) V.
Proof.
  intros Ee QD HL Es HH V SV. destruct (isBetter P V (b_primal (s_b s))) eqn:B; [|now apply isBetter_nbt in B]. apply isBetter_bt in B.
  destruct (search_cover QD HL Es HH V SV B) as (q & [Hq|Hq] & _); [|congruence]. destruct run_facts as (_ & En & _). rewrite Ee in En. destruct En as [En _].
  rewrite En in Hq. destruct Hq.
Qed.
Lemma search_lim_false : lim_flag s = false -> valid_qdom P I -> (forall V, solution P (p_init P) 0 V -> be P (initialWorst P) V) -> s_seen s = 0 -> hist_ok P s ->
  forall V, solution P (p_init P) 0 V -> bt P V (b_primal (s_b s)) -> exists q, e = Limited q /\ covers P (pool_node P (s_pool s) (fst q)) V.
Proof.
  intros Lf QD HL Es HH V SV B. destruct (search_cover QD HL Es HH V SV B) as (q & [Hq|Hq] & C); [|eauto]. exfalso.
  assert (X : lim_flag s = true) by (apply search_lim; intros X; rewrite X in Hq; destruct Hq). congruence.
Qed.
Lemma search_processed (L : list St) : (forall x, x <> p_target P -> (exists ls v, path P (p_init P) ls v x) -> In x L) -> s_ttl s <= length L.
Proof.
  intros HL. destruct search_once as (_ & ND & G & T). rewrite map_app in ND. apply nodup_fst in ND.
  assert (X : length (map (fun q : qnode => n_state (pool_node P (s_pool s) (fst q))) (s_out s)) <= length L).
  { apply NoDup_incl_length; auto. intros x Hx. apply in_map_iff in Hx as (q & <- & Hq). destruct (G q) as [Nt (ls & v & _ & _ & Pt)]; [apply in_or_app; auto|].
    apply HL; eauto. }
  rewrite map_length in X. lia.
Qed.
End Run.
Lemma search_narrow fuel : lim 0 = false -> narrow P (p_init P) mxw -> (forall V, solution P (p_init P) 0 V -> be P (initialWorst P) V) -> 1 <= fuel ->
  exists s, search P srt dfuel lim fuel mxw user = Ok (s, Emptied) /\ s_ttl s = 1 /\ (forall V, solution P (p_init P) 0 V -> be P (b_primal (s_b s)) V) /\
    (b_primal (s_b s) <> p0 -> genuine P (p_init P) 0 [] (p_target P) (b_primal (s_b s)) (b_inc (s_b s))).
Proof.
  intros L0 Nw HL F. destruct SE as [A1 A2 A3 A4 A5 A6 A7]. pose proof Hp0 as Q. rewrite p0_attach in Q.
  destruct (search_wide P I rank N A1 A2 A3 A4 srt A5 dfuel A6 lim mxw A7 user Q fuel L0 Nw HL F) as (s & E & T & O). exists s. csplit; auto.
  apply (proj1 (search_genuine fuel s Emptied E)).
Qed.

Lemma search_total L : (forall s, s <> p_target P -> (exists ls v, path P (p_init P) ls v s) -> In s L) ->
  forall fuel, length L <= fuel -> exists s e, search P srt dfuel lim fuel mxw user = Ok (s, e).
Proof.
  intros HL fuel F. destruct SE as [A1 A2 A3 A4 A5 A6 A7]. pose proof Hp0 as Q. rewrite p0_attach in Q.
  eapply (bb_loop_total P); eauto.
  - eapply start_inv; eauto.
  - lia.
Qed.
End Statements.
