(** Branch and bound for problems whose label function reads the current primal bound (coloring.cpp:179-184, coloring2.cpp, coloring3.cpp,
    gruler.cpp:94-102: bnds.getPrimal()).  The bound changes only between compilations (src/dd.cpp:65-73: update follows compute), so each
    compilation works with the labels [lab b s] of the primal bound b of that moment. *)
From Coq Require Import Sorted.
From Verif Require Import Base HeapModel HeapProofs DDModel DDSpec DDFrame DDRestricted DDRestricted2 DDRelaxedEnd DDWide SearchModel SearchProofs.

(** the problem with other labels *)
Definition relabel {St} (P : prob St) (f : St -> list Z) : prob St :=
  mkProb St (p_init P) (p_target P) f (p_stf P) (p_cost P) (p_smf P) (p_eqs P) (p_local P) (p_sdom P) (p_min P) (p_eqb P).

Section Model.
Context {St : Type}.
Variable P : prob St.
Variable lab : Z -> St -> list Z.
Variable srt : dd St -> list nat -> list nat.
Variable dfuel : nat.
Variable lim : nat -> bool.
Definition cur (b : bounds) : prob St := relabel P (lab (b_primal b)).

(** src/search.cpp:100-188, as SearchModel.bb_node *)
Definition bb_nodeD (mxw : nat) (s : sst) (q : qnode) : res sst :=
  let ttl := S (s_ttl s) in
  if negb (isBetter P (snd q) (b_primal (s_b s)))
  then Ok (run_upd s (s_b s) (s_relaxed s) (s_restr s) (s_nNode s) ttl (s_hist s))
  else
    let from := pool_node P (s_pool s) (fst q) in
    let nNode := S (s_nNode s) in
    do (d1, b1, dualBetter) <- apply (cur (s_b s)) srt dfuel (SRelaxed (s_w s)) (s_relaxed s) from (s_b s) ;
    if dualBetter then
      do (d2, b2, _) <- apply (cur b1) srt dfuel (SRestricted mxw) (s_restr s) from b1 ;
      if negb (d_exact d2) && negb (d_exact d1) then
        do cs <- computeCutSet d1 ;
        cut_loop P d1 (run_upd s b2 d1 d2 nNode ttl ((d1, b_primal b2) :: s_hist s)) cs
      else Ok (run_upd s b2 d1 d2 nNode ttl (s_hist s))
    else Ok (run_upd s b1 d1 (s_restr s) nNode ttl (s_hist s)).
(** src/search.cpp:59-189, as SearchModel.bb_loop *)
Fixpoint bb_loopD (fuel mxw k : nat) (s : sst) : res (sst * ending) :=
  if heap_empty (s_pq s) then Ok (s, Emptied)
  else match fuel with
  | O => Err OutOfFuel
  | S f =>
    match heap_extractMax (q_ord P) (s_pq s) with
    | None => Err UB
    | Some (q, h) =>
      if lim k then Ok (popped s q h, Limited q)
      else do s1 <- bb_nodeD mxw (popped s q h) q ; bb_loopD f mxw (S k) s1
    end
  end.
(** src/search.cpp:21-198 *)
Definition searchD (fuel mxw : nat) (user : option Z) : res (sst * ending) := bb_loopD fuel mxw 0 (bb_start P mxw user).
End Model.

(** with labels that do not depend on the bound it is the search of SearchModel.v *)
Lemma relabel_same {St} (P : prob St) : relabel P (p_labels P) = P.
Proof. destruct P. reflexivity. Qed.
Lemma searchD_static {St} (P : prob St) srt dfuel lim fuel mxw user :
  searchD P (fun _ => p_labels P) srt dfuel lim fuel mxw user = search P srt dfuel lim fuel mxw user.
Proof.
  unfold searchD, search. generalize 0 as k, (bb_start P mxw user) as s. induction fuel as [|fuel IH]; intros k s; cbn [bb_loopD bb_loop]; [reflexivity|].
  destruct (heap_empty (s_pq s)); [reflexivity|]. destruct (heap_extractMax (q_ord P) (s_pq s)) as [[q h]|]; [|reflexivity]. destruct (lim k); [reflexivity|].
  assert (E : bb_nodeD P (fun _ => p_labels P) srt dfuel mxw (popped s q h) q = bb_node P srt dfuel mxw (popped s q h) q).
  { unfold bb_nodeD, bb_node, cur. now rewrite relabel_same. }
  rewrite E. destruct (bb_node P srt dfuel mxw (popped s q h) q); [|reflexivity]. cbn [bind]. apply IH.
Qed.

(** a primal bound the search can be at: the start or the value of a solution *)
Definition at_bound {St} (P : prob St) (p0 b : Z) : Prop := b = p0 \/ solution P (p_init P) 0 b.
(** what the labels have to satisfy: valid closures whatever the bound, no labels beyond those of P, and every completion that improves on the bound
    is matched by a completion with the labels of that bound *)
Record dyn_ok {St} (P : prob St) (lab : Z -> St -> list Z) (p0 : Z) (I : St -> Prop) (rank : St -> nat) (N : nat) : Prop := {
  dy_model : forall b, at_bound P p0 b -> valid_model (relabel P (lab b)) I rank N;
  dy_sub : forall b s l, at_bound P p0 b -> In l (lab b s) -> In l (p_labels P s);
  dy_keep : forall b s vb ls v, at_bound P p0 b -> genuine P (p_init P) 0 [] s vb ls -> s <> p_target P -> compl P s v -> bt P (vb + v) b ->
    exists v', compl (relabel P (lab b)) s v' /\ be P v' v }.
Lemma log_at {St} (P : prob St) p0 b vs : log_of P p0 b vs -> at_bound P p0 (b_primal b).
Proof.
  intros (A1 & _ & _ & A4 & _). rewrite A4. destruct A1 as [|x v l vs G A1]; [now left|]. right. cbn. destruct G as (ls & v' & _ & -> & H). exists v'. split; auto. exists ls; auto.
Qed.

Section Dyn.
Context {St : Type} (P : prob St) (lab : Z -> St -> list Z) (I : St -> Prop) (rank : St -> nat) (N : nat).
Hypothesis VM : valid_model P I rank N.
Hypothesis Hinit : p_init P <> p_target P.
Hypothesis HI : I (p_init P).
Hypothesis Hrange : in_range P (p_init P) 0.
Variable srt : dd St -> list nat -> list nat.
Hypothesis Hsrt : forall d l, Permutation (srt d l) l.
Variable dfuel : nat.
Hypothesis Hfuel : N + 1 < dfuel.
Variable mxw : nat.
Hypothesis Hmxw : (N.of_nat mxw < 4294967296)%N.
Variable p0 : Z.
Hypothesis DY : dyn_ok P lab p0 I rank N.
Hypothesis Hp0 : be P p0 (sentinel P).

Notation sst := (@sst St).
Notation sinv := (sinv P p0).
Notation node_ok := (node_ok P).
Notation covers := (covers P).
Notation key_ok := (key_ok P).
Notation Q b := (relabel P (lab b)).

Lemma node_ID n : node_ok n -> I (n_state n).
Proof. intros H. exact (node_I P I rank N VM HI n H). Qed.
Lemma node_rangeD n : node_ok n -> in_range P (n_state n) (n_bound n).
Proof. intros [G _]. eapply in_range_step; eauto. Qed.
Lemma q_path b (Ab : at_bound P p0 b) s ls v t : path (Q b) s ls v t -> I s -> path P s ls v t.
Proof.
  induction 1 as [|s l s' ls v t Hn Hl S Hp IH]; intros Is; [constructor|]. apply (path_cons P s l s' ls v t); auto.
  - exact (dy_sub _ _ _ _ _ _ DY b s l Ab Hl).
  - apply IH. exact (cl_step _ _ (vm_closed _ _ _ _ (dy_model _ _ _ _ _ _ DY b Ab)) s l s' Is Hn Hl S).
Qed.
Lemma q_range b (Ab : at_bound P p0 b) n : node_ok n -> in_range (Q b) (n_state n) (n_bound n).
Proof. intros Nk ls v t H. apply (node_rangeD n Nk ls v t). apply (q_path b Ab); auto. now apply node_ID. Qed.
Lemma q_genuine b (Ab : at_bound P p0 b) rs rb rl s v lb : I rs -> genuine (Q b) rs rb rl s v lb -> genuine P rs rb rl s v lb.
Proof. intros Is (ls & v' & E1 & E2 & H). exists ls, v'. csplit; auto. now apply (q_path b Ab). Qed.
Lemma q_compl b (Ab : at_bound P p0 b) s v : I s -> compl (Q b) s v -> compl P s v.
Proof. intros Is (ls & H). exists ls. now apply (q_path b Ab). Qed.
(** a completion that improves on the bound, in the labels of the bound *)
Lemma q_covers b (Ab : at_bound P p0 b) n V : node_ok n -> covers n V -> bt P V b -> exists V', solution (Q b) (n_state n) (n_bound n) V' /\ be P V' V.
Proof.
  intros [(ls & v0 & E1 & E2 & H) Nt] (v & C & B) L.
  destruct (dy_keep _ _ _ _ _ _ DY b (n_state n) (n_bound n) (n_lab n) v Ab) as (v' & C' & B'); auto; [exists ls, v0; auto|vlia|].
  exists (n_bound n + v')%Z. split; [exists v'; auto|vlia].
Qed.

Lemma apply_relaxedD w d from b vs : node_ok from -> log_of P p0 b vs ->
  exists d1 b1 db vs1, apply (cur P lab b) srt dfuel (SRelaxed w) d from b = Ok (d1, b1, db) /\ log_of P p0 b1 vs1 /\ be P (b_primal b1) (b_primal b) /\
    rx_compute (cur P lab b) srt dfuel (initFrom (cur P lab b) d from) (b_primal b) w = Ok d1 /\
    (db = false -> b1 = b /\ forall V, covers from V -> be P (b_primal b1) V) /\
    (d_exact d1 = true -> forall V, covers from V -> be P (b_primal b1) V) /\
    (d_exact d1 = false -> b1 = b).
Proof.
  intros Nk L. pose proof (log_at _ _ _ _ L) as Ab. pose proof (node_ID _ Nk) as Is. pose proof (q_range (b_primal b) Ab _ Nk) as Rg. pose proof Nk as [G Nt].
  pose proof (dy_model _ _ _ _ _ _ DY (b_primal b) Ab) as VQ. fold (cur P lab b) in *. set (R := cur P lab b) in *.
  pose proof (started_from R d from) as S0. assert (F : N + 1 < dfuel + rank (n_state from)) by lia.
  unfold apply. cbn [compute].
  destruct (relaxed_terminates R I rank N VQ _ _ _ Nt Is Rg srt Hsrt dfuel _ (b_primal b) w S0 F) as [d1 E]. rewrite E. cbn [bind].
  destruct (relaxed_dual_bound R I rank N VQ _ _ _ Nt Is Rg srt Hsrt dfuel _ (b_primal b) w d1 S0 F E) as (t & Et & _ & DB). rewrite Et. cbn [bind].
  assert (DB' : forall V, covers from V -> bt P V (b_primal b) -> be P (n_bound t) V).
  { intros V HV CV. destruct (q_covers (b_primal b) Ab from V Nk HV CV) as (V' & SV & LV). specialize (DB V' SV). change (bt P V' (b_primal b) -> be P (n_bound t) V') in DB.
    assert (bt P V' (b_primal b)) by vlia. specialize (DB H). vlia. }
  change (isBetter R) with (isBetter P). change (better R) with (better P).
  destruct (isBetter P (n_bound t) (b_primal b)) eqn:C.
  - apply isBetter_bt in C. unfold update. rewrite Et. cbn [bind st_primal st_dual orb andb]. change (better R) with (better P).
    destruct (d_exact d1) eqn:X; cbn [bind].
    + destruct (relaxed_exact R I rank N VQ _ _ _ Nt Is Rg srt Hsrt dfuel _ (b_primal b) w d1 S0 F E X) as (t' & Et' & Gt & _).
      rewrite Et in Et'. injection Et' as <-.
      assert (Gt' : genuine P (p_init P) 0 [] (p_target P) (n_bound t) (n_lab t)).
      { eapply genuine_trans; [exact G|]. apply (q_genuine (b_primal b)); auto. apply Gt. pose proof (log_primal P _ _ _ L). change (bt P (n_bound t) (sentinel P)). vlia. }
      pose proof (log_push P _ _ _ _ _ L Gt' C) as L1. do 4 eexists. split; [reflexivity|]. split; [exact L1|].
      assert (Ep : better P (n_bound t) (b_primal b) = n_bound t) by (unfold better; apply isBetter_bt in C; now rewrite C).
      cbn. rewrite Ep, X. csplit; auto; try discriminate; [vlia|].
      intros _ V HV. destruct (isBetter P V (b_primal b)) eqn:CV; [apply isBetter_bt in CV; auto|apply isBetter_nbt in CV; vlia].
    + do 4 eexists. split; [reflexivity|]. split; [exact L|]. rewrite X. csplit; auto using be_refl; discriminate.
  - apply isBetter_nbt in C. cbn [bind]. assert (Qb : forall V, covers from V -> be P (b_primal b) V).
    { intros V HV. destruct (isBetter P V (b_primal b)) eqn:CV; [apply isBetter_bt in CV; specialize (DB' V HV CV); vlia|apply isBetter_nbt in CV; vlia]. }
    do 4 eexists. split; [reflexivity|]. split; [exact L|]. csplit; auto using be_refl.
Qed.

Lemma apply_restrictedD d from b vs : node_ok from -> log_of P p0 b vs ->
  exists d2 b2 pb vs2, apply (cur P lab b) srt dfuel (SRestricted mxw) d from b = Ok (d2, b2, pb) /\ log_of P p0 b2 vs2 /\ be P (b_primal b2) (b_primal b) /\
    (d_exact d2 = true -> forall V, covers from V -> be P (b_primal b2) V).
Proof.
  intros Nk L. pose proof (log_at _ _ _ _ L) as Ab. pose proof (node_ID _ Nk) as Is. pose proof (q_range (b_primal b) Ab _ Nk) as Rg. pose proof Nk as [G Nt].
  pose proof (dy_model _ _ _ _ _ _ DY (b_primal b) Ab) as VQ. fold (cur P lab b) in *. set (R := cur P lab b) in *.
  pose proof (started_from R d from) as S0. assert (F : N + 1 < dfuel + rank (n_state from)) by lia.
  unfold apply. cbn [compute].
  destruct (restricted_any_width R I rank N VQ _ _ _ Nt Is Rg dfuel _ (b_primal b) mxw S0 Hmxw F) as (d2 & E & _ & X). rewrite E. cbn [bind].
  destruct (restricted_genuine R I (vm_closed _ _ _ _ VQ) _ _ _ Nt Is Rg dfuel _ (b_primal b) mxw d2 S0 E) as (t & Et & _ & Gt). rewrite Et. cbn [bind].
  change (isBetter R) with (isBetter P). change (better R) with (better P).
  assert (DB : d_exact d2 = true -> forall V, covers from V -> be P (b_primal b) V \/ be P (n_bound t) V).
  { intros Xd V HV. destruct (X Xd) as (t' & Et' & DB). rewrite Et in Et'. injection Et' as <-.
    destruct (isBetter P V (b_primal b)) eqn:CV.
    - right. apply isBetter_bt in CV. destruct (q_covers (b_primal b) Ab from V Nk HV CV) as (V' & SV & LV). specialize (DB V' SV).
      change (bt P V' (b_primal b) -> be P (n_bound t) V') in DB. assert (bt P V' (b_primal b)) by vlia. specialize (DB H). vlia.
    - left. apply isBetter_nbt in CV. vlia. }
  destruct (isBetter P (n_bound t) (b_primal b)) eqn:C.
  - apply isBetter_bt in C. unfold update. rewrite Et. cbn [bind st_primal st_dual orb andb]. change (better R) with (better P).
    assert (Gt' : genuine P (p_init P) 0 [] (p_target P) (n_bound t) (n_lab t)).
    { eapply genuine_trans; [exact G|]. apply (q_genuine (b_primal b)); auto. apply Gt. pose proof (log_primal P _ _ _ L). change (bt P (n_bound t) (sentinel P)). vlia. }
    pose proof (log_push P _ _ _ _ _ L Gt' C) as L1. do 4 eexists. split; [reflexivity|]. split; [exact L1|].
    assert (Ep : better P (n_bound t) (b_primal b) = n_bound t) by (unfold better; apply isBetter_bt in C; now rewrite C).
    cbn. rewrite Ep. csplit; auto; [vlia|]. intros Xd V HV. destruct (DB Xd V HV); auto. vlia.
  - apply isBetter_nbt in C. cbn [bind]. do 4 eexists. split; [reflexivity|]. split; [exact L|]. csplit; auto using be_refl.
    intros Xd V HV. destruct (DB Xd V HV); auto. vlia.
Qed.

Lemma bb_nodeD_ok s q : sinv s -> fst q < length (s_pool s) ->
  exists s', bb_nodeD P lab srt dfuel mxw s q = Ok s' /\ sinv s' /\ node_frame P s s' /\ (keys_ok P s -> keys_ok P s') /\
   (valid_qdom P I -> key_ok (s_pool s) (b_primal (s_b s)) q -> s_seen s' = s_seen s -> hist_ok P s' ->
     forall V, held P s V \/ covers (pool_node P (s_pool s) (fst q)) V -> held P s' V).
Proof.
  intros V Hq. unfold bb_nodeD. cbn zeta. set (from := pool_node P (s_pool s) (fst q)).
  assert (Nf : node_ok from). { pose proof (i_pool _ _ _ V) as FP. rewrite Forall_forall in FP. apply FP. now apply pool_node_in. }
  destruct (i_log _ _ _ V) as [vs L]. pose proof (log_at _ _ _ _ L) as Ab.
  destruct (isBetter P (snd q) (b_primal (s_b s))) eqn:C; cbn [negb].
  2:{ apply isBetter_nbt in C. eexists. split; [reflexivity|]. csplit.
      - apply sinv_run; eauto.
      - constructor; cbn; auto using be_refl. exists []; auto.
      - intros K. exact K.
      - intros _ K _ _ V0 [HV|(v & Cv & Bv)]; [exact HV|]. left. cbn.
        destruct (isBetter P (n_bound from + v) (b_primal (s_b s))) eqn:C2; [|apply isBetter_nbt in C2; vlia].
        apply isBetter_bt in C2. specialize (K v Cv C2). fold from in K. vlia. }
  destruct (apply_relaxedD (s_w s) (s_relaxed s) from (s_b s) vs Nf L) as (d1 & b1 & db & vs1 & E1 & L1 & P1 & RX & DBF & DX & DI).
  rewrite E1. cbn [bind].
  assert (Mono : forall s', s_pool s' = s_pool s -> s_pq s' = s_pq s -> be P (b_primal (s_b s')) (b_primal (s_b s)) ->
    (keys_ok P s -> keys_ok P s') /\ (forall V0, held P s V0 -> held P s' V0)).
  { intros s' Ep Eq Lp. unfold keys_ok, held. rewrite Ep, Eq. split.
    - intros K q' Hq'. eapply key_mono; eauto.
    - intros V0 [H|H]; auto. left. vlia. }
  destruct db.
  2:{ destruct (DBF eq_refl) as [-> DB]. eexists. split; [reflexivity|].
      match goal with |- sinv ?s' /\ _ => destruct (Mono s' eq_refl eq_refl P1) as [M1 M2] end. csplit.
      - apply sinv_run; eauto.
      - constructor; cbn; auto. exists []; auto.
      - exact M1.
      - intros _ _ _ _ V0 [HV|HV]; auto. left. cbn. auto. }
  destruct (apply_restrictedD (s_restr s) from b1 vs1 Nf L1) as (d2 & b2 & pb & vs2 & E2 & L2 & P2 & RE). rewrite E2. cbn [bind].
  assert (P12 : be P (b_primal b2) (b_primal (s_b s))) by vlia.
  destruct (negb (d_exact d2) && negb (d_exact d1)) eqn:X.
  2:{ eexists. split; [reflexivity|].
      match goal with |- sinv ?s' /\ _ => destruct (Mono s' eq_refl eq_refl P12) as [M1 M2] end. csplit.
      - apply sinv_run; eauto.
      - constructor; cbn; auto. exists []; auto.
      - exact M1.
      - intros _ _ _ _ V0 [HV|HV]; auto. left. cbn. apply andb_false_iff in X as [X|X]; apply negb_false_iff in X; auto.
        pose proof (DX X V0 HV). vlia. }
  apply andb_true_iff in X as [_ X]. apply negb_true_iff in X. pose proof (DI X) as ->.
  pose proof (node_ID _ Nf) as Is. pose proof (q_range (b_primal (s_b s)) Ab _ Nf) as Rg. pose proof Nf as [G Nt].
  pose proof (dy_model _ _ _ _ _ _ DY (b_primal (s_b s)) Ab) as VQ. fold (cur P lab (s_b s)) in *. set (R := cur P lab (s_b s)) in *.
  pose proof (started_from R (s_relaxed s) from) as S0. assert (F : N + 1 < dfuel + rank (n_state from)) by lia.
  destruct (relaxed_cutset R I rank N VQ _ _ _ Nt Is Rg srt Hsrt dfuel _ (b_primal (s_b s)) (s_w s) d1 S0 F RX) as (cs & Ec & ND & CN & CC).
  rewrite Ec. cbn [bind].
  set (s1 := run_upd s b2 d1 d2 (S (s_nNode s)) (S (s_ttl s)) ((d1, b_primal b2) :: s_hist s)).
  destruct (Mono s1 eq_refl eq_refl P12) as [M1 M2].
  assert (V1 : sinv s1) by (apply sinv_run; eauto).
  assert (NC : forall i, In i cs -> node_ok (d_nd d1 i)).
  { intros i Hi. destruct (CN i Hi) as (_ & B1 & _ & B2). split; auto. eapply genuine_trans; eauto. eapply q_genuine; eauto. }
  destruct (cut_loop_ok P I rank N VM HI srt Hsrt dfuel Hfuel mxw Hmxw p0 d1 cs s1 V1 NC) as (s' & E' & V' & F' & X').
  exists s'.
  destruct X' as [K' C'].
  { intros i v Hi Cv Bv. cbn in Bv. destruct (CN i Hi) as (B1 & B2 & _ & _). pose proof (NC i Hi) as [Gi Ni].
    destruct (dy_keep _ _ _ _ _ _ DY (b_primal (s_b s)) (n_state (d_nd d1 i)) (n_bound (d_nd d1 i)) (n_lab (d_nd d1 i)) v Ab Gi Ni Cv) as (v' & Cv' & Bv'); [vlia|].
    assert (Y : be P (n_bb (d_nd d1 i)) v'); [|vlia].
    apply (relaxed_backward R I rank N VQ _ _ _ Nt Is Rg srt Hsrt dfuel _ (b_primal (s_b s)) (s_w s) d1 S0 F RX i v' B1); auto.
    - intros Et. destruct (relaxed_dual_bound R I rank N VQ _ _ _ Nt Is Rg srt Hsrt dfuel _ (b_primal (s_b s)) (s_w s) d1 S0 F RX) as (t & Et' & St' & _).
      unfold trg_node in Et'. rewrite Et in Et'. injection Et' as <-. auto.
    - change (bt P (n_bound (d_nd d1 i) + v') (b_primal (s_b s))). vlia. }
  csplit; auto.
  - destruct F' as [f1 f2 f3 f4 f5 f6]. constructor; auto.
    + rewrite f1. exact P12.
    + rewrite f3. exists [(d1, b_primal b2)]. auto.
  - intros QD Kq Es HH V0 HV. apply C'; auto.
    destruct HV as [HV|HV]; [left; auto|].
    destruct (isBetter P V0 (b_primal (s_b s))) eqn:CV.
    2:{ left. left. cbn. apply isBetter_nbt in CV. vlia. }
    apply isBetter_bt in CV. destruct (q_covers (b_primal (s_b s)) Ab from V0 Nf HV CV) as (U & SV & LV).
    destruct (CC U SV) as [(i & v & Hi & Cv & Bv)|(i & l & sink & Hi & Xi & Tk & Hl & Hs & _ & Bv)].
    + change (bt P U (b_primal (s_b s))). vlia.
    + right. exists i. split; auto. change (be P (n_bound (d_nd d1 i) + v) U) in Bv. exists v. split; [|vlia]. eapply q_compl; eauto. apply node_ID; auto.
    + left. left. cbn. assert (Hd : In (d1, b_primal b2) (s_hist s')) by (rewrite (cf_hist _ _ F'); now left).
      pose proof (HH _ _ Hd i l Hi Xi) as Hq2. change (be P (n_bound (d_nd d1 i) + p_cost P (n_state (d_nd d1 i)) l) U) in Bv.
      assert (Il : In l (p_labels P (n_state (d_nd d1 i)))). { exact (dy_sub _ _ _ _ _ _ DY _ _ _ Ab Hl). }
      specialize (Hq2 Il Hs). vlia.
Qed.

Lemma q_narrow b (Ab : at_bound P p0 b) s w : I s -> narrow P s w -> narrow (Q b) s w.
Proof. intros Is Nw k l ND H. apply (Nw k l ND). intros x Hx. destruct (H x Hx) as [A (ls & v & B & C)]. split; auto. exists ls, v. split; auto. apply (q_path b Ab); auto. Qed.
Lemma bb_nodeD_wide s q : sinv s -> fst q < length (s_pool s) -> key_ok (s_pool s) (b_primal (s_b s)) q ->
  narrow P (n_state (pool_node P (s_pool s) (fst q))) (s_w s) ->
  exists s', bb_nodeD P lab srt dfuel mxw s q = Ok s' /\ s_pq s' = s_pq s /\ s_ttl s' = S (s_ttl s) /\
    forall V, covers (pool_node P (s_pool s) (fst q)) V -> be P (b_primal (s_b s')) V.
Proof.
  intros V Hq K Nw. unfold bb_nodeD. cbn zeta. set (from := pool_node P (s_pool s) (fst q)) in *.
  assert (Nf : node_ok from). { pose proof (i_pool _ _ _ V) as FP. rewrite Forall_forall in FP. apply FP. now apply pool_node_in. }
  destruct (i_log _ _ _ V) as [vs L]. pose proof (log_at _ _ _ _ L) as Ab.
  destruct (isBetter P (snd q) (b_primal (s_b s))) eqn:C; cbn [negb].
  2:{ apply isBetter_nbt in C. eexists. split; [reflexivity|]. csplit; auto. intros V0 (v & Cv & Bv). cbn.
      destruct (isBetter P (n_bound from + v) (b_primal (s_b s))) eqn:C2; [|apply isBetter_nbt in C2; vlia].
      apply isBetter_bt in C2. specialize (K v Cv C2). fold from in K. vlia. }
  destruct (apply_relaxedD (s_w s) (s_relaxed s) from (s_b s) vs Nf L) as (d1 & b1 & db & vs1 & E1 & L1 & P1 & RX & DBF & DX & DI).
  rewrite E1. cbn [bind]. pose proof (node_ID _ Nf) as Is. pose proof (q_range (b_primal (s_b s)) Ab _ Nf) as Rg.
  assert (X : d_exact d1 = true).
  { apply (relaxed_wide (cur P lab (s_b s)) I rank N (dy_model _ _ _ _ _ _ DY _ Ab) (n_state from) (n_bound from) (n_lab from) (proj2 Nf) Is Rg srt Hsrt (s_w s)
      (q_narrow _ Ab _ _ Is Nw) (b_primal (s_b s)) dfuel (initFrom (cur P lab (s_b s)) (s_relaxed s) from)); auto; [apply started_from|lia]. }
  destruct db.
  2:{ eexists. split; [reflexivity|]. csplit; auto. }
  destruct (apply_restrictedD (s_restr s) from b1 vs1 Nf L1) as (d2 & b2 & pb & vs2 & E2 & L2 & P2 & RE). rewrite E2. cbn [bind].
  rewrite X, andb_false_r. eexists. split; [reflexivity|]. csplit; auto. intros V0 HV. pose proof (DX X V0 HV). cbn. vlia.
Qed.

(** *** the loop *)
Variable lim : nat -> bool.
Notation bb_loopD := (bb_loopD P lab srt dfuel lim).
Lemma bb_loopD_ok : forall fuel k s s' e, sinv s -> at_head s -> bb_loopD fuel mxw k s = Ok (s', e) ->
  sinv s' /\ end_ok s' e /\ be P (b_primal (s_b s')) (b_primal (s_b s)) /\ s_seen s <= s_seen s' /\ (exists x, s_hist s' = x ++ s_hist s) /\
  (valid_qdom P I -> keys_ok P s -> s_seen s' = s_seen s -> hist_ok P s' -> forall V, held P s V -> held_end P s' e V).
Proof.
  induction fuel as [|fuel IH]; intros k s s' e V A E; cbn [SearchDyn.bb_loopD] in E.
  - destruct (heap_empty (s_pq s)) eqn:H0; [|discriminate]. injection E as <- <-. apply empty_elems in H0; [|apply (i_heap _ _ _ V)].
    csplit; auto using be_refl; [split; auto; unfold entries; exact (f_equal (map snd) H0)|exists []; auto|]. intros _ _ _ _ V0 HV. now left.
  - destruct (heap_empty (s_pq s)) eqn:H0.
    + injection E as <- <-. apply empty_elems in H0; [|apply (i_heap _ _ _ V)].
      csplit; auto using be_refl; [split; auto; unfold entries; exact (f_equal (map snd) H0)|exists []; auto|]. intros _ _ _ _ V0 HV. now left.
    + destruct (heap_extractMax (q_ord P) (s_pq s)) as [[q h]|] eqn:EX; [|discriminate].
      destruct (popped_ok P p0 s q h V EX) as (V1 & Pm & Hq & K1 & C1).
      destruct (lim k).
      * injection E as <- <-. assert (end_ok (popped s q h) (Limited q)) by (cbn; rewrite <- A; auto).
        csplit; auto using be_refl; try (exists []; reflexivity).
      * apply bind_ok in E as (s1 & E1 & E).
        destruct (bb_nodeD_ok (popped s q h) q V1 Hq) as (s1' & E1' & V2 & F2 & K2 & C2). rewrite E1 in E1'. injection E1' as <-.
        destruct (IH (S k) s1 s' e V2) as (V3 & E3 & P3 & S3 & (x & X3) & C3); auto.
        { unfold at_head. rewrite (nf_out _ _ _ F2), (nf_ttl _ _ _ F2). cbn. now rewrite <- A. }
        destruct F2 as [f1 f2 f3 f4 (y & f5)]. cbn in f3, f4, f5. csplit; auto; [vlia|lia|exists (x ++ y); rewrite X3, f5; apply app_assoc|].
        intros QD K Es HH V0 HV. destruct (K1 K) as [K1a K1b].
        assert (HH1 : hist_ok P s1). { intros d p Hd. apply HH. rewrite X3. apply in_or_app. auto. }
        apply C3; auto; [lia|]. apply C2; auto; cbn; lia.
Qed.
Lemma bb_loopD_total (L : list St) : (forall s, s <> p_target P -> (exists ls v, path P (p_init P) ls v s) -> In s L) ->
  forall fuel k s, sinv s -> length L <= fuel + length (s_out s) -> exists s' e, bb_loopD fuel mxw k s = Ok (s', e).
Proof.
  intros HL. induction fuel as [|fuel IH]; intros k s V F; cbn [SearchDyn.bb_loopD].
  - destruct (heap_empty (s_pq s)) eqn:H0; [eauto|]. exfalso.
    assert (Q : length (s_out s ++ entries (s_pq s)) <= length L).
    { transitivity (length (s_pool s)).
      - rewrite <- (map_length (fst : qnode -> nat) (s_out s ++ entries (s_pq s))), <- (seq_length (length (s_pool s)) 0). apply NoDup_incl_length; [apply (i_ndq _ _ _ V)|].
        intros i Hi. apply in_map_iff in Hi as (q & <- & Hq). apply in_seq. pose proof (i_idx _ _ _ V q Hq). lia.
      - rewrite <- (map_length n_state (s_pool s)). apply NoDup_incl_length; [apply (i_nds _ _ _ V)|].
        intros x Hx. apply in_map_iff in Hx as (n & <- & Hn). pose proof (i_pool _ _ _ V) as FP. rewrite Forall_forall in FP.
        destruct (FP n Hn) as [(ls & v & _ & _ & Pt) Nt]. apply HL; eauto. }
    rewrite app_length in Q.
    assert (entries (s_pq s) = []) by (destruct (entries (s_pq s)); auto; cbn in Q; lia).
    assert (heap_elems (s_pq s) = []) by (unfold entries in H; destruct (heap_elems (s_pq s)); auto; discriminate).
    apply (empty_elems (s_pq s)) in H1; [|apply (i_heap _ _ _ V)]. congruence.
  - destruct (heap_empty (s_pq s)) eqn:H0; [eauto|].
    destruct (extractMax_some (q_ord P) (s_pq s)) as (q & h & EX); [apply (i_heap _ _ _ V)| |].
    { intros H. apply (empty_elems (s_pq s)) in H; [|apply (i_heap _ _ _ V)]. congruence. }
    rewrite EX. destruct (lim k); [eauto|]. destruct (popped_ok P p0 s q h V EX) as (V1 & _ & Hq & _).
    destruct (bb_nodeD_ok (popped s q h) q V1 Hq) as (s1 & -> & V2 & F2 & _). cbn [bind]. apply IH; auto.
    rewrite (nf_out _ _ _ F2). cbn. lia.
Qed.
End Dyn.

(** ** the statements *)
Section Statements.
Context {St : Type} (P : prob St) (lab : Z -> St -> list Z) (I : St -> Prop) (rank : St -> nat) (N : nat) (srt : dd St -> list nat -> list nat) (dfuel mxw : nat).
Hypothesis SE : setting P I rank N srt dfuel mxw.
Variable lim : nat -> bool.
Variable user : option Z.
Let p0 := match user with Some p => p | None => sentinel P end.
Hypothesis DY : dyn_ok P lab p0 I rank N.
Hypothesis Hp0 : be P p0 (sentinel P).
Lemma p0_attachD : p0 = b_primal (attach P user).
Proof. unfold p0, attach. destruct user; reflexivity. Qed.

Section Run.
Variables (fuel : nat) (s : @sst St) (e : ending).
Hypothesis E : searchD P lab srt dfuel lim fuel mxw user = Ok (s, e).
Lemma runD_facts : sinv P p0 s /\ end_ok s e /\
  (valid_qdom P I -> (forall V, solution P (p_init P) 0 V -> be P (initialWorst P) V) -> s_seen s = 0 -> hist_ok P s ->
    forall V, solution P (p_init P) 0 V -> held_end P s e V).
Proof.
  destruct SE as [A1 A2 A3 A4 A5 A6 A7]. pose proof Hp0 as Q. pose proof DY as DD. rewrite p0_attachD in *.
  destruct (bb_loopD_ok P lab I rank N A1 A3 A4 srt A5 dfuel A6 mxw A7 _ DD Q lim fuel 0 _ s e
    (start_inv P N A2 dfuel A6 lim mxw A7 user) (at_head_start P mxw user) E) as (B1 & B2 & _ & _ & _ & B3).
  csplit; auto. intros QD HL Es HH V SV. apply B3; auto.
  - exact (start_keys P I rank N A1 A3 mxw user HL).
  - exact (start_held P mxw user V SV).
Qed.
Lemma searchD_genuine : (b_primal (s_b s) <> p0 -> genuine P (p_init P) 0 [] (p_target P) (b_primal (s_b s)) (b_inc (s_b s))) /\
  (forall ls, In ls (b_log (s_b s)) -> exists v, genuine P (p_init P) 0 [] (p_target P) v ls /\ bt P v p0).
Proof.
  destruct runD_facts as (V & _). destruct (i_log _ _ _ V) as (vs & A1 & A2 & A3 & A4 & A5). split.
  - rewrite A4, A5. destruct A1; cbn; [congruence|auto].
  - intros ls Hl. clear - Hl A1 A3. induction A1 as [|x v l vs G A1 IH]; [destruct Hl|]. inversion A3; subst. destruct Hl as [<-|Hl]; eauto.
Qed.
Lemma searchD_preset : be P (b_primal (s_b s)) p0 /\
  ((forall V, solution P (p_init P) 0 V -> ~ bt P V p0) -> b_primal (s_b s) = p0 /\ b_inc (s_b s) = [] /\ b_log (s_b s) = []).
Proof.
  destruct runD_facts as (V & _). destruct (i_log _ _ _ V) as (vs & A). split; [eapply log_primal; eauto|].
  destruct A as (A1 & A2 & A3 & A4 & A5). intros H. rewrite A4, A5. destruct A1 as [|x v l vs G A1]; auto. exfalso.
  inversion A3; subst. apply (H v); auto. destruct G as (ls & v' & _ & -> & Pt). exists v'. split; auto. exists ls; auto.
Qed.
Lemma searchD_optimal : e = Emptied -> valid_qdom P I -> (forall V, solution P (p_init P) 0 V -> be P (initialWorst P) V) -> s_seen s = 0 -> hist_ok P s ->
  forall V, solution P (p_init P) 0 V -> be P (b_primal (s_b s)) V.
Proof.
  intros Ee QD HL Es HH V SV. destruct runD_facts as (_ & En & C). rewrite Ee in En. destruct En as [En _].
  destruct (C QD HL Es HH V SV) as [[C1|(q & Hq & _)]|C1]; auto.
  - rewrite En in Hq. destruct Hq.
  - rewrite Ee in C1. destruct C1.
Qed.
End Run.

Lemma searchD_total L : (forall s, s <> p_target P -> (exists ls v, path P (p_init P) ls v s) -> In s L) ->
  forall fuel, length L <= fuel -> exists s e, searchD P lab srt dfuel lim fuel mxw user = Ok (s, e).
Proof.
  intros HL fuel F. destruct SE as [A1 A2 A3 A4 A5 A6 A7]. pose proof Hp0 as Q. pose proof DY as DD. rewrite p0_attachD in Q, DD.
  apply (bb_loopD_total P lab I rank N A1 A3 A4 srt A5 dfuel A6 mxw A7 _ DD Q lim L HL fuel 0).
  - exact (start_inv P N A2 dfuel A6 lim mxw A7 user).
  - lia.
Qed.
Lemma searchD_narrow fuel : lim 0 = false -> narrow P (p_init P) mxw -> (forall V, solution P (p_init P) 0 V -> be P (initialWorst P) V) -> 1 <= fuel ->
  exists s, searchD P lab srt dfuel lim fuel mxw user = Ok (s, Emptied) /\ s_ttl s = 1 /\ (forall V, solution P (p_init P) 0 V -> be P (b_primal (s_b s)) V) /\
    (b_primal (s_b s) <> p0 -> genuine P (p_init P) 0 [] (p_target P) (b_primal (s_b s)) (b_inc (s_b s))).
Proof.
  intros L0 Nw HL F. destruct fuel as [|f]; [lia|].
  enough (X : exists s, searchD P lab srt dfuel lim (S f) mxw user = Ok (s, Emptied) /\ s_ttl s = 1 /\ forall V, solution P (p_init P) 0 V -> be P (b_primal (s_b s)) V).
  { destruct X as (s & E & T & O). exists s. csplit; auto. apply (proj1 (searchD_genuine (S f) s Emptied E)). }
  pose proof SE as [A1 A2 A3 A4 A5 A6 A7]. pose proof Hp0 as HQ. pose proof DY as DD. rewrite p0_attachD in HQ, DD.
  unfold searchD. pose proof (start_inv P N A2 dfuel A6 lim mxw A7 user) as V. pose proof (start_keys P I rank N A1 A3 mxw user HL) as K.
  destruct (start_entries P mxw user) as (key & E & _ & Hh). destruct (start_proj P mxw user) as (_ & _ & _ & Et & _ & _ & Ew). destruct (start_root P mxw user) as [R1 R2].
  set (s0 := bb_start P mxw user) in *. clearbody s0. cbn [bb_loopD].
  assert (Ne : heap_elems (s_pq s0) <> []) by (intros H; unfold entries in E; rewrite H in E; discriminate).
  destruct (heap_empty (s_pq s0)) eqn:H0. { apply (empty_elems (s_pq s0)) in H0; [|apply Hh]. exfalso. apply Ne, H0. }
  destruct (extractMax_some (q_ord P) (s_pq s0)) as (q & h & EX); [apply Hh|exact Ne|].
  rewrite EX, L0. destruct (popped_ok P _ s0 q h V EX) as (V1 & Pm & Hq & K1 & _). destruct (K1 K) as [_ Kq].
  rewrite E in Pm. apply Permutation_length_1_inv in Pm. injection Pm as -> Eh.
  destruct (bb_nodeD_wide P lab I rank N A1 A3 A4 srt A5 dfuel A6 mxw A7 _ DD HQ (popped s0 (0, key) h) (0, key) V1 Hq Kq) as (s1 & E1 & B1 & B2 & B3).
  { cbn [popped s_pool s_w fst]. rewrite R1, Ew. exact Nw. }
  rewrite E1. cbn [bind].
  assert (H1 : heap_empty (s_pq s1) = true).
  { rewrite B1. cbn [popped s_pq]. apply (proj2 (empty_elems h (proj1 (i_heap _ _ _ V1)))). apply (map_eq_nil snd). exact Eh. }
  exists s1. split; [destruct f; cbn [bb_loopD]; now rewrite H1|]. split; [rewrite B2; cbn; now rewrite Et|].
  intros V0 (v & Cv & ->). apply B3. exists v. cbn [popped s_pool fst]. rewrite R1, R2. split; auto. apply be_refl.
Qed.
End Statements.

(** the start of the primal bound: --bound of the command line or the sentinel *)
Definition start_bound {St} (P : prob St) (user : option Z) : Z := match user with Some p => p | None => sentinel P end.
