(** Restricted diagrams on layered models: termination, exactness claim, width. *)
From Verif Require Import Base DDModel DDSpec DDFrame DDInv DDLayer DDRestricted DDExpand.

Section R.
Context {St : Type}.
Variable P : prob St.
Variable I : St -> Prop.
Hypothesis HC : closed P I.
Variables (rs : St) (rb : Z) (rl : list Z).
Hypothesis Hrs : rs <> p_target P.
Hypothesis HI : I rs.
Hypothesis Hrange : in_range P rs rb.
Variable rank : St -> nat.
Hypothesis Hlay : layered P I rank.
Hypothesis Hdom : valid_dom P I rank.
Hypothesis Hdt : dom_avoids_target P I rank.
Notation dd := (dd St).

Lemma prepped_linv primal mode (d : dd) : prepped P d rs rb rl ->
  linv P I 0 1 rs rb rl rank primal mode d 0 nobody nobody [0] [].
Proof.
  intros PP. pose proof (prepped_gen P I HC rs rb rl Hrs HI d PP) as G.
  pose proof (prepped_exact P rs rb rl d PP) as AX.
  destruct PP as [nn ne an root trg sst sbd slab spar skids slay sex sdex st1 bd1 lab1 par1 kids1 lay1 ex1].
  assert (C : forall i, i < d_nn d -> i = 0 \/ i = 1) by (intros; lia).
  assert (L1 : ~ live 0 d 1) by (intros [?|?]; [lia|congruence]).
  constructor; auto.
  - intros i [<-|[]]. csplit; auto; try lia. now left.
  - intros i [].
  - constructor; [intros []|constructor].
  - constructor.
  - intros i Hi L N. destruct (C i Hi) as [->| ->]; [|congruence]. rewrite sst, slay. lia.
  - intros i Hi N. destruct (C i Hi) as [->| ->]; [|congruence]. lia.
  - intros i Hi L N E. destruct (C i Hi) as [->| ->]; [|congruence]. lia.
  - intros e He. lia.
  - intros i. rewrite an, nn. cbn [In]. split.
    + intros [<-|[<-|[]]]; split; try lia; auto. left; now left.
    + intros (Hi & _). lia.
  - rewrite an. constructor; [intros [?|[]]; lia|]. constructor; [intros []|constructor].
  - intros e He. lia.
  - intros e He. lia.
  - intros _ i Hi L N LK NC. destruct (C i Hi) as [->| ->]; [|congruence]. exfalso; apply NC; now left.
Qed.
Lemma prepped_width w (d : dd) : 1 <= w -> prepped P d rs rb rl -> width_le 0 1 w 0 d.
Proof.
  intros Hw PP k ns Hk ND H. assert (length ns <= length [0]); [|cbn in *; lia].
  apply NoDup_incl_length; auto. intros i Hi. destruct (H i Hi) as (A & _ & B & _). rewrite (pp_nn _ _ _ _ _ PP) in A. cbn. lia.
Qed.

Definition layer_nodes (d : dd) (k : nat) : list nat :=
  filter (fun i => negb (is_ptr (d_trg d) i) && (n_layer (d_nd d i) =? k)) (d_an d).

Theorem restricted_complete N : depth_le P I rank N -> valid_local P I ->
  forall fuel d primal w, started d rs rb rl -> 1 <= w -> (N.of_nat w <= 4294967296)%N -> N + 1 < fuel + rank rs ->
  exists d', rs_compute P fuel d primal w = Ok d' /\
    (forall k, length (layer_nodes d' k) <= w) /\
    (d_exact d' = true -> exists n, trg_node d' = Ok n /\
       forall V, solution P rs rb V -> bt P V primal -> be P (n_bound n) V).
Proof.
  intros HN Hloc fuel d primal w S Hw Hw2 HF.
  pose proof (prep_ok P I d rs rb rl HC HI Hrs S) as PP.
  destruct (rs_loop_linv P I HC 0 1 rs rb rl Hrs Hrange rank Hlay Hdom Hdt primal fuel (prep P d) 0 w [0] N)
    as (d2 & K & E & H & W); auto.
  { now apply prepped_linv. }
  { now apply prepped_width. }
  { lia. }
  pose proof (l_gen H) as G. pose proof (g_base G) as B. pose proof (tighten_spec P d2 1 (b_trg B)) as T.
  exists (tighten P d2 1). split; [|split].
  - unfold rs_compute. rewrite (sd_root _ _ _ _ S).
    change (with_node (target P (with_dexact d true)) 0 (nset_layer (d_nd (target P (with_dexact d true)) 0) 0)) with (prep P d).
    rewrite E. cbn [bind]. now rewrite (b_trg B).
  - intros k. assert (F : forall i, In i (layer_nodes (tighten P d2 1) k) -> i < d_nn d2 /\ live 0 d2 i /\ i <> 1 /\ lay d2 i = k).
    { intros i Hi. unfold layer_nodes in Hi. apply filter_In in Hi as [Hi F]. rewrite (tg_an _ _ _ _ T) in Hi.
      rewrite (tg_trg _ _ _ _ T), (b_trg B), (tg_lay _ _ _ _ T) in F. apply andb_true_iff in F as [F1 F2]. cbn [is_ptr] in F1.
      apply (l_an H) in Hi as (Hi & [L|[->|[]]]); [|cbn in F1; discriminate]. csplit; auto.
      - intros ->. discriminate.
      - now apply Nat.eqb_eq. }
    destruct (Nat.le_gt_cases k K) as [LK|LK].
    + apply (W k); auto. apply NoDup_filter. rewrite (tg_an _ _ _ _ T). apply (l_nda H).
    + destruct (layer_nodes (tighten P d2 1) k) as [|i l] eqn:EL; [cbn; lia|]. exfalso.
      destruct (F i (or_introl eq_refl)) as (A1 & A2 & A3 & A4). pose proof (l_le H i A1 A3).
      apply (l_top H i); auto. lia.
  - rewrite (tg_dex _ _ _ _ T). intros DX. exists (d_nd (tighten P d2 1) 1). unfold trg_node. rewrite (tg_trg _ _ _ _ T), (b_trg B).
    split; auto. intros V SV BV.
    eapply (tighten_cover P I HC 0 1 rs rb rl Hrs rank primal Hloc false d2 K); eauto.
    + now right.
    + apply (l_root H).
Qed.
End R.

(** width 0 behaves as width 2^32 *)
Lemma rs_full_eq w w' : (N.of_nat w mod 4294967296 = N.of_nat w' mod 4294967296)%N -> forall nb, rs_full nb w = rs_full nb w'.
Proof. intros E nb. unfold rs_full. rewrite N.add_mod, E, <- N.add_mod by lia. reflexivity. Qed.
Lemma rs_labels_w {St} (P : prob St) w w' : (forall nb, rs_full nb w = rs_full nb w') ->
  forall ls d primal q p, rs_labels P d primal w q p ls = rs_labels P d primal w' q p ls.
Proof.
  intros E. induction ls as [|l r IH]; intros; cbn [rs_labels]; auto. destruct (step_arc P d primal q p l) as [[d1 [c|]]|]; cbn [bind]; auto.
  rewrite E. destruct (rs_full _ w'); auto.
Qed.
Lemma rs_layer_w {St} (P : prob St) w w' : (forall nb, rs_full nb w = rs_full nb w') ->
  forall lk d primal q, rs_layer P d primal w q lk = rs_layer P d primal w' q lk.
Proof.
  intros E. induction lk as [|p r IH]; intros; cbn [rs_layer]; auto. rewrite (rs_labels_w P w w' E).
  destruct (rs_labels P d primal w' q p _) as [[[d1 q1] j]|]; cbn [bind]; auto. destruct j; auto.
Qed.
Lemma rs_loop_w {St} (P : prob St) w w' : (forall nb, rs_full nb w = rs_full nb w') ->
  forall fuel d primal q, rs_loop P fuel d primal w q = rs_loop P fuel d primal w' q.
Proof.
  intros E. induction fuel as [|f IH]; intros d primal [|n q]; cbn [rs_loop]; auto. destruct (rs_pull P d n q) as [lk q1].
  rewrite (rs_layer_w P w w' E). destruct (rs_layer P d primal w' q1 lk) as [[d1 q2]|]; cbn [bind]; auto.
Qed.
Lemma rs_compute_w {St} (P : prob St) w w' : (forall nb, rs_full nb w = rs_full nb w') ->
  forall fuel d primal, rs_compute P fuel d primal w = rs_compute P fuel d primal w'.
Proof. intros E fuel d primal. unfold rs_compute. destruct (d_root d); auto. now rewrite (rs_loop_w P w w' E). Qed.

(** no condition on the merge: a restricted compilation never merges *)
Lemma restricted_unmerged {St} (P : prob St) I rank N : closed P I -> layered P I rank -> depth_le P I rank N -> valid_dom P I rank -> dom_avoids_target P I rank ->
  valid_local P I -> forall rs rb rl, rs <> p_target P -> I rs -> in_range P rs rb ->
  forall fuel d primal w, started d rs rb rl -> (N.of_nat w < 4294967296)%N -> N + 1 < fuel + rank rs ->
  exists d', rs_compute P fuel d primal w = Ok d' /\
    (1 <= w -> forall k, length (layer_nodes d' k) <= w) /\
    (d_exact d' = true -> exists n, trg_node d' = Ok n /\
       forall V, solution P rs rb V -> bt P V primal -> be P (n_bound n) V).
Proof.
  intros V1 V2 V3 V6 V7 V8 rs rb rl H1 H2 H3 fuel d primal w S W F.
  pose proof (restricted_complete P I V1 rs rb rl H1 H2 H3 rank V2 V6 V7 N V3 V8 fuel d primal) as R.
  destruct (Nat.eq_dec w 0) as [->|Nw].
  - destruct (R (N.to_nat 4294967296) S) as (d' & E & _ & X); auto; [lia|lia|].
    exists d'. csplit; auto; [|lia]. rewrite <- E. apply rs_compute_w. apply rs_full_eq. rewrite Nnat.N2Nat.id. reflexivity.
  - destruct (R w S) as (d' & E & L & X); auto; [lia|lia|]. exists d'. csplit; auto.
Qed.
Lemma restricted_any_width {St} (P : prob St) I rank N : valid_model P I rank N ->
  forall rs rb rl, rs <> p_target P -> I rs -> in_range P rs rb ->
  forall fuel d primal w, started d rs rb rl -> (N.of_nat w < 4294967296)%N -> N + 1 < fuel + rank rs ->
  exists d', rs_compute P fuel d primal w = Ok d' /\
    (1 <= w -> forall k, length (layer_nodes d' k) <= w) /\
    (d_exact d' = true -> exists n, trg_node d' = Ok n /\
       forall V, solution P rs rb V -> bt P V primal -> be P (n_bound n) V).
Proof. intros [V1 V2 V3 V4 V5 V6 V7 V8]. now apply restricted_unmerged. Qed.
