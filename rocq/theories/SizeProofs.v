(** How many nodes and edges one compilation creates (C84). *)
From Verif Require Import Base DDModel DDSpec DDFrame DDInv DDLayer DDMerge DDTopo DDPasses DDRestricted DDExpand DDRestricted2 DDRelaxed DDRelaxed2 DDRelaxedEnd ApartProofs.

(** d' has at most k more nodes and m more edges than d *)
Definition more {St} (d d' : dd St) (k m : nat) : Prop := d_nn d' <= d_nn d + k /\ d_ne d' <= d_ne d + m.
Lemma more_trans {St} (a b c : dd St) k1 m1 k2 m2 : more a b k1 m1 -> more b c k2 m2 -> more a c (k1 + k2) (m1 + m2).
Proof. unfold more. lia. Qed.
Lemma more_le {St} (a b : dd St) k1 m1 k2 m2 : more a b k1 m1 -> k1 <= k2 -> m1 <= m2 -> more a b k2 m2.
Proof. unfold more. lia. Qed.
Lemma more_refl {St} (a : dd St) : more a a 0 0.
Proof. unfold more. lia. Qed.

Section Count.
Context {St : Type}.
Variable P : prob St.
Lemma makeNode_more d s x d1 i : makeNode P d s x = (d1, i) -> more d d1 1 0.
Proof. unfold makeNode. destruct (hasNode P d s); [destruct (_ && _)|]; intros [= <- <-]; unfold more; cbn; lia. Qed.
Lemma transition_more d primal p l d1 o : transition P d primal p l = (d1, o) -> more d d1 1 0.
Proof.
  unfold transition. destruct (p_stf P _ l) as [s|]; [|intros [= <- <-]; unfold more; lia].
  destruct (p_local P) as [local|]; cbn zeta.
  - destruct (negb _); [intros [= <- <-]; unfold more; lia|]. destruct (makeNode P d s _) as [d2 i] eqn:E. apply makeNode_more in E.
    destruct (negb _); intros [= <- <-]; auto.
  - destruct (makeNode P d s _) as [d2 i] eqn:E. apply makeNode_more in E. intros [= <- <-]. auto.
Qed.
Lemma step_arc_more d primal q p l d1 o : step_arc P d primal q p l = Ok (d1, o) -> more d d1 1 1.
Proof.
  unfold step_arc. destruct (transition P d primal p l) as [d0 [c0|]] eqn:T; apply transition_more in T; [|intros [= <- <-]; unfold more in *; lia].
  cbn zeta. intros E. apply bind_ok in E as ([[d2 child] nw] & E2 & E). assert (M2 : more d0 d2 0 0).
  { destruct (p_sdom P) as [sd|]; [|injection E2 as <- _ _; apply more_refl].
    destruct (_ =? 0); [|injection E2 as <- _ _; apply more_refl].
    destruct (checkDominance P d0 sd q c0 _); [|injection E2 as <- _ _; apply more_refl].
    apply bind_ok in E2 as (an & _ & E2). injection E2 as <- _ _. unfold more; cbn; lia. }
  apply bind_ok in E as (d3 & E3 & E). unfold addEdge in E3. destruct (p =? child); [discriminate|]. injection E3 as <-.
  unfold more in *. destruct (isBetter P _ _); destruct (_ && _); injection E as <- _; cbn; lia.
Qed.
Lemma rs_labels_more primal w p : forall ls d q d1 q1 j, rs_labels P d primal w q p ls = Ok (d1, q1, j) -> more d d1 (length ls) (length ls).
Proof.
  induction ls as [|l r IH]; intros d q d1 q1 j E; cbn [rs_labels] in E.
  - injection E as <- _ _. apply more_refl.
  - apply bind_ok in E as ([d2 enq] & E2 & E). apply step_arc_more in E2. cbn [length].
    destruct enq as [c|]; [destruct (rs_full _ w); [injection E as <- _ _; unfold more in *; cbn [with_dexact d_nn d_ne] in *; lia|]|]; apply IH in E; unfold more in *; lia.
Qed.
Lemma rx_labels_more primal p : forall ls d q d1 q1, rx_labels P d primal q p ls = Ok (d1, q1) -> more d d1 (length ls) (length ls) /\ length (fst q1) <= length (fst q) + length ls.
Proof.
  induction ls as [|l r IH]; intros d q d1 q1 E; cbn [rx_labels] in E.
  - injection E as <- <-. split; [apply more_refl|lia].
  - apply bind_ok in E as ([d2 enq] & E2 & E). apply step_arc_more in E2. cbn [length]. apply IH in E as [E L]. split; [unfold more in *; lia|].
    set (q2 := match enq with Some c => lq_enQueue d2 q c | None => q end) in *. assert (LL : length (fst q2) <= S (length (fst q))).
    { unfold q2. destruct enq as [c|]; [|lia]. destruct q as [[|f nx] rest]; cbn [lq_enQueue fst]; [cbn; lia|]. destruct (_ =? _); cbn; lia. }
    etransitivity; [exact L|]. etransitivity; [apply Nat.add_le_mono_r; exact LL|]. lia.
Qed.
Lemma redirect_more recv : forall es (d d1 : dd St), redirect d es recv = Ok d1 -> more d d1 0 0.
Proof.
  induction es as [|e r IH]; intros d d1 E; cbn [redirect] in E; [injection E as <-; apply more_refl|]. cbn zeta in E.
  destruct (_ =? recv); [discriminate|]. apply IH in E. unfold more in *. cbn in E. lia.
Qed.
Lemma mp_donor_more (d : dd St) m dn d1 b : mp_donor d m dn = Ok (d1, b) -> more d d1 0 0.
Proof.
  unfold mp_donor, transferArcs. destruct (dn =? m); [intros [= <- _]; apply more_refl|]. intros E. apply bind_ok in E as (d2 & E2 & E).
  apply bind_ok in E2 as (d3 & E3 & E2). apply redirect_more in E3. injection E2 as <-. injection E as <- _. unfold more in *. cbn. lia.
Qed.
Lemma mergePair_more (d : dd St) m n1 n2 d1 a : mergePair d m n1 n2 = Ok (d1, a) -> more d d1 0 0.
Proof.
  unfold mergePair. cbn zeta. intros E. apply bind_ok in E as ([d2 a1] & E2 & E). apply bind_ok in E as ([d3 a2] & E3 & E). injection E as <- _.
  apply mp_donor_more in E2, E3. unfold more in *. destruct (nbParents d m =? 0); cbn in *; lia.
Qed.
Lemma merge_more (d : dd St) a b d1 m : merge P d a b = Some (d1, m) -> more d d1 1 0.
Proof.
  unfold merge. destruct (p_smf P _ _) as [s|]; [|discriminate]. cbn zeta. match goal with |- (if ?b then _ else _) = _ -> _ => destruct b; [discriminate|] end.
  destruct (makeNode P d s true) as [d2 rv] eqn:E. apply makeNode_more in E. unfold more in *.
  intros X. injection X as <- _. repeat match goal with |- context [if ?b then _ else _] => destruct b end; cbn; lia.
Qed.
Lemma find_partner_more (d : dd St) n1 : forall rest n2 d1 m, find_partner P d n1 rest = Some (n2, (d1, m)) -> In n2 rest /\ more d d1 1 0.
Proof.
  induction rest as [|k r IH]; intros n2 d1 m E; cbn [find_partner] in E; [discriminate|]. destruct (negb _ || negb _).
  - apply IH in E as [A B]. split; auto. now right.
  - destruct (merge P d n1 k) as [[d2 m2]|] eqn:M; [|apply IH in E as [A B]; split; auto; now right]. injection E as <- <- <-. split; [now left|now apply merge_more in M].
Qed.
Lemma erase1_len i : forall l, In i l -> S (length (erase1 i l)) = length l.
Proof. induction l as [|j r IH]; intros H; [destruct H|]. cbn. destruct (Nat.eqb_spec j i); auto. destruct H as [H|H]; [congruence|]. cbn. now rewrite IH. Qed.
Lemma mergeOne_more (d : dd St) n1 rest skip d1 l1 s1 dn : mergeOne P d n1 rest skip = Ok (d1, l1, s1, dn) -> more d d1 1 0 /\ length l1 <= length rest.
Proof.
  unfold mergeOne. destruct (negb _); [intros [= <- <- _ _]; split; [unfold more; lia|lia]|].
  destruct (find_partner P d n1 rest) as [[n2 [d2 m]]|] eqn:F; [|intros [= <- <- _ _]; split; [unfold more; lia|lia]].
  apply find_partner_more in F as [Hin M]. intros E. apply bind_ok in E as ([d3 act] & E3 & E). apply mergePair_more in E3. pose proof (erase1_len _ _ Hin) as L.
  destruct act; injection E as <- <- _ _; split; try (unfold more in *; cbn; lia); cbn [length]; lia.
Qed.
Lemma adjustBounds_more : forall fuel (d : dd St) i d1, adjustBounds P fuel d i = Ok d1 -> more d d1 0 0.
Proof.
  induction fuel as [|f IH]; intros d i d1; cbn [adjustBounds]; [discriminate|].
  generalize (n_kids (d_nd d i)) as es. intros es. revert d d1.
  enough (G : forall es (acc : res (dd St)) d1, fold_left (fun acc e => do d <- acc ;
      let en := e_to (d_ed d e) in let ep := (n_bound (d_nd d i) + e_obj (d_ed d e))%Z in
      if isBetter P ep (n_bound (d_nd d en)) then adjustBounds P f (with_node d en (nset_lab (nset_bound (d_nd d en) ep) (n_lab (d_nd d i) ++ [e_lbl (d_ed d e)]))) en else Ok d) es acc = Ok d1 ->
      exists d, acc = Ok d /\ more d d1 0 0).
  { intros d d1 E. apply G in E as (d' & [= <-] & M). exact M. }
  clear es. induction es as [|e es IHe]; intros acc d1 E; cbn [fold_left] in E; [exists d1; split; [auto|apply more_refl]|].
  apply IHe in E as (d2 & E2 & M). apply bind_ok in E2 as (d3 & -> & E3). exists d3. split; auto. cbn zeta in E3.
  destruct (isBetter P _ _); [apply IH in E3|injection E3 as <-]; unfold more in *; cbn in *; lia.
Qed.
Lemma mergeLayer_more : forall fuel (d : dd St) w layer skip d1 lk, mergeLayer P fuel d w layer skip = Ok (d1, lk) -> more d d1 (length layer) 0.
Proof.
  induction fuel as [|f IH]; intros d w layer skip d1 lk E; destruct layer as [|n1 rest]; cbn [mergeLayer] in E; try (injection E as <- _; unfold more; lia).
  - destruct (_ <=? w); [injection E as <- _; unfold more; lia|discriminate].
  - destruct (_ <=? w); [injection E as <- _; unfold more; lia|]. apply bind_ok in E as ([[[d2 l2] s2] dn] & E2 & E). apply mergeOne_more in E2 as [M2 L2]. cbn [length].
    destruct dn as [m|]; [apply bind_ok in E as (d3 & E3 & E); apply adjustBounds_more in E3|]; apply IH in E; unfold more in *; lia.
Qed.
End Count.

Section Size.
Context {St : Type}.
Variable P : prob St.
Variable I : St -> Prop.
Variables (rank : St -> nat) (N L : nat).
Hypothesis VM : valid_model P I rank N.
Hypothesis HL : forall s, I s -> s <> p_target P -> length (p_labels P s) <= L.
Variables (rs : St) (rb : Z) (rl : list Z).
Hypothesis Hrs : rs <> p_target P.
Hypothesis HI : I rs.
Hypothesis Hrange : in_range P rs rb.
Variable primal : Z.
Notation HC := (vm_closed _ _ _ _ VM). Notation Hlay := (vm_layered _ _ _ _ VM). Notation Hdom := (vm_dom _ _ _ _ VM). Notation Hdt := (vm_domt _ _ _ _ VM).

Lemma few mode d K cur next p : linv P I 0 1 rs rb rl rank primal mode d K nobody nobody (p :: cur) next -> length (p_labels P (st d p)) <= L.
Proof.
  intros H. destruct (l_cur H p (or_introl eq_refl)) as (Hp & Lp & Np & Kp & _). pose proof (g_base (l_gen H)) as B.
  apply HL; [now apply (b_I B)|]. now rewrite (st_target B Hp).
Qed.
Lemma rs_layer_size : forall lk d K w q d' q', linv P I 0 1 rs rb rl rank primal false d K nobody nobody lk q -> length q < w -> (N.of_nat w <= 4294967296)%N ->
  rs_layer P d primal w q lk = Ok (d', q') -> more d d' (length lk * L) (length lk * L).
Proof.
  induction lk as [|p lk IH]; intros d K w q d' q' H LQ LW E; cbn [rs_layer] in E.
  - injection E as <- _. unfold more. lia.
  - destruct (l_cur H p (or_introl eq_refl)) as (Hp & Lp & Np & Kp & _). pose proof (l_ndc H) as ND. apply NoDup_cons_iff in ND as [ND _]. pose proof (few _ _ _ _ _ _ H) as FL.
    destruct (rs_labels_linv P I HC 0 1 rs rb rl Hrs Hrange rank Hlay Hdom Hdt primal (p_labels P (st d p)) d K w lk q p (linv_begin _ _ _ _ _ _ _ _ _ _ _ _ _ _ _ H) Hp Lp Np Kp ND (fun l h => h) LQ LW)
      as (d1 & q1 & j & E1 & W & J1 & J2). rewrite E1 in E. cbn [bind] in E. apply rs_labels_more in E1. cbn [length]. destruct j.
    + injection E as <- _. unfold more in *. lia.
    + destruct (J1 eq_refl) as (A1 & A2 & A3 & A4 & A5 & A6). apply IH with (K := K) in E; auto; [unfold more in *; lia|].
      apply linv_end with p; auto. intros _ l Hl. rewrite A3 in Hl. auto.
Qed.
(** one layer of q nodes, then at most w per layer *)
Definition cells (K q w : nat) : nat := q + (N - (rank rs + K)) * w.
Lemma rs_loop_size : forall fuel d K w q d', linv P I 0 1 rs rb rl rank primal false d K nobody nobody q [] -> 1 <= w -> (N.of_nat w <= 4294967296)%N ->
  rs_loop P fuel d primal w q = Ok d' -> more d d' (cells K (length q) w * L) (cells K (length q) w * L).
Proof.
  induction fuel as [|fuel IH]; intros d K w q d' H Hw LW E; destruct q as [|n q]; cbn [rs_loop] in E; try (injection E as <-; unfold more; lia); [discriminate|].
  pose proof (next_depth P I 0 1 rs rb rl rank primal _ _ _ _ _ N n H (vm_depth _ _ _ _ VM) (or_introl eq_refl)) as D.
  destruct (rs_pull P d n q) as [lk q1] eqn:PL. pose proof PL as PL'. apply rs_pull_perm in PL' as (a & Eq & Pm & _).
  assert (q1 = [] /\ a = q) as [-> ->].
  { unfold rs_pull in PL. rewrite same_layer_all in PL.
    - injection PL as <- <-. rewrite app_nil_r in Eq. auto.
    - intros i Hi. destruct (l_cur H n (or_introl eq_refl)) as (_ & _ & _ & -> & _). apply (l_cur H i). now right. }
  assert (H1 : linv P I 0 1 rs rb rl rank primal false d K nobody nobody lk []).
  { eapply linv_perm; [| |exact H]; auto. now symmetry. }
  destruct (rs_layer_linv P I HC 0 1 rs rb rl Hrs Hrange rank Hlay Hdom Hdt primal lk d K w [] H1) as (d1 & q2 & E1 & H2 & LQ & LO); auto.
  rewrite E1 in E. cbn [bind] in E. apply rs_layer_size with (K := K) in E1; auto.
  pose proof (linv_shift P I 0 1 rs rb rl rank primal _ _ _ _ H2) as H3. pose proof (Permutation_length Pm) as LP.
  assert (M : more d1 d' (cells (S K) (length q2) w * L) (cells (S K) (length q2) w * L)) by (apply (IH _ _ _ _ _ H3 Hw LW E)).
  destruct q2 as [|k q2].
  - destruct fuel; cbn [rs_loop] in E; injection E as <-; (eapply more_le; [exact E1| |]); rewrite LP; unfold cells; nia.
  - pose proof (next_depth P I 0 1 rs rb rl rank primal _ _ _ _ _ N k H3 (vm_depth _ _ _ _ VM) (or_introl eq_refl)) as D3.
    assert (C : length lk + cells (S K) (length (k :: q2)) w <= cells K (length (n :: q)) w).
    { rewrite LP. unfold cells. assert (N - (rank rs + K) = S (N - (rank rs + S K))) as -> by lia. nia. }
    eapply more_le; [eapply more_trans; [exact E1|exact M]| |]; nia.
Qed.
Lemma prep_size d : started d rs rb rl -> d_nn (prep P d) = 2 /\ d_ne (prep P d) = 0.
Proof. intros S. pose proof (prep_ok P I d rs rb rl HC HI Hrs S) as PP. split; apply PP. Qed.
Lemma restricted_size fuel d w d' : started d rs rb rl -> 1 <= w -> (N.of_nat w < 4294967296)%N -> rs_compute P fuel d primal w = Ok d' ->
  d_nn d' <= 2 + (1 + (N - rank rs) * w) * L /\ d_ne d' <= (1 + (N - rank rs) * w) * L.
Proof.
  intros S Hw LW E. pose proof (prep_ok P I d rs rb rl HC HI Hrs S) as PP. destruct (prep_size d S) as [P1 P2].
  unfold rs_compute in E. rewrite (sd_root _ _ _ _ S) in E.
  change (with_node (target P (with_dexact d true)) 0 (nset_layer (d_nd (target P (with_dexact d true)) 0) 0)) with (prep P d) in E.
  apply bind_ok in E as (d2 & E2 & E). pose proof (prepped_linv P I HC rs rb rl Hrs HI rank primal false (prep P d) PP) as H0.
  pose proof (rs_loop_gen P I HC rs rb rl Hrange fuel (prep P d) primal w [0] d2) as G. destruct G as (G & _ & _); auto.
  { exact (prepped_gen P I HC rs rb rl Hrs HI _ PP). } { exact (prepped_exact P rs rb rl _ PP). } { exact (prepped_open P rs rb rl _ PP). }
  apply rs_loop_size with (K := 0) in E2; auto; [|lia]. rewrite (b_trg (g_base G)) in E. injection E as <-.
  pose proof (tighten_spec P d2 1 (b_trg (g_base G))) as T. rewrite (tg_nn _ _ _ _ T), (tg_ne _ _ _ _ T).
  unfold more, cells in E2. rewrite P1, P2 in E2. cbn [length] in E2. rewrite Nat.add_0_r in E2. lia.
Qed.

Section Relaxed.
Variable c : nat.
Hypothesis MT : merges_to P I rank c.
Variable srt : dd St -> list nat -> list nat.
Hypothesis Hsrt : forall d l, Permutation (srt d l) l.
Notation Hml := (vm_mlayered _ _ _ _ VM). Notation Hvm := (vm_merge _ _ _ _ VM).
Lemma rx_layer_size : forall lk d K next d' q', linv P I 0 1 rs rb rl rank primal true d K nobody nobody lk next ->
  rx_layer P d primal (next, []) lk = Ok (d', q') -> more d d' (length lk * L) (length lk * L) /\ length (fst q') <= length next + length lk * L.
Proof.
  induction lk as [|p lk IH]; intros d K next d' q' H E; cbn [rx_layer] in E.
  - injection E as <- <-. split; [unfold more; lia|cbn; lia].
  - destruct (l_cur H p (or_introl eq_refl)) as (Hp & Lp & Np & Kp & _). pose proof (l_ndc H) as ND. apply NoDup_cons_iff in ND as [ND _]. pose proof (few _ _ _ _ _ _ H) as FL.
    destruct (rx_labels_linv P I HC 0 1 rs rb rl Hrs Hrange rank Hlay Hdom Hdt primal (p_labels P (st d p)) d K lk next p
        (linv_begin P I 0 1 rs rb rl rank primal true d K p lk next H) Hp Lp Np Kp ND (fun l h => h)) as (d1 & q1 & E1 & W & A1 & A2 & A3 & A4 & A5).
    rewrite E1 in E. cbn [bind] in E. apply rx_labels_more in E1 as [M1 L1]. cbn [fst] in L1. cbn [length].
    apply IH with (K := K) in E as [M2 L2]; [split; [unfold more in *; lia|lia]|]. apply linv_end with p; auto. intros _ l Hl. rewrite A2 in Hl. auto.
Qed.
Lemma rx_loop_size : forall fuel d K w q d', linv P I 0 1 rs rb rl rank primal true d K nobody nobody q [] -> fresh 0 1 d K q -> (K = 0 -> q = [0]) -> tidy' P rank rs d ->
  rx_loop P srt fuel mfuel_std d primal w (q, []) = Ok d' -> let W := Nat.max 1 (Nat.max w c) in
  more d d' ((if K =? 0 then 0 else length q) + (if K =? 0 then 1 else W) * L + 2 * ((N - (rank rs + K)) * W * L)) ((if K =? 0 then 1 else W) * L + (N - (rank rs + K)) * W * L).
Proof.
  induction fuel as [|fuel IH]; intros d K w q d' H Fr R TD E W; cbn [rx_loop fst snd] in E; rewrite app_nil_r in E;
    (destruct q as [|n q]; [injection E as <-; unfold more; split; apply Nat.le_add_r|]); [discriminate|].
  pose proof (next_depth P I 0 1 rs rb rl rank primal _ _ _ _ _ N n H (vm_depth _ _ _ _ VM) (or_introl eq_refl)) as D.
  destruct (lq_pull_linv P I HC 0 1 rs rb rl rank Hml Hvm primal srt Hsrt d K w (n :: q) H (fun _ => Fr) R) as (d1 & lk & E1 & H1 & Fr1 & BL & TD1 & _).
  rewrite E1 in E. cbn [bind] in E.
  pose proof (lq_pull_apart P I rank N c VM MT rs rb rl primal srt Hsrt _ _ _ _ _ _ _ H (fun _ => Fr) R TD E1) as W0.
  assert (W1 : length lk <= W) by (unfold W; destruct (K =? 0); lia).
  assert (M1 : more d d1 (if K =? 0 then 0 else length (n :: q)) 0).
  { unfold lq_pull in E1. destruct (Nat.eqb_spec K 0) as [->|K0].
    - rewrite (R eq_refl) in *. assert (srt d [0] = [0]) as Es by (apply Permutation_length_1_inv; symmetry; apply Hsrt). rewrite Es in E1.
      rewrite (mergeLayer_single P I HC rs) in E1; [injection E1 as <- _; apply more_refl|unfold mfuel_std; lia|apply (l_cur H); now left].
    - apply bind_ok in E1 as ([d2 l2] & E2 & E1). injection E1 as <- _. apply mergeLayer_more in E2. now rewrite (Permutation_length (Hsrt d (n :: q))) in E2. }
  assert (L1 : length lk <= if K =? 0 then 1 else W) by (unfold W; destruct (K =? 0); lia).
  destruct (rx_layer_linv P I HC 0 1 rs rb rl Hrs Hrange rank Hlay Hdom Hdt primal lk d1 K [] H1) as (d2 & next & E2 & H2 & LO & TD2). rewrite E2 in E. cbn [bind] in E.
  destruct (rx_layer_size lk d1 K [] d2 _ H1 E2) as [M2 L2]. cbn [fst length] in L2.
  pose proof (linv_shift P I 0 1 rs rb rl rank primal true d2 K next H2) as H3.
  assert (Fr3 : fresh 0 1 d2 (S K) next). { intros i Hi Li Ni LK. apply (l_top H2); auto. }
  pose proof (IH d2 (S K) w next d' H3 Fr3 ltac:(lia) (fun SD => TD2 SD (TD1 (TD SD))) E) as M3. cbn zeta in M3. fold W in M3. change (S K =? 0) with false in M3. cbn iota in M3.
  assert (LB : length lk * L <= (if K =? 0 then 1 else W) * L) by (apply Nat.mul_le_mono_r; auto).
  destruct next as [|k next].
  - assert (d' = d2) as -> by (destruct fuel; cbn [rx_loop fst snd app] in E; now injection E). clear M3.
    set (X := (N - (rank rs + K)) * W * L) in *. set (Y := (if K =? 0 then 1 else W) * L) in *. set (Z := if K =? 0 then 0 else length (n :: q)) in *. unfold more in *. lia.
  - pose proof (next_depth P I 0 1 rs rb rl rank primal _ _ _ _ _ N k H3 (vm_depth _ _ _ _ VM) (or_introl eq_refl)) as D3.
    assert (EN : (N - (rank rs + K)) * W * L = W * L + (N - (rank rs + S K)) * W * L) by (replace (N - (rank rs + K)) with (S (N - (rank rs + S K))) by lia; lia).
    assert (L * length lk <= W * L). { pose proof (Nat.mul_le_mono_l _ _ L W1). lia. }
    rewrite EN. set (X := (N - (rank rs + S K)) * W * L) in *. set (Y := (if K =? 0 then 1 else W) * L) in *. set (Z := if K =? 0 then 0 else length (n :: q)) in *. unfold more in *. lia.
Qed.
Lemma relaxed_size fuel d w d' : started d rs rb rl -> N + 1 < fuel + rank rs -> rx_compute P srt fuel d primal w = Ok d' ->
  let W := Nat.max 1 (Nat.max w c) in d_nn d' <= 2 + (1 + 2 * ((N - rank rs) * W)) * L /\ d_ne d' <= (1 + (N - rank rs) * W) * L.
Proof.
  intros S HF E W0. pose proof (prep_ok P I d rs rb rl HC HI Hrs S) as PP. destruct (prep_size d S) as [P1 P2].
  pose proof (prepped_linv P I HC rs rb rl Hrs HI rank primal true (prep P d) PP) as H0.
  destruct (rx_loop_linv P I HC 0 1 rs rb rl Hrs Hrange rank Hlay Hdom Hdt Hml Hvm primal srt Hsrt fuel (prep P d) 0 w [0] N) as (d2 & K & E2 & H & W); auto.
  { eapply linv_fresh; eauto. } { apply VM. } { lia. }
  unfold rx_compute in E. rewrite (sd_root _ _ _ _ S) in E.
  change (with_node (target P (with_dexact d true)) 0 (nset_layer (d_nd (target P (with_dexact d true)) 0) 0)) with (prep P d) in E.
  cbn [lq_enQueue] in E. rewrite E2 in E. cbn [bind] in E. pose proof (g_base (l_gen H)) as B. rewrite (b_trg B) in E.
  pose proof (tighten_spec P d2 1 (b_trg B)) as T.
  destruct (bback_ok P (tighten P d2 1) _ (tightened_wfg P _ _ _ _ T (linv_wfg P I rs rb rl rank _ _ _ _ H))) as (d3 & E3 & BO & _).
  rewrite E3 in E. injection E as <-. rewrite (bo_nn _ _ BO), (bo_ne _ _ BO), (tg_nn _ _ _ _ T), (tg_ne _ _ _ _ T).
  apply rx_loop_size with (K := 0) in E2; auto.
  - cbn zeta in E2. fold W0 in E2. change (0 =? 0) with true in E2. cbn iota in E2. rewrite Nat.add_0_r in E2. unfold more in E2. rewrite P1, P2 in E2. lia.
  - eapply linv_fresh; eauto.
  - eapply prep_tidy; eauto.
Qed.
End Relaxed.
End Size.
