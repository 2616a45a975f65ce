From Verif Require Import Base PoolModel PoolSpec.
Local Open Scope N_scope.

Lemma p_round_ok sz : sz <= huge -> exists q, p_round sz = 16 * q /\ sz <= 16 * q < sz + 16.
Proof.
  intros H. unfold p_round, huge, w64 in *.
  assert (E : N.land sz 15 = sz mod 16) by (change 15 with (N.ones 4); apply N.land_ones).
  rewrite E. destruct (sz mod 16 =? 0) eqn:E0.
  - exists (sz / 16). assert (Hd := N.div_mod sz 16). lia.
  - assert (El : N.lor sz 15 = 16 * (sz / 16) + 15).
    { assert (Hd := N.div_mod sz 16). assert (Hm := N.mod_lt sz 16). 
      revert Hd Hm. generalize (sz / 16) (sz mod 16). intros q r Hd Hm. rewrite Hd by lia.
      assert (Hr : r < 16) by lia. clear - Hr. destruct q as [|q].
      - destruct r as [|[[[[|[]|]|[|[]|]|]|[[|[]|]|[|[]|]|]|]|[[[|[]|]|[|[]|]|]|[[|[]|]|[|[]|]|]|]|]]; cbn in *; try reflexivity; try lia.
      - destruct r as [|[[[[|[]|]|[|[]|]|]|[[|[]|]|[|[]|]|]|]|[[[|[]|]|[|[]|]|]|[[|[]|]|[|[]|]|]|]|]]; cbn in *; try reflexivity; try lia. }
    rewrite El. exists (sz / 16 + 1). assert (Hd := N.div_mod sz 16). assert (Hm := N.mod_lt sz 16).
    rewrite N.mod_small by lia. lia.
Qed.

(** positions *)
Definition lexle (a b : nat * N) : Prop := (fst a < fst b)%nat \/ fst a = fst b /\ snd a <= snd b.
Definition validpos (segs : list N) (q : nat * N) : Prop := exists s t, nth_error segs (fst q) = Some s /\ snd q <= s /\ snd q = 16 * t.
Definition bound : N := huge + 16.
Record pwf (p : pool) : Prop := {
  w_pos : validpos (p_segs p) (p_seg p, p_top p);
  w_segs : Forall (fun s => p_segSize p <= s <= bound) (p_segs p);
  w_len : (length (p_segs p) <= p_mxs p)%nat;
  w_mxs : (0 < p_mxs p)%nat;
  w_sz : p_segSize p <= huge }.

Lemma validpos_app segs e q : validpos segs q -> validpos (segs ++ e) q.
Proof.
  intros [s [t [E H]]]. exists s, t. split; [|exact H]. rewrite nth_error_app1; [exact E|]. apply nth_error_Some. congruence.
Qed.
Lemma addSeg_ok p z : (length (p_segs p) <= p_mxs p)%nat -> (0 < p_mxs p)%nat ->
  exists m, p_addSeg p z = Ok (mkP (p_segs p ++ [N.max (p_segSize p) z]) m (p_segSize p) (p_seg p) (p_top p)) /\ (length (p_segs p) < m)%nat.
Proof.
  intros H1 H2. unfold p_addSeg. destruct (Nat.eqb (length (p_segs p)) (p_mxs p)) eqn:E; cbn [p_segs p_mxs p_segSize p_seg p_top].
  - rewrite firstn_all2 by lia. destruct (Nat.ltb (length (p_segs p)) (p_mxs p * 2)) eqn:E2; [|lia]. eexists. split; [reflexivity | lia].
  - destruct (Nat.ltb (length (p_segs p)) (p_mxs p)) eqn:E2; [|lia]. eexists. split; [reflexivity | lia].
Qed.

Lemma find_ok dbg f : forall p z, pwf p -> z <= bound -> (length (p_segs p) - p_seg p <= f)%nat -> (dbg = false \/ z <= p_segSize p) ->
  exists p1 e s, p_find dbg f p z = Ok p1 /\ pwf p1 /\ p_segs p1 = p_segs p ++ e /\ p_segSize p1 = p_segSize p /\
    lexle (p_seg p, p_top p) (p_seg p1, p_top p1) /\ nth_error (p_segs p1) (p_seg p1) = Some s /\ p_top p1 + z <= s /\ s <= bound.
Proof.
  induction f as [|f IH]; intros p z H Hz Hf Hd; destruct (w_pos _ H) as [s [t [Es [Ht Et]]]]; cbn [fst snd] in *.
  - assert (p_seg p < length (p_segs p))%nat by (apply nth_error_Some; congruence). lia.
  - assert (Hs : p_segSize p <= s <= bound) by (assert (Hw := w_segs _ H); rewrite Forall_forall in Hw; apply Hw; eapply nth_error_In; eauto).
    unfold bound, huge in *. cbn [p_find]. rewrite Es. unfold w64. rewrite N.mod_small by lia.
    destruct (s <? p_top p + z) eqn:Elt.
    + destruct (dbg && (p_top p =? 0)) eqn:Edb; [lia|]. clear Edb. cbn [p_segs p_seg].
      assert (Hseg : (p_seg p < length (p_segs p))%nat) by (apply nth_error_Some; congruence).
      destruct (Nat.leb (length (p_segs p)) (S (p_seg p))) eqn:El.
      * set (p' := mkP (p_segs p) (p_mxs p) (p_segSize p) (S (p_seg p)) (p_top p)).
        destruct (addSeg_ok p' z) as [m [Ea Hm]]; [apply (w_len _ H) | apply (w_mxs _ H)|]. rewrite Ea. cbn [bind p' p_segs p_mxs p_segSize p_seg p_top] in *.
        assert (En : nth_error (p_segs p ++ [N.max (p_segSize p) z]) (S (p_seg p)) = Some (N.max (p_segSize p) z)).
        { rewrite nth_error_app2 by lia. replace (S (p_seg p) - length (p_segs p))%nat with O by lia. reflexivity. }
        set (p2 := mkP (p_segs p ++ [N.max (p_segSize p) z]) m (p_segSize p) (S (p_seg p)) 0).
        exists p2, [N.max (p_segSize p) z], (N.max (p_segSize p) z). split.
        { destruct f; cbn [p_find p2 p_segs p_seg p_top]; rewrite En; unfold w64; rewrite N.mod_small by lia;
            (destruct (N.max (p_segSize p) z <? 0 + z) eqn:E2; [lia | reflexivity]). }
        assert (Hsz := w_sz _ H). unfold huge in Hsz. assert (Hw := w_segs _ H).
        split.
        { constructor; cbn [p2 p_segs p_mxs p_segSize p_seg p_top].
          - exists (N.max (p_segSize p) z), 0. cbn [fst snd]. split; [exact En | lia].
          - apply Forall_app. split; [exact Hw|]. repeat constructor; unfold bound, huge; lia.
          - rewrite app_length. cbn. lia.
          - lia.
          - exact (w_sz _ H). }
        cbn [p2 p_segs p_mxs p_segSize p_seg p_top]. split; [reflexivity|]. split; [reflexivity|]. split; [left; cbn; lia|]. split; [exact En|]. lia.
      * cbn [bind p_segs p_mxs p_segSize p_seg].
        set (p2 := mkP (p_segs p) (p_mxs p) (p_segSize p) (S (p_seg p)) 0).
        assert (H2 : pwf p2).
        { destruct (nth_error (p_segs p) (S (p_seg p))) as [s2|] eqn:E2; [|apply nth_error_None in E2; lia].
          constructor; cbn [p2 p_segs p_mxs p_segSize p_seg p_top]; try apply H. exists s2, 0. cbn [fst snd]. split; [exact E2 | lia]. }
        destruct (IH p2 z H2) as [p1 [e [s1 [E1 [W1 [S1 [Z1 [L1 R1]]]]]]]]; [lia | cbn; lia | exact Hd |].
        exists p1, e, s1. split; [exact E1|]. split; [exact W1|]. split; [exact S1|]. split; [exact Z1|]. split; [|exact R1].
        left. destruct L1 as [L1|[L1 _]]; cbn in L1 |- *; lia.
    + exists p, [], s. split; [reflexivity|]. split; [exact H|]. split; [symmetry; apply app_nil_r|]. split; [reflexivity|].
      split; [right; split; [reflexivity | apply N.le_refl]|]. split; [exact Es|]. lia.
Qed.

Lemma alloc_ok dbg p sz : pwf p -> sz <= huge -> (dbg = false \/ 0 < sz /\ sz <= p_segSize p /\ p_segSize p mod 16 = 0) ->
  exists sg off p1 e s t, p_alloc dbg p sz = Ok (sg, off, p1) /\ pwf p1 /\ p_segs p1 = p_segs p ++ e /\ p_segSize p1 = p_segSize p /\
    lexle (p_seg p, p_top p) (sg, off) /\ nth_error (p_segs p1) sg = Some s /\ off = 16 * t /\
    p_seg p1 = sg /\ off + sz <= p_top p1 <= s.
Proof.
  intros H Hsz Hd. destruct (p_round_ok sz Hsz) as [q [Eq Hq]]. unfold p_alloc. rewrite Eq.
  assert (Hd0 : dbg && (16 * q =? 0) = false) by (destruct Hd as [->|[Hp _]]; [reflexivity | lia]). rewrite Hd0.
  destruct (find_ok dbg (S (length (p_segs p))) p (16 * q) H) as [p1 [e [s [E1 [W1 [S1 [Z1 [L1 [N1 [T1 B1]]]]]]]]]].
  - unfold bound. lia.
  - lia.
  - destruct Hd as [->|[_ [Hle Hm]]]; [auto|]. right. assert (Hdm := N.div_mod (p_segSize p) 16). lia.
  - rewrite E1. cbn [bind]. unfold bound, huge, w64 in *. rewrite N.mod_small by lia.
    destruct (w_pos _ W1) as [s' [t [Es' [Ht Et]]]]. cbn [fst snd] in *.
    exists (p_seg p1), (p_top p1), (mkP (p_segs p1) (p_mxs p1) (p_segSize p1) (p_seg p1) (p_top p1 + 16 * q)), e, s, t.
    split; [reflexivity|]. cbn [p_segs p_mxs p_segSize p_seg p_top]. split.
    { constructor; cbn [p_segs p_mxs p_segSize p_seg p_top]; try apply W1. exists s, (t + q). cbn [fst snd]. split; [exact N1|]. lia. }
    split; [exact S1|]. split; [exact Z1|]. split; [exact L1|]. split; [exact N1|]. split; [exact Et|]. split; [reflexivity|]. lia.
Qed.

(** the blocks in use, in order *)
Inductive chain : list block -> nat * N -> Prop :=
| ch_nil q : chain [] q
| ch_snoc L b r q : chain L r -> lexle r (b_seg b, b_off b) -> fst q = b_seg b -> b_off b + b_size b <= snd q -> chain (L ++ [b]) q.
Lemma lexle_trans a b c : lexle a b -> lexle b c -> lexle a c.
Proof. unfold lexle. lia. Qed.
Lemma chain_end L q : chain L q -> forall b, In b L -> lexle (b_seg b, b_off b + b_size b) q.
Proof.
  induction 1 as [|L b r q H IH Hle Hf Hs]; intros c Hc; [destruct Hc|]. apply in_app_iff in Hc as [Hc|[<-|[]]].
  - eapply lexle_trans; [apply IH, Hc|]. eapply lexle_trans; [exact Hle|]. right. cbn. lia.
  - right. cbn. lia.
Qed.
Lemma chain_disjoint L q : chain L q -> pairwise_disjoint L.
Proof.
  induction 1 as [|L b r q H IH Hle Hf Hs]; intros i j x y Hij Hx Hy; [destruct i; discriminate|].
  destruct (Nat.lt_ge_cases j (length L)) as [Hj|Hj].
  - rewrite nth_error_app1 in Hx, Hy by lia. eapply (IH i j); eauto.
  - rewrite nth_error_app2 in Hy by lia. destruct (j - length L)%nat as [|k] eqn:Ek; [|destruct k; discriminate]. injection Hy as <-.
    rewrite nth_error_app1 in Hx by lia. apply nth_error_In in Hx. assert (He := chain_end _ _ H x Hx).
    intros sg a [A1 A2] [B1 B2]. unfold lexle in *. cbn in *. lia.
Qed.

Definition inside (segs : list N) (b : block) : Prop := exists s t, nth_error segs (b_seg b) = Some s /\ b_off b + b_size b <= s /\ b_off b = 16 * t.
Lemma inside_app segs e b : inside segs b -> inside (segs ++ e) b.
Proof. intros [s [t [E H]]]. exists s, t. split; [|exact H]. rewrite nth_error_app1; [exact E|]. apply nth_error_Some. congruence. Qed.
Record pinv (s : pst) (l : live) : Prop := {
  i_wf : pwf (ps_pool s);
  i_chain : chain (l_blocks l) (p_mark (ps_pool s));
  i_in : Forall (inside (p_segs (ps_pool s))) (l_blocks l);
  i_marks : forall k n, l_mark l k = Some n -> (n <= length (l_blocks l))%nat /\ chain (firstn n (l_blocks l)) (ps_marks s k) /\ validpos (p_segs (ps_pool s)) (ps_marks s k) }.

Lemma pinv0 z : z <= huge -> pinv (p_init z) live0.
Proof.
  intros Hz. unfold huge in *. constructor; cbn.
  - constructor; cbn; try lia.
    + exists z, 0. cbn. split; [reflexivity | lia].
    + repeat constructor; unfold bound, huge; lia.
    + unfold huge; lia.
  - constructor.
  - constructor.
  - intros k n [= <-]. cbn. split; [lia|]. split; [constructor|]. exists z, 0. cbn. split; [reflexivity | lia].
Qed.

(** clearing to a position that is the end of the first n blocks *)
Lemma pinv_cut s l n q : pinv s l -> (n <= length (l_blocks l))%nat -> chain (firstn n (l_blocks l)) q -> validpos (p_segs (ps_pool s)) q ->
  pinv (mkPS (p_clear (ps_pool s) q) (ps_marks s)) (cut l n).
Proof.
  intros H Hn Hc Hv. destruct q as [sg tp]. unfold p_clear. constructor; cbn [ps_pool ps_marks p_segs l_blocks l_mark cut fst snd].
  - destruct (i_wf _ _ H). constructor; cbn [p_segs p_mxs p_segSize p_seg p_top]; auto.
  - exact Hc.
  - apply Forall_forall. intros b Hb. assert (Hi := i_in _ _ H). rewrite Forall_forall in Hi. apply Hi. rewrite <- (firstn_skipn n). apply in_app_iff. left; exact Hb.
  - intros k m. destruct (l_mark l k) as [m'|] eqn:Em; [|discriminate]. destruct (Nat.leb m' n) eqn:El; [|discriminate]. intros [= <-].
    destruct (i_marks _ _ H k m' Em) as [A [B C]]. rewrite firstn_length_le by lia. split; [lia|].
    rewrite firstn_firstn, Nat.min_l by lia. auto.
Qed.

Definition dbg_ok (dbg : bool) (z : N) (o : pop) : Prop := match o with PAlloc sz => dbg = false \/ 0 < sz /\ sz <= z /\ z mod 16 = 0 | _ => True end.
Lemma step_ok dbg s l o os : pinv s l -> nested (length (l_blocks l)) (l_mark l) (o :: os) = true -> (forall sz, o = PAlloc sz -> sz <= huge) -> dbg_ok dbg (p_segSize (ps_pool s)) o ->
  exists r s1 l1, p_do dbg s o = Ok (r, s1) /\ live_step l o r = Some l1 /\ pinv s1 l1 /\ nested (length (l_blocks l1)) (l_mark l1) os = true /\
    p_segSize (ps_pool s1) = p_segSize (ps_pool s).
Proof.
  intros H Hn Hsz Hd. destruct o as [sz|k|k|]; cbn [p_do nested] in *.
  - destruct (alloc_ok dbg (ps_pool s) sz (i_wf _ _ H) (Hsz sz eq_refl) Hd) as [sg [off [p1 [e [sz1 [t [E1 [W1 [S1 [Z1 [L1 [N1 [O1 [G1 T1]]]]]]]]]]]]]].
    rewrite E1. cbn [bind]. do 3 eexists. split; [reflexivity|]. cbn [live_step]. split; [reflexivity|]. cbn [ps_pool l_blocks l_mark].
    split; [|split; [|exact Z1]].
    + constructor; cbn [ps_pool ps_marks l_blocks l_mark].
      * exact W1.
      * eapply ch_snoc; [apply (i_chain _ _ H) | exact L1 | cbn; exact G1 | cbn; lia].
      * apply Forall_app. split.
        -- eapply Forall_impl; [|apply (i_in _ _ H)]. intros b Hb. rewrite S1. apply inside_app, Hb.
        -- constructor; [|constructor]. exists sz1, t. cbn [b_seg b_off b_size]. split; [exact N1 | lia].
      * intros k n Hk. destruct (i_marks _ _ H k n Hk) as [A [B C]]. rewrite app_length. split; [cbn; lia|].
        rewrite firstn_app. replace (n - length (l_blocks l))%nat with O by lia. cbn [firstn]. rewrite app_nil_r. split; [exact B|].
        rewrite S1. apply validpos_app, C.
    + rewrite app_length. cbn [length]. rewrite Nat.add_1_r. exact Hn.
  - do 3 eexists. split; [reflexivity|]. split; [reflexivity|]. cbn [ps_pool l_blocks l_mark]. split; [|auto].
    constructor; cbn [ps_pool ps_marks l_blocks l_mark]; try apply H.
    intros j n. rewrite !fupd_eq. destruct (Nat.eqb j k); [|apply (i_marks _ _ H)]. intros [= <-].
    split; [lia|]. rewrite firstn_all. split; [apply (i_chain _ _ H) | apply (i_wf _ _ H)].
  - destruct (l_mark l k) as [n|] eqn:Ek; [|discriminate]. destruct (i_marks _ _ H k n Ek) as [A [B C]].
    do 3 eexists. split; [reflexivity|]. cbn [live_step]. rewrite Ek. split; [reflexivity|]. split; [apply pinv_cut; auto|].
    cbn [l_blocks l_mark cut]. rewrite firstn_length_le by lia. split; [exact Hn | reflexivity].
  - do 3 eexists. split; [reflexivity|]. split; [reflexivity|]. split.
    + apply pinv_cut; auto; [lia | constructor|]. destruct (w_pos _ (i_wf _ _ H)) as [s0 [t0 [E0 _]]]. cbn [fst] in E0.
      destruct (p_segs (ps_pool s)) as [|s1 segs]; [destruct (p_seg (ps_pool s)); discriminate|]. exists s1, 0. cbn. split; [reflexivity | lia].
    + cbn [l_blocks l_mark cut firstn length]. split; [exact Hn | reflexivity].
Qed.
Lemma run_ok dbg os : forall s l, pinv s l -> nested (length (l_blocks l)) (l_mark l) os = true -> sane os -> Forall (dbg_ok dbg (p_segSize (ps_pool s))) os ->
  exists rs s1 l1, p_run dbg s os = Ok (rs, s1) /\ live_run l os rs = Some l1 /\ pinv s1 l1.
Proof.
  induction os as [|o os IH]; intros s l H Hn Hs Hd.
  - exists [], s, l. cbn. auto.
  - inversion Hd as [|? ? Hd1 Hd2]; subst.
    destruct (step_ok dbg s l o os H Hn) as [r [s1 [l1 [E1 [L1 [H1 [N1 Z1]]]]]]]; [intros sz ->; apply Hs; left; reflexivity | exact Hd1 |].
    destruct (IH s1 l1 H1 N1) as [rs [s2 [l2 [E2 [L2 H2]]]]]; [intros sz Hi; apply Hs; right; exact Hi | rewrite Z1; exact Hd2 |].
    exists (r :: rs), s2, l2. cbn [p_run live_run]. rewrite E1. cbn [bind]. rewrite E2, L1. cbn [bind]. auto.
Qed.

Lemma pool_release z os : z <= huge -> nested 0 (fun _ => Some O) os = true -> sane os ->
  exists rs s l, p_run false (p_init z) os = Ok (rs, s) /\ live_run live0 os rs = Some l /\
    pairwise_disjoint (l_blocks l) /\ forall b, In b (l_blocks l) -> inside (p_segs (ps_pool s)) b.
Proof.
  intros Hz Hn Hs. destruct (run_ok false os (p_init z) live0 (pinv0 z Hz) Hn Hs) as [rs [s [l [E [L H]]]]].
  { apply Forall_forall. intros [] _; cbn; auto. }
  exists rs, s, l. split; [exact E|]. split; [exact L|]. split; [eapply chain_disjoint, (i_chain _ _ H)|].
  assert (Hi := i_in _ _ H). rewrite Forall_forall in Hi. exact Hi.
Qed.
Lemma pool_debug z os : z <= huge -> z mod 16 = 0 -> nested 0 (fun _ => Some O) os = true -> (forall sz, In (PAlloc sz) os -> 0 < sz <= z) ->
  exists rs s, p_run true (p_init z) os = Ok (rs, s).
Proof.
  intros Hz Hm Hn Hs. destruct (run_ok true os (p_init z) live0 (pinv0 z Hz) Hn) as [rs [s [l [E [L H]]]]].
  { intros sz Hi. apply Hs in Hi. unfold huge in *. lia. }
  { apply Forall_forall. intros [sz| | |] Hi; cbn; auto. right. apply Hs in Hi. lia. }
  eauto.
Qed.

(** the same allocations once more *)
Lemma find_ext dbg f : forall p z p1, p_find dbg f p z = Ok p1 -> exists e, p_segs p1 = p_segs p ++ e.
Proof.
  induction f as [|f IH]; intros p z p1; cbn [p_find]; (destruct (nth_error (p_segs p) (p_seg p)) as [s|]; [|discriminate]);
    (destruct (s <? (p_top p + z) mod w64); [|intros [= <-]; exists []; symmetry; apply app_nil_r]); [discriminate|].
  destruct (dbg && (p_top p =? 0)); [discriminate|]. intros E. apply bind_ok in E as [p2 [E2 E]]. apply IH in E as [e Ee]. cbn [p_segs] in Ee.
  cbn [p_segs p_seg] in E2. destruct (Nat.leb (length (p_segs p)) (S (p_seg p))).
  - unfold p_addSeg in E2. revert E2. cbn [p_segs p_mxs]. destruct (Nat.eqb_spec (length (p_segs p)) (p_mxs p)) as [El|El]; cbn [p_segs p_mxs p_segSize p_seg p_top].
    + rewrite firstn_all2 by lia. destruct (Nat.ltb _ _); [|discriminate]. intros [= <-]. cbn [p_segs] in Ee. rewrite Ee, <- app_assoc. eauto.
    + destruct (Nat.ltb _ _); [|discriminate]. intros [= <-]. cbn [p_segs] in Ee. rewrite Ee, <- app_assoc. eauto.
  - injection E2 as <-. cbn [p_segs] in Ee. eauto.
Qed.
Lemma addSeg_len p z p2 : p_addSeg p z = Ok p2 -> length (p_segs p2) = S (length (p_segs p)) /\ p_seg p2 = p_seg p.
Proof.
  unfold p_addSeg. destruct (Nat.eqb_spec (length (p_segs p)) (p_mxs p)) as [El|El]; cbn [p_segs p_mxs p_segSize p_seg p_top].
  - rewrite firstn_all2 by lia. destruct (Nat.ltb _ _); [|discriminate]. intros [= <-]. cbn. rewrite app_length. cbn. split; [lia | reflexivity].
  - destruct (Nat.ltb _ _); [|discriminate]. intros [= <-]. cbn. rewrite app_length. cbn. split; [lia | reflexivity].
Qed.
Lemma find_again f : forall p z p1, p_find false f p z = Ok p1 -> forall q f' e, (f <= f')%nat -> p_seg q = p_seg p -> p_top q = p_top p -> p_segs q = p_segs p1 ++ e ->
  p_find false f' q z = Ok (mkP (p_segs q) (p_mxs q) (p_segSize q) (p_seg p1) (p_top p1)).
Proof.
  induction f as [|f IH]; intros p z p1 E q f' e Hf Hs Ht He; assert (Hx := find_ext _ _ _ _ _ E); destruct Hx as [e0 Hx].
  all: cbn [p_find] in E; destruct (nth_error (p_segs p) (p_seg p)) as [s|] eqn:Es; [|discriminate].
  all: assert (Es' : nth_error (p_segs q) (p_seg q) = Some s) by (rewrite He, Hx, Hs, <- app_assoc; rewrite nth_error_app1; [exact Es | apply nth_error_Some; congruence]).
  all: assert (Hdone : (s <? (p_top p + z) mod w64) = false -> p1 = p -> p_find false f' q z = Ok (mkP (p_segs q) (p_mxs q) (p_segSize q) (p_seg p1) (p_top p1))).
  1, 3: intros Elt ->; rewrite <- Hs, <- Ht; destruct f'; cbn [p_find]; rewrite Es', Ht, Elt; destruct q; cbn in *; congruence.
  - destruct (s <? (p_top p + z) mod w64); [discriminate|]. injection E as <-. auto.
  - destruct (s <? (p_top p + z) mod w64) eqn:Elt; [|injection E as <-; auto]. clear Hdone. cbn [andb] in E.
    destruct f' as [|f']; [lia|]. cbn [p_find]. rewrite Es', Ht, Elt. cbn [andb p_segs p_seg].
    apply bind_ok in E as [p2 [E2 E]].
    assert (Hlen : (S (p_seg p) < length (p_segs q))%nat /\ p_seg p2 = S (p_seg p)).
    { cbn [p_segs p_seg] in E2. destruct (find_ext _ _ _ _ _ E) as [e2 Ee2]. cbn [p_segs] in Ee2. destruct (Nat.leb (length (p_segs p)) (S (p_seg p))) eqn:El.
      - apply addSeg_len in E2 as [A B]. cbn in A, B. split; [|exact B]. rewrite He, Ee2, !app_length. assert (p_seg p < length (p_segs p))%nat by (apply nth_error_Some; congruence). lia.
      - injection E2 as <-. cbn [p_seg p_segs] in *. split; [|reflexivity]. rewrite He, Ee2, !app_length. lia. }
    destruct Hlen as [Hlen Hseg]. destruct (Nat.leb (length (p_segs q)) (S (p_seg q))) eqn:El; [lia|]. cbn [bind p_segs p_mxs p_segSize p_seg p_top].
    rewrite (IH _ _ _ E _ f' e).
    + reflexivity.
    + lia.
    + cbn. lia.
    + reflexivity.
    + exact He.
Qed.

Definition allocs (zs : list N) : list pop := map PAlloc zs.
Lemma allocs_ext zs : forall s rs s1, p_run false s (allocs zs) = Ok (rs, s1) -> ps_marks s1 = ps_marks s /\ exists e, p_segs (ps_pool s1) = p_segs (ps_pool s) ++ e.
Proof.
  induction zs as [|z zs IH]; intros s rs s1; cbn [allocs map p_run].
  - intros [= <- <-]. split; [reflexivity|]. exists []. symmetry. apply app_nil_r.
  - intros E. apply bind_ok in E as [[r s2] [E2 E]]. apply bind_ok in E as [[rs' s3] [E3 E]]. injection E as <- <-.
    cbn [p_do] in E2. apply bind_ok in E2 as [[[sg off] p1] [E2 E4]]. injection E4 as <- <-.
    unfold p_alloc in E2. destruct (false && (p_round z =? 0)) eqn:Ed; [discriminate|]. apply bind_ok in E2 as [p2 [E2 E5]]. injection E5 as <- <- <-.
    apply find_ext in E2 as [e Ee]. destruct (IH _ _ _ E3) as [M [e' Ee']]. cbn in *. split; [exact M|]. rewrite Ee', Ee, <- app_assoc. eauto.
Qed.
Lemma allocs_again zs : forall s rs s1, p_run false s (allocs zs) = Ok (rs, s1) -> forall q e, p_seg (ps_pool q) = p_seg (ps_pool s) -> p_top (ps_pool q) = p_top (ps_pool s) ->
  p_segs (ps_pool q) = p_segs (ps_pool s1) ++ e ->
  exists q1, p_run false q (allocs zs) = Ok (rs, q1) /\ p_segs (ps_pool q1) = p_segs (ps_pool q) /\ p_mark (ps_pool q1) = p_mark (ps_pool s1).
Proof.
  induction zs as [|z zs IH]; intros s rs s1; cbn [allocs map p_run].
  - intros [= <- <-] q e Hs Ht He. exists q. split; [reflexivity|]. split; [reflexivity|]. unfold p_mark. congruence.
  - intros E q e Hs Ht He. apply bind_ok in E as [[r s2] [E2 E]]. apply bind_ok in E as [[rs' s3] [E3 E]]. injection E as <- <-.
    cbn [p_do] in E2. apply bind_ok in E2 as [[[sg off] p1] [E2 E4]]. injection E4 as <- <-.
    unfold p_alloc in E2. cbn [andb] in E2. apply bind_ok in E2 as [p2 [E2 E5]]. injection E5 as <- <- <-.
    destruct (allocs_ext _ _ _ _ E3) as [_ [e' Ee']]. cbn [ps_pool p_segs] in Ee'.
    cbn [p_do]. unfold p_alloc. cbn [andb]. destruct (find_ext _ _ _ _ _ E2) as [e2 Ee2].
    rewrite (find_again _ _ _ _ E2 (ps_pool q) (S (length (p_segs (ps_pool q)))) (e' ++ e)).
    + cbn [bind p_segs p_mxs p_segSize p_seg p_top].
      destruct (IH _ _ _ E3 (mkPS (mkP (p_segs (ps_pool q)) (p_mxs (ps_pool q)) (p_segSize (ps_pool q)) (p_seg p2) ((p_top p2 + p_round z) mod w64)) (ps_marks q)) e) as [q1 [R1 [S1 M1]]].
      * reflexivity.
      * reflexivity.
      * exact He.
      * fold (allocs zs). rewrite R1. cbn [bind]. exists q1. split; [reflexivity|]. split; [exact S1 | exact M1].
    + rewrite He, Ee', Ee2, !app_length. lia.
    + exact Hs.
    + exact Ht.
    + rewrite He, Ee', <- app_assoc. reflexivity.
Qed.
Lemma p_run_app dbg os1 os2 : forall s, p_run dbg s (os1 ++ os2) = do (r1, s1) <- p_run dbg s os1 ; do (r2, s2) <- p_run dbg s1 os2 ; Ok (r1 ++ r2, s2).
Proof.
  induction os1 as [|o os1 IH]; intros s; cbn [p_run app].
  - cbn [bind]. destruct (p_run dbg s os2) as [[r2 s2]|]; reflexivity.
  - destruct (p_do dbg s o) as [[r s1]|]; cbn [bind]; [|reflexivity]. rewrite IH. destruct (p_run dbg s1 os1) as [[r1 s2]|]; cbn [bind]; [|reflexivity].
    destruct (p_run dbg s2 os2) as [[r2 s3]|]; cbn [bind]; reflexivity.
Qed.
Lemma pool_reuse s k zs rs s1 : p_run false s (allocs zs) = Ok (rs, s1) ->
  exists s2 s3, p_run false s (PMark k :: allocs zs ++ [PClear k]) = Ok (None :: rs ++ [None], s2) /\ p_mark (ps_pool s2) = p_mark (ps_pool s) /\
    p_run false s2 (allocs zs) = Ok (rs, s3) /\ p_segs (ps_pool s3) = p_segs (ps_pool s1).
Proof.
  intros E. assert (Hm : exists s1', p_run false (mkPS (ps_pool s) (fupd (ps_marks s) k (p_mark (ps_pool s)))) (allocs zs) = Ok (rs, s1') /\ ps_pool s1' = ps_pool s1).
  { clear - E. generalize (fupd (ps_marks s) k (p_mark (ps_pool s))). revert s rs s1 E. induction zs as [|z zs IH]; intros s rs s1 E mk; cbn [allocs map p_run] in *.
    - injection E as <- <-. eexists. split; reflexivity.
    - apply bind_ok in E as [[r s2] [E2 E]]. apply bind_ok in E as [[rs' s3] [E3 E]]. injection E as <- <-.
      cbn [p_do ps_pool] in *. apply bind_ok in E2 as [[[sg off] p1] [E2 E4]]. injection E4 as <- <-. rewrite E2. cbn [bind].
      destruct (IH _ _ _ E3 mk) as [s1' [R1 R2]]. cbn [ps_pool ps_marks] in *. fold (allocs zs). rewrite R1. cbn [bind]. eauto. }
  destruct Hm as [s1' [E' Ep]]. cbn [p_run p_do bind]. rewrite p_run_app, E'. cbn [bind p_run p_do].
  destruct (allocs_ext _ _ _ _ E') as [M [e Ee]]. cbn [ps_marks ps_pool] in M, Ee.
  rewrite M, fupd_same. eexists. destruct (allocs_again zs s rs s1 E (mkPS (p_clear (ps_pool s1') (p_mark (ps_pool s))) (ps_marks s1')) []) as [q1 [R1 [S1 _]]].
  - reflexivity.
  - reflexivity.
  - cbn. rewrite app_nil_r, Ep. reflexivity.
  - exists q1. split; [reflexivity|]. split; [reflexivity|]. rewrite M in R1. split; [exact R1|]. rewrite S1. cbn. rewrite Ep. reflexivity.
Qed.
