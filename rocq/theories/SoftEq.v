(** Relaxed diagrams for an equality of states that may confuse merged states with each other, but no state of an exact path with another state:
    the exact nodes are still genuine.  Used for the Golomb ruler program (C87), whose equality ignores a field. *)
From Verif Require Import Base HeapModel HeapProofs DDModel DDSpec DDFrame DDInv DDRestricted DDPasses.

(** [E]: states of exact paths; [I]: all states that occur *)
Record soft {St} (P : prob St) (E I : St -> Prop) (rank : St -> nat) : Prop := {
  so_sub : forall s, E s -> I s;
  so_target : E (p_target P);
  so_E : forall s l s', E s -> s <> p_target P -> In l (p_labels P s) -> p_stf P s l = Some s' -> E s';
  so_I : forall s l s', I s -> s <> p_target P -> In l (p_labels P s) -> p_stf P s l = Some s' -> I s';
  so_eqb : forall a c, I a -> I c -> p_eqb P a c = true -> E a \/ E c -> a = c;
  so_refl : p_eqb P (p_target P) (p_target P) = true;
  so_eqr : forall a c, I a -> I c -> p_eqb P a c = true -> rank a = rank c;
  so_eqs : p_eqs P (p_target P) = true;
  so_rank : forall s l s', I s -> s <> p_target P -> In l (p_labels P s) -> p_stf P s l = Some s' -> s' <> p_target P -> rank s' = S (rank s);
  so_merge : forall a c m, I a -> I c -> a <> p_target P -> c <> p_target P -> p_smf P a c = Some m -> I m /\ m <> p_target P /\ rank m = rank a;
  so_sdom : p_sdom P = None;
  so_local : p_local P = None }.

Section Soft.
Context {St : Type} (P : prob St) (E I : St -> Prop) (rank : St -> nat).
Hypothesis S : soft P E I rank.
Variables (rs : St) (rb : Z) (rl : list Z).
Hypothesis Hrs : rs <> p_target P.
Hypothesis HE : E rs.
Hypothesis Hrange : in_range P rs rb.
Notation dd := (dd St).
Notation tgt := (p_target P).
Notation gen d i := (genuine P rs rb rl (st d i) (bd d i) (lab d i)).

(** an arc into the target *)
Definition arc_ok (d : dd) (e : nat) : Prop :=
  e < d_ne d /\ from d e < d_nn d /\ from d e <> 1 /\ In (lbl d e) (p_labels P (st d (from d e))) /\ p_stf P (st d (from d e)) (lbl d e) = Some tgt /\
  obj d e = p_cost P (st d (from d e)) (lbl d e).
(** the invariant; [x] says which node is being made and may break it *)
Record W (x : nat -> Prop) (d : dd) : Prop := {
  w_nn : 2 <= d_nn d;
  w_root : d_root d = Some 0;
  w_trg : d_trg d = Some 1;
  w_I : forall i, i < d_nn d -> I (st d i);
  w_t : st d 1 = tgt;
  w_tu : forall i, i < d_nn d -> st d i = tgt -> i = 1;
  w_lay : forall i, i < d_nn d -> i <> 1 -> ~ x i -> lay d i + rank rs = rank (st d i);
  w_gen : forall i, i < d_nn d -> i <> 1 -> exa d i = true -> ~ x i -> gen d i;
  w_all : d_exact d = true -> forall i, i < d_nn d -> ~ x i -> exa d i = true;
  w_to : forall e, to d e < d_nn d;
  w_par : forall e, In e (par d 1) -> arc_ok d e }.
Definition none (i : nat) : Prop := False.
Lemma no_none i : ~ none i.
Proof. intros H. exact H. Qed.
Hint Resolve no_none : core.

Lemma genuine_E s b l : genuine P rs rb rl s b l -> E s.
Proof.
  intros (ls & v & _ & _ & H). revert HE. clear - H S. intros HE. induction H as [|s l s' ls v t N Hl Hs H IH]; auto. apply IH. exact (so_E _ _ _ _ S _ _ _ HE N Hl Hs).
Qed.

(** what makeNode does *)
Lemma mk_spec d s x d1 c : makeNode P d s x = (d1, c) ->
  d_ed d1 = d_ed d /\ d_ne d1 = d_ne d /\ d_root d1 = d_root d /\ d_trg d1 = d_trg d /\ d_exact d1 = d_exact d /\ (forall i, i <> c -> d_nd d1 i = d_nd d i) /\
  ((c < d_nn d /\ d_nn d1 = d_nn d /\ p_eqb P (st d c) s = true /\ st d1 c = st d c /\ par d1 c = par d c /\ kids d1 c = kids d c /\ lay d1 c = lay d c /\ lab d1 c = lab d c /\
     exa d1 c = exa d c && x /\ (bd d1 c = bd d c \/ bd d1 c = sentinel P)) \/
   (c = d_nn d /\ d_nn d1 = Datatypes.S (d_nn d) /\ d_nd d1 c = mkNode s [] [] [] (sentinel P) 0 0 x /\ forall i, i < d_nn d -> p_eqb P (st d i) s = false)).
Proof.
  unfold makeNode. destruct (hasNode P d s) as [a|] eqn:H.
  - unfold hasNode in H. apply find_some in H as [H1 H2]. apply in_seq in H1.
    destruct (_ && _ && _); intros [= <- <-]; dsimp; csplit; auto; try (intros i Hi; rewrite ?fupd_diff by auto; reflexivity);
      left; rewrite ?fupd_same; dsimp; csplit; auto; lia.
  - intros [= <- <-]. dsimp. csplit; auto; [intros i Hi; now rewrite fupd_diff|]. right. rewrite fupd_same. csplit; auto.
    intros i Hi. unfold hasNode in H. eapply find_none in H; [exact H|]. apply in_seq. lia.
Qed.

(** *** one arc *)
Lemma step_soft d primal q p l d' o : W none d -> p < d_nn d -> p <> 1 -> In l (p_labels P (st d p)) -> step_arc P d primal q p l = Ok (d', o) ->
  W none d' /\ d_nn d <= d_nn d' /\ (forall i, i < d_nn d -> st d' i = st d i) /\ (forall c, o = Some c -> c < d_nn d' /\ c <> 1).
Proof.
  intros V Hp Np Hl. unfold step_arc, transition. rewrite (so_local _ _ _ _ S), (so_sdom _ _ _ _ S).
  destruct (p_stf P (st d p) l) as [vs|] eqn:Sf; [|intros [= <- <-]; csplit; auto; discriminate].
  destruct (makeNode P d vs (exa d p)) as [d1 c] eqn:M. cbn [bind].
  destruct V as [V1 V2 V3 V4 V5 V6 V7 V8 V9 V10 V11].
  assert (Npt : st d p <> tgt) by (intros X; apply V6 in X; auto).
  pose proof (so_I _ _ _ _ S _ _ _ (V4 p Hp) Npt Hl Sf) as Ivs.
  apply mk_spec in M as (M1 & M2 & M3 & M4 & M5 & M6 & M7).
  unfold addEdge. destruct (Nat.eqb_spec p c) as [|Npc]; [discriminate|]. cbn [bind].
  assert (Ep : d_nd d1 p = d_nd d p) by (apply M6; auto).
  assert (Gs : exa d p = true -> vs <> tgt -> genuine P rs rb rl vs (bd d p + p_cost P (st d p) l) (lab d p ++ [l]) /\ E vs /\ bt P (bd d p + p_cost P (st d p) l) (sentinel P)).
  { intros X Nv. destruct (V8 p Hp Np X (fun H => H)) as (ls & v & E1 & E2 & Hpath).
    pose proof (path_snoc P _ _ _ _ _ _ Hpath Npt Hl Sf) as H2.
    assert (G : genuine P rs rb rl vs (bd d p + p_cost P (st d p) l) (lab d p ++ [l])).
    { exists (ls ++ [l]), (v + p_cost P (st d p) l)%Z. rewrite E1, E2, app_assoc. csplit; auto. lia. }
    csplit; auto; [eapply genuine_E; eauto|]. specialize (Hrange _ _ _ H2). rewrite E2. now rewrite <- Z.add_assoc. }
  set (ep := (bd d1 p + p_cost P (st d1 p) l)%Z).
  intros H.
  assert (Kc : c < d_nn d1 /\ d_nn d <= d_nn d1) by (destruct M7 as [(? & -> & _)|(-> & -> & _)]; lia). destruct Kc as [Kc Kn].
  assert (Cs : (vs = tgt /\ c = 1) \/ (vs <> tgt /\ c <> 1 /\ st d1 c <> tgt /\ rank (st d1 c) = rank vs /\ I (st d1 c))).
  { destruct M7 as [(A1 & A2 & A3 & A4 & _)|(A1 & A2 & A3 & A4)].
    - destruct (Nat.eq_dec c 1) as [->|N1].
      + left. split; auto. symmetry. rewrite V5 in A3. apply (so_eqb _ _ _ _ S); auto; [apply S, S|left; apply S].
      + right. assert (Nt : st d c <> tgt) by (intros X; apply V6 in X; auto). csplit; auto.
        * intros ->. apply Nt. apply (so_eqb _ _ _ _ S); auto. right. apply S.
        * now rewrite A4.
        * rewrite A4. apply (so_eqr _ _ _ _ S); auto.
        * rewrite A4. auto.
    - right. assert (Nv : vs <> tgt). { intros ->. specialize (A4 1 V1). rewrite V5, (so_refl _ _ _ _ S) in A4. discriminate. }
      rewrite A3. cbn [n_state]. csplit; auto. lia. }
  assert (Stc : forall i, i < d_nn d -> st d1 i = st d i).
  { intros i Hi. destruct (Nat.eq_dec i c) as [->|N]; [|now rewrite M6]. destruct M7 as [(_ & _ & _ & A4 & _)|(A1 & _)]; auto. lia. }
  (* the store after the arc *)
  set (e := d_ne d1) in *.
  match type of H with (if _ then Ok (?D, _) else _) = _ => set (d5 := D) in * end.
  assert (F1 : d_nn d5 = d_nn d1 /\ d_root d5 = Some 0 /\ d_trg d5 = Some 1 /\ d_exact d5 = d_exact d /\ d_ne d5 = Datatypes.S e /\ d_ed d5 = fupd (d_ed d1) e (mkEdge p c (p_cost P (st d1 p) l) l)).
  { unfold d5. destruct (isBetter P _ _); dsimp; csplit; auto; congruence. }
  destruct F1 as (F1 & F2 & F3 & F4 & F4' & F5).
  assert (F6 : forall i, i <> c -> st d5 i = st d1 i /\ lay d5 i = lay d1 i /\ exa d5 i = exa d1 i /\ bd d5 i = bd d1 i /\ lab d5 i = lab d1 i /\ par d5 i = par d1 i).
  { intros i N. unfold d5. destruct (isBetter P _ _); dsimp; fcase; try congruence; csplit; auto. }
  assert (F7 : st d5 c = st d1 c /\ exa d5 c = exa d1 c /\ lay d5 c = Nat.max (lay d1 c) (lay d p + 1) /\ par d5 c = par d1 c ++ [e] /\
    (isBetter P ep (bd d1 c) = true /\ bd d5 c = ep /\ lab d5 c = lab d p ++ [l] \/ isBetter P ep (bd d1 c) = false /\ bd d5 c = bd d1 c /\ lab d5 c = lab d1 c)).
  { unfold d5. destruct (isBetter P _ _) eqn:Q; revert Q; dsimp; repeat (rewrite ?fupd_same, ?(fupd_diff _ c) by auto; rewrite ?(fupd_diff _ p) by auto; dsimp); unfold ep; rewrite ?Ep; intros Q; csplit; auto. }
  clearbody d5. destruct F7 as (F7 & F8 & F9 & F10 & F11).
  assert (Ex : forall i, i < d_nn d -> i <> c -> d_nd d1 i = d_nd d i) by (intros; apply M6; auto).
  assert (Ecl : d_exact d5 = true -> exa d1 c = true).
  { intros X. rewrite F4 in X. destruct M7 as [(A1 & _ & _ & _ & _ & _ & _ & _ & A9 & _)|(_ & _ & -> & _)]; cbn [n_exact]; [rewrite A9, !V9 by auto; reflexivity|auto]. }
  assert (Old : forall i, i < d_nn d1 -> i <> c -> i < d_nn d).
  { intros i Hi N. destruct M7 as [(_ & A2 & _)|(A1 & A2 & _)]; lia. }
  assert (D : d' = d5) by (destruct (negb _ && _); congruence). subst d'.
  split.
  - constructor; rewrite ?F1; auto.
    + lia.
    + intros i Hi. destruct (Nat.eq_dec i c) as [->|N].
      * rewrite F7. destruct Cs as [[_ ->]|(_ & _ & _ & _ & X)]; auto. rewrite Stc by auto. auto.
      * destruct (F6 i N) as (-> & _). rewrite Ex by auto. auto.
    + destruct (Nat.eq_dec 1 c) as [<-|N]; [rewrite F7|destruct (F6 1 N) as (-> & _)]; rewrite Stc by lia; auto.
    + intros i Hi. destruct (Nat.eq_dec i c) as [->|N].
      * rewrite F7. destruct Cs as [[_ ->]|(_ & _ & X & _)]; auto. congruence.
      * destruct (F6 i N) as (-> & _). rewrite Ex by auto. auto.
    + intros i Hi N1 _. destruct (Nat.eq_dec i c) as [->|N].
      * rewrite F7, F9. destruct Cs as [[_ ->]|(Nv & _ & Nt & X & _)]; [congruence|]. rewrite X.
        rewrite (so_rank _ _ _ _ S _ _ _ (V4 p Hp) Npt Hl Sf Nv), <- (V7 p Hp Np (fun H => H)).
        destruct M7 as [(A1 & _ & _ & A4 & _ & _ & A7 & _)|(_ & _ & -> & _)]; cbn [n_layer]; [|lia].
        pose proof (V7 c A1 N1 (fun H => H)) as Y. rewrite A7. rewrite <- A4, X in Y.
        rewrite (so_rank _ _ _ _ S _ _ _ (V4 p Hp) Npt Hl Sf Nv), <- (V7 p Hp Np (fun H => H)) in Y. lia.
      * destruct (F6 i N) as (-> & -> & _). rewrite Ex by auto. auto.
    + intros i Hi N1 X _. destruct (Nat.eq_dec i c) as [->|N].
      * rewrite F8 in X. destruct Cs as [[_ ->]|(Nv & _ & Nt & _ & _)]; [congruence|]. rewrite F7.
        assert (Xp : exa d p = true).
        { destruct M7 as [(_ & _ & _ & _ & _ & _ & _ & _ & A9 & _)|(_ & _ & A3 & _)]; [rewrite A9 in X; apply andb_true_iff in X; tauto|rewrite A3 in X; exact X]. }
        destruct (Gs Xp Nv) as (G & Ev & Bt). unfold ep in F11. rewrite Ep in F11.
        assert (Sc : st d1 c = vs).
        { destruct M7 as [(A1 & _ & A3 & A4 & _)|(_ & _ & -> & _)]; auto. rewrite A4. apply (so_eqb _ _ _ _ S); auto. }
        destruct F11 as [(_ & -> & ->)|(Q & -> & ->)]; [now rewrite Sc|].
        destruct M7 as [(A1 & _ & _ & A4 & _ & _ & _ & A8 & A9 & [Ab|Ab])|(_ & _ & A3 & _)].
        -- rewrite A4, A8, Ab. apply V8; auto. rewrite A9 in X. apply andb_true_iff in X. tauto.
        -- exfalso. rewrite Ab in Q. apply isBetter_nbt in Q. unfold bt, be in *. lia.
        -- exfalso. rewrite A3 in Q. cbn [n_bound] in Q. apply isBetter_nbt in Q. unfold bt, be in *. lia.
      * destruct (F6 i N) as (-> & _ & E3 & -> & -> & _). rewrite E3 in X. rewrite Ex in * by auto. auto.
    + intros X i Hi _. destruct (Nat.eq_dec i c) as [->|N]; [rewrite F8; auto|]. destruct (F6 i N) as (_ & _ & -> & _). rewrite Ex by auto. apply V9; auto. congruence.
    + intros e0. rewrite F5. fcase; [auto|]. rewrite M1. specialize (V10 e0). lia.
    + intros e0 He. unfold arc_ok. rewrite F5.
      assert (Hcase : (e0 = e /\ c = 1) \/ In e0 (par d 1)).
      { destruct (Nat.eq_dec 1 c) as [<-|N].
        - rewrite F10 in He. apply in_app_or in He as [He|[<-|[]]]; auto. right. destruct M7 as [(_ & _ & _ & _ & A5 & _)|(? & _)]; [now rewrite <- A5|lia].
        - destruct (F6 1 N) as (_ & _ & _ & _ & _ & E6). rewrite E6, M6 in He by auto. auto. }
      destruct Hcase as [[-> ->]|He'].
      * rewrite fupd_same. cbn [e_from e_lbl e_obj]. destruct (F6 p Npc) as (-> & _). rewrite Ep. destruct Cs as [[-> _]|(_ & ? & _)]; [|congruence].
        csplit; auto; lia.
      * destruct (V11 e0 He') as (A0 & A1 & A2 & A3 & A4 & A5).
        rewrite fupd_diff by (rewrite M2; lia). rewrite M1. destruct (Nat.eq_dec (from d e0) c) as [Q|N]; [rewrite Q in *|destruct (F6 _ N) as (-> & _)];
          rewrite ?F7, ?Stc by (try rewrite Q; auto); csplit; auto; try lia.
  - csplit; [lia| |].
    + intros i Hi. destruct (Nat.eq_dec i c) as [->|N]; [rewrite F7; auto|]. destruct (F6 i N) as (-> & _). auto.
    + intros c' ->. destruct (negb (p_eqs P (st d5 c)) && (nbParents d1 c =? 0)) eqn:Q; [|discriminate]. injection H as <-.
      split; [lia|]. intros ->. rewrite F7, Stc in Q by lia. rewrite V5, (so_eqs _ _ _ _ S) in Q. discriminate.
Qed.

(** *** merging *)
Lemma merge_soft d f s d1 m : W none d -> f < d_nn d -> f <> 1 -> s < d_nn d -> s <> 1 -> merge P d f s = Some (d1, m) ->
  W (eq m) d1 /\ m < d_nn d1 /\ m <> 1 /\ d_nn d <= d_nn d1 /\ (forall i, i < d_nn d -> st d1 i = st d i /\ lay d1 i = lay d i) /\
  rank (st d1 m) = rank (st d f) /\ (nbParents d1 m = 0 \/ lay d1 m + rank rs = rank (st d1 m)).
Proof.
  intros V Hf Nf Hs Ns. unfold merge. destruct (p_smf P _ _) as [vs|] eqn:Sm; [|discriminate].
  destruct (match hasNode P d vs with Some m => _ | None => _ end); [discriminate|].
  destruct (makeNode P d vs true) as [d0 rv] eqn:M.
  destruct V as [V1 V2 V3 V4 V5 V6 V7 V8 V9 V10 V11].
  assert (Nft : st d f <> tgt) by (intros X; apply V6 in X; auto).
  assert (Nst : st d s <> tgt) by (intros X; apply V6 in X; auto).
  destruct (so_merge _ _ _ _ S _ _ _ (V4 f Hf) (V4 s Hs) Nft Nst Sm) as (Iv & Nv & Rv).
  apply mk_spec in M as (M1 & M2 & M3 & M4 & M5 & M6 & M7).
  intros H. injection H as H <-.
  assert (F : d_nn d1 = d_nn d0 /\ d_ed d1 = d_ed d /\ d_ne d1 = d_ne d /\ d_root d1 = Some 0 /\ d_trg d1 = Some 1 /\ d_exact d1 = d_exact d /\
    (forall i, i <> rv -> d_nd d1 i = d_nd d i) /\ st d1 rv = st d0 rv /\ lay d1 rv = lay d0 rv /\ par d1 rv = par d0 rv).
  { subst d1. destruct (isBetter P (n_bound (d_nd d0 f)) _); [set (d2 := copyBL d0 rv f)|set (d2 := d0)];
      (assert (F : d_nn d2 = d_nn d0 /\ d_ed d2 = d_ed d /\ d_ne d2 = d_ne d /\ d_root d2 = Some 0 /\ d_trg d2 = Some 1 /\ d_exact d2 = d_exact d /\
       (forall i, i <> rv -> d_nd d2 i = d_nd d i) /\ st d2 rv = st d0 rv /\ lay d2 rv = lay d0 rv /\ par d2 rv = par d0 rv)
       by (unfold d2; dsimp; rewrite ?fupd_same; dsimp; csplit; try congruence; intros i N; rewrite ?fupd_diff by auto; auto));
      clearbody d2; destruct F as (B1 & B2 & B3 & B4 & B5 & B6 & B7 & B8 & B9 & B10);
      destruct (isBetter P (n_bound (d_nd d2 s)) _); dsimp; rewrite ?fupd_same; dsimp; csplit; auto; intros i N; rewrite ?fupd_diff by auto; auto. }
  clear H. destruct F as (B1 & B2 & B3 & B4 & B5 & B6 & B7 & B8 & B9 & B10).
  assert (K : rv <> 1 /\ st d0 rv <> tgt /\ I (st d0 rv) /\ rank (st d0 rv) = rank vs /\ rv < d_nn d0 /\ d_nn d <= d_nn d0 /\ (forall i, i < d_nn d0 -> i <> rv -> i < d_nn d) /\
    (rv < d_nn d -> st d0 rv = st d rv /\ lay d0 rv = lay d rv) /\ (nbParents d1 rv = 0 \/ lay d0 rv + rank rs = rank (st d0 rv))).
  { unfold nbParents. rewrite B10. destruct M7 as [(A1 & A2 & A3 & A4 & A5 & _ & A7 & _)|(A1 & A2 & A3 & A4)].
    - assert (N1 : rv <> 1). { intros ->. apply Nv. symmetry. rewrite V5 in A3. apply (so_eqb _ _ _ _ S); auto; [apply S, S|left; apply S]. }
      rewrite A2, A4, A7. csplit; auto; try lia; apply (so_eqr _ _ _ _ S); auto.
    - rewrite A3. cbn [n_state n_par n_layer length]. csplit; auto; try lia. }
  destruct K as (N1 & K2 & K3 & K4 & K5 & K6 & K7 & K8 & K9).
  csplit; auto; try lia.
  - constructor; rewrite ?B1; auto.
    + lia.
    + intros i Hi. destruct (Nat.eq_dec i rv) as [->|N]; [now rewrite B8|]. rewrite B7 by auto. auto.
    + rewrite B7 by auto. auto.
    + intros i Hi. destruct (Nat.eq_dec i rv) as [->|N]; [rewrite B8; congruence|]. rewrite B7 by auto. auto.
    + intros i Hi N Q. rewrite B7 by auto. auto.
    + intros i Hi N X Q. rewrite B7 in * by auto. auto.
    + intros X i Hi Q. rewrite B7 by auto. apply V9; auto. congruence.
    + intros e. rewrite B2. specialize (V10 e). lia.
    + intros e He. rewrite B7 in He by auto. destruct (V11 e He) as (A0 & A1 & A2 & A3 & A4 & A5). unfold arc_ok. rewrite B1, B2, B3.
      assert (X : st d1 (from d e) = st d (from d e)).
      { destruct (Nat.eq_dec (from d e) rv) as [Q|N]; [|now rewrite B7]. rewrite Q, B8. apply K8. lia. }
      rewrite X. csplit; auto. lia.
  - intros i Hi. destruct (Nat.eq_dec i rv) as [->|N]; [|now rewrite B7]. rewrite B8, B9. auto.
  - rewrite B8. congruence.
  - rewrite B8, B9. auto.
Qed.

(** a change that W does not see *)
Lemma W_frame d d' : W none d -> d_nn d' = d_nn d -> d_ne d' = d_ne d -> d_root d' = d_root d -> d_trg d' = d_trg d -> d_exact d' = d_exact d ->
  (forall i, st d' i = st d i /\ lay d' i = lay d i /\ exa d' i = exa d i /\ (i <> 1 -> bd d' i = bd d i /\ lab d' i = lab d i)) -> par d' 1 = par d 1 ->
  (forall e, from d' e = from d e /\ obj d' e = obj d e /\ lbl d' e = lbl d e /\ to d' e < d_nn d) -> W none d'.
Proof.
  intros [V1 V2 V3 V4 V5 V6 V7 V8 V9 V10 V11] E1 E2 E3 E4 E5 Hn Hp He. constructor; rewrite ?E1; auto; try congruence.
  - intros i Hi. destruct (Hn i) as (-> & _). auto.
  - destruct (Hn 1) as (-> & _). auto.
  - intros i Hi. destruct (Hn i) as (-> & _). auto.
  - intros i Hi N _. destruct (Hn i) as (-> & -> & _). auto.
  - intros i Hi N X _. destruct (Hn i) as (-> & _ & Q & R). destruct (R N) as [-> ->]. apply V8; auto. congruence.
  - intros X i Hi _. destruct (Hn i) as (_ & _ & -> & _). apply V9; auto. congruence.
  - intros e. apply He.
  - intros e. rewrite Hp. intros X. destruct (V11 e X) as (A0 & A1 & A2 & A3 & A4 & A5). unfold arc_ok. destruct (He e) as (-> & -> & -> & _). rewrite E1, E2. destruct (Hn (from d e)) as (-> & _). csplit; auto.
Qed.

Lemma redirect_soft es : forall d r d', W none d -> r < d_nn d -> r <> 1 -> redirect d es r = Ok d' ->
  W none d' /\ d_nn d' = d_nn d /\ (forall i, st d' i = st d i).
Proof.
  induction es as [|e es IH]; intros d r d' V Hr N1; cbn [redirect]; [intros [= <-]; auto|].
  destruct (_ =? r); [discriminate|]. intros H. apply IH in H as (H1 & H2 & H3); auto.
  - csplit; auto. intros i. rewrite H3. dsimp. fcase; auto.
  - eapply W_frame; [exact V|..]; auto; dsimp.
    + intros i. fcase; csplit; auto.
    + fcase; congruence.
    + intros e0. fcase; csplit; auto. apply V.
Qed.
Lemma donor_soft d m n d' a : W none d -> m < d_nn d -> m <> 1 -> n <> 1 -> mp_donor d m n = Ok (d', a) ->
  W none d' /\ d_nn d' = d_nn d /\ (forall i, st d' i = st d i).
Proof.
  intros V Hm N1 Nn. unfold mp_donor. destruct (n =? m); [intros [= <- <-]; auto|]. unfold transferArcs.
  intros H. apply bind_ok in H as (d1 & H & [= <- <-]). apply bind_ok in H as (d2 & H & [= <-]).
  apply redirect_soft in H as (H1 & H2 & H3); auto. csplit; auto.
  - eapply W_frame; [exact H1|..]; auto; dsimp.
    + intros i. fcase; csplit; auto.
    + fcase; congruence.
    + intros e0. csplit; auto. apply H1.
  - intros i. rewrite <- H3. dsimp. fcase; auto.
Qed.
Lemma pair_soft d m n1 n2 d' a : W (eq m) d -> m < d_nn d -> m <> 1 -> n1 < d_nn d -> n1 <> 1 -> n2 <> 1 -> rank (st d m) = rank (st d n1) ->
  lay d n1 + rank rs = rank (st d n1) -> (nbParents d m = 0 \/ lay d m + rank rs = rank (st d m)) -> mergePair d m n1 n2 = Ok (d', a) ->
  W none d' /\ d_nn d' = d_nn d /\ (forall i, st d' i = st d i) /\ a <> Delay.
Proof.
  intros V Hm N1 Hn1 Nn1 Nn2 Er El Hl. unfold mergePair.
  set (nw := nbParents d m =? 0). set (d1 := if nw then _ else d).
  assert (L : lay d1 m = lay d n1 /\ lay d1 n1 = lay d n1 /\ d_nn d1 = d_nn d).
  { unfold d1, nw. destruct (Nat.eqb_spec (nbParents d m) 0) as [Q|Q]; dsimp; [rewrite fupd_same; dsimp; csplit; auto; fcase; auto|]. csplit; auto. destruct Hl; lia. }
  destruct L as (L1 & L2 & L3). rewrite L1, L2, Nat.eqb_refl, Nat.max_id.
  set (d3 := with_dexact _ false).
  assert (V3 : W none d3 /\ d_nn d3 = d_nn d /\ forall i, st d3 i = st d i).
  { assert (Q : d_nn d3 = d_nn d /\ d_ne d3 = d_ne d /\ d_ed d3 = d_ed d /\ d_root d3 = d_root d /\ d_trg d3 = d_trg d /\ d_exact d3 = false /\
      (forall i, i <> m -> d_nd d3 i = d_nd d i) /\ st d3 m = st d m /\ exa d3 m = false /\ lay d3 m = lay d n1).
    { unfold d3, d1. destruct nw; dsimp; rewrite ?fupd_same; dsimp; rewrite ?fupd_same; dsimp; csplit; auto; intros i N; rewrite ?fupd_diff by auto; auto. }
    clearbody d3. destruct Q as (Q1 & Q2 & Q3 & Q4 & Q5 & Q6 & Q7 & Q8 & Q9 & Q10).
    assert (Qs : forall i, st d3 i = st d i) by (intros i; destruct (Nat.eq_dec i m) as [->|N]; [auto|now rewrite Q7]).
    csplit; auto. destruct V as [V1 V2 V3 V4 V5 V6 V7 V8 V9 V10 V11]. constructor; rewrite ?Q1; auto; try congruence.
    - intros i. rewrite Qs. auto.
    - intros i. rewrite Qs. auto.
    - intros i Hi N _. rewrite Qs. destruct (Nat.eq_dec i m) as [->|Nm]; [lia|]. rewrite Q7 by auto. auto.
    - intros i Hi N X _. destruct (Nat.eq_dec i m) as [->|Nm]; [congruence|]. rewrite Q7 in * by auto. auto.
    - intros e. rewrite Q3. auto.
    - intros e He. rewrite Q7 in He by auto. destruct (V11 e He) as (A0 & A1 & A2 & A3 & A4 & A5). unfold arc_ok. rewrite Q1, Q2, Q3, Qs. csplit; auto. }
  clearbody d3. destruct V3 as (V3 & Q1 & Q2). intros H. apply bind_ok in H as ([d4 a1] & Ha & H). apply bind_ok in H as ([d5 a2] & Hb & [= <- <-]).
  apply donor_soft in Ha as (Ha1 & Ha2 & Ha3); auto; [|lia]. apply donor_soft in Hb as (Hb1 & Hb2 & Hb3); auto; [|lia]. csplit; auto; [lia| |].
  - intros i. now rewrite Hb3, Ha3.
  - destruct (nw || (a1 || a2)); discriminate.
Qed.

Definition okq (d : dd) (l : list nat) : Prop := forall i, In i l -> i < d_nn d /\ i <> 1.
Lemma partner_in d n1 : forall rest n2 x, find_partner P d n1 rest = Some (n2, x) -> In n2 rest /\ merge P d n1 n2 = Some x.
Proof.
  induction rest as [|n r IH]; cbn [find_partner]; [discriminate|]. intros n2 x.
  destruct (_ || _); [intros H; apply IH in H as []; cbn [In]; auto|]. destruct (merge P d n1 n) as [y|] eqn:M; [intros [= <- <-]; cbn [In]; auto|].
  intros H; apply IH in H as []; cbn [In]; auto.
Qed.
Lemma erase1_in i j : forall l, In j (erase1 i l) -> In j l.
Proof. induction l as [|k l IH]; cbn [erase1]; auto. destruct (k =? i); cbn [In]; intuition. Qed.
Lemma okq_mono d d' l : okq d l -> d_nn d <= d_nn d' -> okq d' l.
Proof. intros H L i Hi. destruct (H i Hi). lia. Qed.

Lemma one_soft d n1 rest skip d' layer' skip' dn : W none d -> okq d (n1 :: rest) -> okq d skip -> mergeOne P d n1 rest skip = Ok (d', layer', skip', dn) ->
  W none d' /\ okq d' layer' /\ okq d' skip' /\ dn = None /\ d_nn d <= d_nn d'.
Proof.
  intros V Hl Hs. assert (Hr : okq d rest) by (intros i Hi; apply Hl; cbn [In]; auto). destruct (Hl n1 (or_introl eq_refl)) as [Hn1 Nn1].
  assert (Hs' : okq d (skip ++ [n1])) by (intros i Hi; apply in_app_or in Hi as [Hi|[<-|[]]]; auto).
  unfold mergeOne. destruct (negb _); [intros [= <- <- <- <-]; csplit; auto|].
  destruct (find_partner P d n1 rest) as [[n2 [d1 m]]|] eqn:Fp; [|intros [= <- <- <- <-]; csplit; auto].
  apply partner_in in Fp as [Hn2 M]. destruct (Hr n2 Hn2) as [Hn2' Nn2].
  apply merge_soft in M as (M1 & M2 & M3 & M4 & M5 & M6 & M7); auto. destruct (M5 n1 Hn1) as [M8 M9].
  intros H. apply bind_ok in H as ([d2 act] & Hp & H). apply pair_soft in Hp as (P1 & P2 & P3 & P4); auto; try lia; try congruence.
  2:{ rewrite M8, M9. apply V; auto. }
  assert (Q : okq d2 (erase1 n2 rest)) by (intros i Hi; apply erase1_in in Hi; destruct (Hr i Hi); lia).
  assert (Q' : okq d2 (m :: erase1 n2 rest)) by (intros i [<-|Hi]; auto; lia).
  assert (Q2 : okq d2 skip) by (eapply okq_mono; eauto; lia).
  destruct act; [congruence| |]; injection H as <- <- <- <-; csplit; auto; lia.
Qed.
Lemma layer_soft w : forall fuel d layer skip d' lk, W none d -> okq d layer -> okq d skip -> mergeLayer P fuel d w layer skip = Ok (d', lk) ->
  W none d' /\ okq d' lk /\ d_nn d <= d_nn d'.
Proof.
  induction fuel as [|f IH]; intros d layer skip d' lk V Hl Hs; destruct layer as [|n1 rest]; cbn [mergeLayer]; try (intros [= <- <-]; csplit; auto; fail).
  - destruct (_ <=? w); [intros [= <- <-]; csplit; auto|discriminate]. intros i Hi. apply in_app_or in Hi as [Hi|Hi]; auto.
  - destruct (_ <=? w); [intros [= <- <-]; csplit; auto; intros i Hi; apply in_app_or in Hi as [Hi|Hi]; auto|].
    intros H. apply bind_ok in H as ([[[d1 layer1] skip1] dn] & Ho & H). apply one_soft in Ho as (O1 & O2 & O3 & -> & O5); auto.
    apply IH in H as (H1 & H2 & H3); auto. csplit; auto. lia.
Qed.

(** *** the loop *)
Variable srt : dd -> list nat -> list nat.
Hypothesis Hsrt : forall d l i, In i (srt d l) -> In i l.
Definition oklq (d : dd) (q : lqueue) : Prop := okq d (fst q) /\ okq d (snd q).
Lemma prefix_in (d : dd) c : forall q a b, same_layer_prefix d c q = (a, b) -> forall i, In i a \/ In i b -> In i q.
Proof.
  induction q as [|n q IH]; cbn [same_layer_prefix]; [intros a b [= <- <-]; cbn [In]; tauto|]. intros a b.
  destruct (same_layer_prefix d c q) as [a' b'] eqn:Q. specialize (IH _ _ eq_refl).
  destruct (_ =? c); intros [= <- <-] i Hi; cbn [In] in *; [|intuition]. destruct Hi as [[->|Hi]|Hi]; auto.
Qed.
Lemma pull_soft fuel d w q d' lk q' : W none d -> oklq d q -> lq_pull P srt fuel d w q = Ok (d', lk, q') -> W none d' /\ okq d' lk /\ oklq d' q' /\ d_nn d <= d_nn d'.
Proof.
  intros V [H1 H2]. destruct q as [nx rs0]. cbn [fst snd] in *. unfold lq_pull. intros H. apply bind_ok in H as ([d1 lk1] & Hm & H).
  apply layer_soft in Hm as (M1 & M2 & M3); auto; [|intros i Hi; apply H1; eapply Hsrt; eauto|intros i []].
  destruct rs0 as [|r rs0]; [injection H as <- <- <-; csplit; auto; split; intros i []|].
  destruct (same_layer_prefix d1 _ (r :: rs0)) as [a b] eqn:Q. injection H as <- <- <-. csplit; auto.
  pose proof (prefix_in _ _ _ _ _ Q) as Z. split; intros i Hi; (destruct (H2 i) as [A B]; [apply Z; cbn [fst snd] in Hi; auto|split; auto; lia]).
Qed.
Lemma enq_soft d q n : oklq d q -> n < d_nn d -> n <> 1 -> oklq d (lq_enQueue d q n).
Proof.
  intros [H1 H2] Hn N. destruct q as [nx r]. cbn [fst snd] in *. unfold lq_enQueue. destruct nx as [|f nx]; [split; cbn [fst snd]; auto; intros i [<-|[]]; auto|].
  destruct (_ =? _); split; cbn [fst snd]; auto; [intros i [<-|Hi]; auto|intros i Hi; apply in_app_or in Hi as [Hi|[<-|[]]]; auto].
Qed.
Lemma labels_soft primal p : forall ls d q d' q', W none d -> oklq d q -> p < d_nn d -> p <> 1 -> incl ls (p_labels P (st d p)) -> rx_labels P d primal q p ls = Ok (d', q') ->
  W none d' /\ oklq d' q' /\ d_nn d <= d_nn d'.
Proof.
  induction ls as [|l ls IH]; intros d q d' q' V Hq Hp Np Hi; cbn [rx_labels]; [intros [= <- <-]; auto|].
  intros H. apply bind_ok in H as ([d1 o] & Hs & H). apply step_soft in Hs as (S1 & S2 & S3 & S4); auto; [|apply Hi; cbn [In]; auto].
  apply IH in H as (H1 & H2 & H3); auto; try lia.
  - csplit; auto. lia.
  - assert (oklq d1 q) by (destruct Hq; split; eapply okq_mono; eauto). destruct o as [c|]; auto. destruct (S4 c eq_refl). apply enq_soft; auto.
  - rewrite S3 by auto. intros x Hx. apply Hi. cbn [In]. auto.
Qed.
Lemma lay_soft primal : forall lk d q d' q', W none d -> oklq d q -> okq d lk -> rx_layer P d primal q lk = Ok (d', q') -> W none d' /\ oklq d' q'.
Proof.
  induction lk as [|p lk IH]; intros d q d' q' V Hq Hl; cbn [rx_layer]; [intros [= <- <-]; auto|].
  intros H. apply bind_ok in H as ([d1 q1] & Hs & H). destruct (Hl p (or_introl eq_refl)). apply labels_soft in Hs as (S1 & S2 & S3); auto; [|apply incl_refl].
  eapply IH; eauto. eapply okq_mono; eauto. intros i Hi. apply Hl. cbn [In]. auto.
Qed.
Lemma loop_soft mf primal w : forall fuel d q d', W none d -> oklq d q -> rx_loop P srt fuel mf d primal w q = Ok d' -> W none d'.
Proof.
  induction fuel as [|f IH]; intros d q d' V Hq; cbn [rx_loop]; destruct (fst q ++ snd q); try (intros [= <-]; auto; fail).
  intros H. apply bind_ok in H as ([[d1 lk] q1] & Hp & H). apply bind_ok in H as ([d2 q2] & Hl & H).
  apply pull_soft in Hp as (A1 & A2 & A3 & A4); auto. apply lay_soft in Hl as (B1 & B2); auto. eapply IH; eauto.
Qed.

(** *** the whole relaxed diagram *)
Hypothesis HC : closed P E.
Lemma prep_soft d : started d rs rb rl -> (forall e, to d e = 0) -> W none (prep P d).
Proof.
  intros Sd Ht. pose proof (prep_ok P E d rs rb rl HC HE Hrs Sd) as PP.
  assert (Ed : d_ed (prep P d) = d_ed d).
  { unfold prep, target. destruct (makeNode P (with_dexact d true) tgt true) as [d1 c] eqn:M. apply mk_spec in M as (M1 & _). dsimp. exact M1. }
  destruct PP as [nn ne an root trg sst sbd slab spar skids slay sex sdex st1 bd1 lab1 par1 kids1 lay1 ex1].
  assert (C : forall i, i < 2 -> i <> 1 -> i = 0) by (intros; lia).
  constructor; rewrite ?nn; auto.
  - intros i Hi. destruct (Nat.eq_dec i 1) as [->|N]; [rewrite st1|rewrite (C i), sst by auto]; apply S; auto. apply S.
  - intros i Hi X. destruct (Nat.eq_dec i 1) as [|N]; auto. rewrite (C i), sst in X by auto. congruence.
  - intros i Hi N _. rewrite (C i), sst, slay by auto. reflexivity.
  - intros i Hi N X _. rewrite (C i), sst, sbd, slab by auto. exists [], 0%Z. rewrite app_nil_r. csplit; auto; [lia|constructor].
  - intros _ i Hi _. destruct (Nat.eq_dec i 1) as [->|N]; auto. now rewrite (C i).
  - intros e. rewrite Ed, Ht. lia.
  - rewrite par1. intros e [].
Qed.

Lemma bback_proc_only d d1 i : bbonly d d1 -> bbonly d (bback_proc P d1 i).
Proof. intros H. unfold bback_proc. now apply bbonly_set. Qed.
Lemma deg_only nexts nl : forall fuel h d d1 d', bbonly d d1 -> deg_loop fuel (bback_proc P) nexts h nl d1 = Ok d' -> bbonly d d'.
Proof.
  induction fuel as [|f IH]; intros h d d1 d' H; cbn [deg_loop]; destruct (_ =? 0); try (intros [= <-]; auto; fail).
  destruct (heap_extractMax dn_ord h) as [[dn h1]|]; [|discriminate]. intros X. apply bind_ok in X as (h2 & _ & X). eapply IH in X; eauto. now apply bback_proc_only.
Qed.
Lemma bback_only d d' : computeBestBackward P d = Ok d' -> bbonly d d'.
Proof.
  unfold computeBestBackward. destruct (deg_fill _ _ _ _) as [h nl]. intros H. eapply deg_only; [|exact H].
  destruct (bback_init_spec_aux P (d_an d) d d (bbonly_refl d)) as (I1 & _). exact I1.
Qed.

Theorem rx_soft fuel d primal w d' : started d rs rb rl -> (forall e, to d e = 0) -> rx_compute P srt fuel d primal w = Ok d' ->
  W none d' /\ (d_exact d' = true -> bt P (bd d' 1) (sentinel P) -> genuine P rs rb rl tgt (bd d' 1) (lab d' 1)) /\ be P (bd d' 1) (sentinel P).
Proof.
  intros Sd Ht. unfold rx_compute. rewrite (sd_root _ _ _ _ Sd).
  change (with_node (target P (with_dexact d true)) 0 (nset_layer (d_nd (target P (with_dexact d true)) 0) 0)) with (prep P d).
  intros H. apply bind_ok in H as (d2 & H & H2). pose proof (prep_soft d Sd Ht) as V0.
  apply loop_soft in H as V; [|auto|]. 2:{ apply enq_soft; [split; intros i []| |lia]. pose proof (w_nn _ _ V0). lia. }
  rewrite (w_trg _ _ V) in H2. pose proof (tighten_spec P d2 1 (w_trg _ _ V)) as T. apply bback_only in H2 as BO.
  csplit.
  - eapply W_frame; [exact V|..]; try (etransitivity; [apply BO|apply T]).
    + intros i. rewrite (bo_nd _ _ BO). dsimp. rewrite (tg_st _ _ _ _ T), (tg_lay _ _ _ _ T), (tg_ex _ _ _ _ T). csplit; auto. intros N. now rewrite (tg_bd _ _ _ _ T), (tg_lab _ _ _ _ T).
    + rewrite (bo_nd _ _ BO). dsimp. apply T.
    + intros e. rewrite (bo_ed _ _ BO), (tg_ed _ _ _ _ T). csplit; auto. apply V.
  - rewrite (bo_dex _ _ BO), (tg_dex _ _ _ _ T), (bo_nd _ _ BO). dsimp. intros X Bt.
    destruct (tg_t _ _ _ _ T) as [(E0 & _)|(e & Hin & _ & -> & ->)]; [rewrite E0 in Bt; unfold bt in Bt; destruct (p_min P); lia|].
    destruct (w_par _ _ V e Hin) as (A0 & A1 & A2 & A3 & A4 & A5).
    assert (Xe : exa d2 (from d2 e) = true) by (apply (w_all _ _ V); auto).
    rewrite A5. destruct (w_gen _ _ V _ A1 A2 Xe (no_none _)) as (ls & v & E1 & E2 & Hp). rewrite E1, E2.
    assert (Nt : st d2 (from d2 e) <> tgt) by (intros Y; apply (w_tu _ _ V) in Y; auto).
    exists (ls ++ [lbl d2 e]), (v + p_cost P (st d2 (from d2 e)) (lbl d2 e))%Z. rewrite app_assoc. csplit; auto; [lia|]. eapply path_snoc; eauto.
  - rewrite (bo_nd _ _ BO). dsimp. apply T.
Qed.

Lemma cs_push_soft d : W none d -> forall es q seen q1 s1, okq d q ->
  fold_left (fun '(q, seen) e => let t := e_to (d_ed d e) in if negb (existsb (Nat.eqb t) seen) && negb (is_ptr (d_trg d) t) then (q ++ [t], t :: seen) else (q, seen)) es (q, seen) = (q1, s1) ->
  okq d q1.
Proof.
  intros V. induction es as [|e es IH]; intros q seen q1 s1 Hq; cbn [fold_left]; [intros [= <- <-]; auto|].
  destruct (negb _ && negb (is_ptr (d_trg d) (to d e))) eqn:Q; intros H; eapply IH in H; auto.
  intros i Hi. apply in_app_or in Hi as [Hi|[<-|[]]]; auto. split; [apply V|]. intros X. rewrite X, (w_trg _ _ V) in Q. cbn [is_ptr] in Q. rewrite Nat.eqb_refl, andb_false_r in Q. discriminate.
Qed.
Lemma cs_soft d : W none d -> forall fuel q seen cs cs', okq d q -> (forall i, In i cs -> i < d_nn d /\ i <> 1 /\ exa d i = true) -> cs_loop fuel d q seen cs = Ok cs' ->
  forall i, In i cs' -> i < d_nn d /\ i <> 1 /\ exa d i = true.
Proof.
  intros V. induction fuel as [|f IH]; intros q seen cs cs' Hq Hc; destruct q as [|c q]; cbn [cs_loop]; try (intros [= <-]; auto; fail).
  destruct (Hq c (or_introl eq_refl)) as [Hc1 Hc2]. assert (Hq' : okq d q) by (intros i Hi; apply Hq; cbn [In]; auto).
  destruct (exa d c) eqn:X; [|apply IH; auto]. destruct (all_kids_exact d c).
  - unfold cs_push. destruct (fold_left _ _ _) as [q1 s1] eqn:Q. apply cs_push_soft in Q; auto. apply IH; auto.
  - apply IH; auto. intros i Hi. apply in_app_or in Hi as [Hi|[<-|[]]]; auto.
Qed.
Theorem cutset_soft d cs : W none d -> computeCutSet d = Ok cs -> forall i, In i cs -> genuine P rs rb rl (st d i) (bd d i) (lab d i) /\ st d i <> tgt.
Proof.
  intros V. unfold computeCutSet. rewrite (w_root _ _ V). intros H i Hi. eapply cs_soft in H as (H1 & H2 & H3); eauto.
  - split; [apply V; auto|]. intros X. apply (w_tu _ _ V) in X; auto.
  - intros j [<-|[]]. split; [|lia]. pose proof (w_nn _ _ V). lia.
  - intros j [].
Qed.
End Soft.
