(** What the store operations of DDModel.v change, field by field. *)
From Verif Require Import Base DDModel DDSpec.

Notation st d i := (n_state (d_nd d i)).
Notation par d i := (n_par (d_nd d i)).
Notation kids d i := (n_kids (d_nd d i)).
Notation lab d i := (n_lab (d_nd d i)).
Notation bd d i := (n_bound (d_nd d i)).
Notation bb d i := (n_bb (d_nd d i)).
Notation lay d i := (n_layer (d_nd d i)).
Notation exa d i := (n_exact (d_nd d i)).
Notation from d e := (e_from (d_ed d e)).
Notation to d e := (e_to (d_ed d e)).
Notation obj d e := (e_obj (d_ed d e)).
Notation lbl d e := (e_lbl (d_ed d e)).

(** compute projections of record updates *)
Ltac dsimp := cbn [with_node with_an with_dexact with_root with_trg with_edge alloc
   d_nd d_nn d_ed d_ne d_an d_root d_trg d_exact
   nset_bound nset_bb nset_lab nset_layer nset_exact nset_par nset_kids copyBL
   n_state n_par n_kids n_lab n_bound n_bb n_layer n_exact e_from e_to e_obj e_lbl fst snd] in *.
Ltac fcase := repeat match goal with
  | |- context[fupd _ ?i _ ?j] => rewrite (fupd_eq _ i _ j); destruct (Nat.eqb_spec j i); try subst; dsimp
  | H : context[fupd _ ?i _ ?j] |- _ => rewrite (fupd_eq _ i _ j) in H; destruct (Nat.eqb_spec j i); try subst; dsimp
  end.

(** split conjunctions only *)
Ltac csplit := repeat match goal with |- _ /\ _ => split end.

Section Frame.
Context {St : Type}.
Variable P : prob St.
Notation dd := (dd St).
(** the equality closure is right about [s] and the states of the diagram *)
Definition eqb_at (d : dd) (s : St) : Prop := forall j, j < d_nn d -> (p_eqb P (st d j) s = true <-> st d j = s).

Lemma hasNode_some (d : dd) s i : eqb_at d s -> hasNode P d s = Some i -> i < d_nn d /\ st d i = s.
Proof.
  unfold hasNode. intros Q H. apply find_some in H as [H1 H2]. apply in_seq in H1. apply Q in H2; [|lia]. split; [lia|auto].
Qed.
Lemma hasNode_none (d : dd) s : eqb_at d s -> hasNode P d s = None -> forall i, i < d_nn d -> st d i <> s.
Proof.
  unfold hasNode. intros Q H i Hi E. eapply find_none in H; [|apply in_seq; split; [apply Nat.le_0_l|apply Hi]].
  apply (Q i Hi) in E. cbn in H. congruence.
Qed.

(** the node is (re)entered with the sentinel bound *)
Definition resets (d : dd) (c : nat) : Prop := c = d_nn d \/ (par d c = [] /\ d_root d <> Some c /\ d_trg d <> Some c).

Record made (d : dd) (s : St) (x : bool) (d1 : dd) (c : nat) : Prop := {
  m_c : (c < d_nn d /\ st d c = s /\ d_nn d1 = d_nn d) \/
        (c = d_nn d /\ d_nn d1 = S (d_nn d) /\ (forall i, i < d_nn d -> st d i <> s));
  m_stc : st d1 c = s;
  m_st : forall i, i < d_nn d -> st d1 i = st d i;
  m_ed : d_ed d1 = d_ed d;
  m_ne : d_ne d1 = d_ne d;
  m_root : d_root d1 = d_root d;
  m_trg : d_trg d1 = d_trg d;
  m_dex : d_exact d1 = d_exact d;
  m_par : forall i, i < d_nn d -> par d1 i = par d i;
  m_kids : forall i, i < d_nn d -> kids d1 i = kids d i;
  m_lay : forall i, i < d_nn d -> lay d1 i = lay d i;
  m_lab : forall i, i < d_nn d -> lab d1 i = lab d i;
  m_new : c = d_nn d -> par d1 c = [] /\ kids d1 c = [] /\ lay d1 c = 0 /\ exa d1 c = x /\ lab d1 c = [];
  m_bd : forall i, i < d_nn d -> i <> c -> bd d1 i = bd d i;
  m_bb : forall i, i < d_nn d -> i <> c -> bb d1 i = bb d i;
  m_ex : forall i, i < d_nn d -> i <> c -> exa d1 i = exa d i;
  m_exc : c < d_nn d -> exa d1 c = exa d c && x;
  m_reset : resets d c -> bd d1 c = sentinel P /\ d_an d1 = d_an d ++ [c];
  m_keep : ~ resets d c -> bd d1 c = bd d c /\ d_an d1 = d_an d }.

Lemma is_ptr_true o i : is_ptr o i = true <-> o = Some i.
Proof. destruct o; cbn; split; intros H; try discriminate; [apply Nat.eqb_eq in H; now subst | injection H as ->; apply Nat.eqb_refl]. Qed.
Lemma is_ptr_false o i : is_ptr o i = false <-> o <> Some i.
Proof. rewrite <- is_ptr_true. destruct (is_ptr o i); split; congruence. Qed.

Lemma nbParents_zero (d : dd) i : nbParents d i = 0 <-> par d i = [].
Proof. unfold nbParents. destruct (par d i); cbn; split; congruence. Qed.
Lemma nbChildren_zero (d : dd) i : nbChildren d i = 0 <-> kids d i = [].
Proof. unfold nbChildren. destruct (kids d i); cbn; split; congruence. Qed.

Lemma makeNode_made d s x d1 c : eqb_at d s -> makeNode P d s x = (d1, c) -> made d s x d1 c.
Proof.
  intros Q. unfold makeNode. destruct (hasNode P d s) as [a|] eqn:H.
  - apply (hasNode_some _ _ _ Q) in H as [Ha Hs].
    destruct ((nbParents d a =? 0) && negb (is_ptr (d_root d) a) && negb (is_ptr (d_trg d) a)) eqn:R;
      intros E; injection E as <- <-.
    + assert (Rs : resets d a).
      { right. apply andb_true_iff in R as [R R3]. apply andb_true_iff in R as [R1 R2].
        apply Nat.eqb_eq, nbParents_zero in R1. apply negb_true_iff, is_ptr_false in R2, R3. auto. }
      constructor; dsimp; intros; try lia; auto; fcase; auto; try congruence; try tauto.
    + assert (Rs : ~ resets d a).
      { intros [->|(R1 & R2 & R3)]; [lia|]. apply nbParents_zero in R1. apply is_ptr_false in R2, R3.
        rewrite R1, R2, R3 in R. discriminate. }
      constructor; dsimp; intros; try lia; auto; fcase; auto; try congruence; try tauto.
  - pose proof (hasNode_none _ _ Q H) as Hn. intros E; injection E as <- <-.
    constructor; dsimp; intros; try lia; auto; fcase; auto; try congruence; try lia.
    all: exfalso; match goal with N : ~ resets _ _ |- _ => apply N; now left end.
Qed.

Lemma made_bb d s x d1 c b : made d s x d1 c -> made d s x (with_node d1 c (nset_bb (d_nd d1 c) b)) c.
Proof.
  intros [H1 H2 H3 H4 H5 H6 H7 H8 H9 H10 H11 H12 H13 H14 H15 H16 H17 H18 H19]. constructor; dsimp; intros; auto; fcase; auto; try congruence.
Qed.

Lemma transition_none d primal p l d1 : transition P d primal p l = (d1, None) ->
  p_stf P (st d p) l = None \/
  exists s' loc, p_stf P (st d p) l = Some s' /\ p_local P = Some loc /\ ~ bt P (bd d p + p_cost P (st d p) l + loc s' true) primal.
Proof.
  unfold transition. destruct (p_stf P (st d p) l) as [s'|] eqn:S; [|auto].
  destruct (p_local P) as [loc|] eqn:L.
  - destruct (isBetter P (bd d p + p_cost P (st d p) l + loc s' true) primal) eqn:B; cbn [negb].
    + destruct (makeNode P d s' (exa d p)) as [d2 c]. destruct (negb _); discriminate.
    + intros _. right. exists s', loc. repeat split; auto. rewrite <- isBetter_bt. congruence.
  - destruct (makeNode P d s' (exa d p)) as [d2 c]. discriminate.
Qed.
(** result of a transition *)
Lemma transition_spec d primal p l d1 o : (forall s', p_stf P (st d p) l = Some s' -> eqb_at d s') -> transition P d primal p l = (d1, o) ->
  (o = None /\ d1 = d /\
     (p_stf P (st d p) l = None \/
      exists s' loc, p_stf P (st d p) l = Some s' /\ p_local P = Some loc /\
         ~ bt P (bd d p + p_cost P (st d p) l + loc s' true) primal)) \/
  (exists c s', o = Some c /\ p_stf P (st d p) l = Some s' /\
     (forall loc, p_local P = Some loc -> bt P (bd d p + p_cost P (st d p) l + loc s' true) primal) /\
     made d s' (exa d p) d1 c).
Proof.
  intros Q. unfold transition. destruct (p_stf P (st d p) l) as [s'|] eqn:S.
  2:{ intros E; injection E as <- <-. left; auto. }
  destruct (p_local P) as [loc|] eqn:L.
  - destruct (isBetter P (bd d p + p_cost P (st d p) l + loc s' true) primal) eqn:B; cbn [negb].
    + destruct (makeNode P d s' (exa d p)) as [d2 c] eqn:M. apply makeNode_made in M; auto.
      intros E. right. exists c, s'.
      destruct (negb (isBetter P (p_cost P (st d p) l + loc s' true) (bd d2 c))); injection E as <- <-;
        (split; [auto|split; [auto|split]]);
        try (intros loc' [= <-]; now apply isBetter_bt); auto.
      now apply made_bb.
    + intros E; injection E as <- <-. left. split; auto. split; auto. right. exists s', loc. repeat split; auto.
      rewrite <- isBetter_bt. congruence.
  - destruct (makeNode P d s' (exa d p)) as [d2 c] eqn:M. apply makeNode_made in M; auto.
    intros E; injection E as <- <-. right. exists c, s'. split; [auto|split; [auto|split]]; [discriminate|exact M].
Qed.

(** addition of an arc p -> c, improving c's bound and layer *)
Record arced (d : dd) (p c : nat) (l cost : Z) (d' : dd) : Prop := {
  a_nn : d_nn d' = d_nn d;
  a_ne : d_ne d' = S (d_ne d);
  a_an : d_an d' = d_an d;
  a_root : d_root d' = d_root d;
  a_trg : d_trg d' = d_trg d;
  a_dex : d_exact d' = d_exact d;
  a_ed : forall e, e <> d_ne d -> d_ed d' e = d_ed d e;
  a_edn : d_ed d' (d_ne d) = mkEdge p c cost l;
  a_st : forall i, st d' i = st d i;
  a_ex : forall i, exa d' i = exa d i;
  a_bb : forall i, bb d' i = bb d i;
  a_par : forall i, i <> c -> par d' i = par d i;
  a_parc : par d' c = par d c ++ [d_ne d];
  a_kids : forall i, i <> p -> kids d' i = kids d i;
  a_kidsp : kids d' p = kids d p ++ [d_ne d];
  a_bd : forall i, i <> c -> bd d' i = bd d i;
  a_lab : forall i, i <> c -> lab d' i = lab d i;
  a_bdc : (bt P (bd d p + cost) (bd d c) /\ bd d' c = (bd d p + cost)%Z /\ lab d' c = lab d p ++ [l]) \/
          (~ bt P (bd d p + cost) (bd d c) /\ bd d' c = bd d c /\ lab d' c = lab d c);
  a_lay : forall i, i <> c -> lay d' i = lay d i;
  a_layc : lay d' c = Nat.max (lay d c) (lay d p + 1) }.

Lemma addEdge_frame (d : dd) p c l cost (d' : dd) : addEdge d p c l cost = Ok d' ->
  p <> c /\ d_nn d' = d_nn d /\ d_ne d' = S (d_ne d) /\ d_an d' = d_an d /\ d_root d' = d_root d /\ d_trg d' = d_trg d /\
  d_exact d' = d_exact d /\ d_ed d' = fupd (d_ed d) (d_ne d) (mkEdge p c cost l) /\
  d_nd d' = fupd (fupd (d_nd d) p (nset_kids (d_nd d p) (kids d p ++ [d_ne d]))) c (nset_par (d_nd d c) (par d c ++ [d_ne d])).
Proof.
  unfold addEdge. destruct (Nat.eqb_spec p c); [discriminate|]. intros E; injection E as <-. dsimp.
  repeat split; auto. rewrite (fupd_diff _ p) by auto. reflexivity.
Qed.

Lemma addEdge_ok (d : dd) p c l cost : p <> c -> exists d', addEdge d p c l cost = Ok d'.
Proof. unfold addEdge. destruct (Nat.eqb_spec p c); [tauto|eauto]. Qed.

(** the tail of step_arc *)
Definition arc_tail (d : dd) (p c : nat) (l cost : Z) : res dd :=
  do d3 <- addEdge d p c l cost ;
  let d4 := if isBetter P (bd d p + cost) (bd d3 c)
            then with_node d3 c (nset_lab (nset_bound (d_nd d3 c) (bd d p + cost)) (lab d3 p ++ [l]))
            else d3 in
  Ok (with_node d4 c (nset_layer (d_nd d4 c) (Nat.max (lay d4 c) (lay d4 p + 1)))).

Lemma arc_tail_arced d p c l cost d' : arc_tail d p c l cost = Ok d' -> p <> c /\ arced d p c l cost d'.
Proof.
  unfold arc_tail. intros E. apply bind_ok in E as (d3 & E3 & E).
  apply addEdge_frame in E3 as (N & F1 & F2 & F3 & F4 & F5 & F6 & F7 & F8).
  split; auto.
  assert (B3 : bd d3 c = bd d c) by (rewrite F8; fcase; congruence).
  rewrite B3 in E.
  destruct (isBetter P (bd d p + cost) (bd d c)) eqn:B; injection E as <-.
  - apply isBetter_bt in B. constructor; dsimp; auto; try rewrite F7; try rewrite F8; intros; repeat (fcase; auto; try congruence).
  - assert (NB : ~ bt P (bd d p + cost) (bd d c)) by (rewrite <- isBetter_bt; congruence).
    constructor; dsimp; auto; try rewrite F7; try rewrite F8; intros; repeat (fcase; auto; try congruence).
Qed.
Lemma arc_tail_ok (d : dd) p c l cost : p <> c -> exists d', arc_tail d p c l cost = Ok d'.
Proof. intros N. unfold arc_tail. destruct (addEdge_ok d p c l cost N) as [d3 ->]. cbn [bind]. eauto. Qed.

Lemma step_arc_none d primal q p l d1 : transition P d primal p l = (d1, None) -> step_arc P d primal q p l = Ok (d1, None).
Proof. unfold step_arc. now intros ->. Qed.

(** step_arc as: transition, redirection to a dominator, arc_tail *)
Definition dom_sel (d1 : dd) (q : list nat) (p c0 : nat) (ep : Z) : res (dd * nat * bool) :=
  let newNode0 := nbParents d1 c0 =? 0 in
  match p_sdom P with
  | Some sdom =>
    if newNode0 then
      match checkDominance P d1 sdom q c0 ep with
      | Some dominator => do an <- an_pop (d_an d1) ; Ok (with_an d1 an, dominator, false)
      | None => Ok (d1, c0, newNode0)
      end
    else Ok (d1, c0, newNode0)
  | None => Ok (d1, c0, newNode0)
  end.
Lemma step_arc_some d primal q p l d1 c0 : transition P d primal p l = (d1, Some c0) ->
  step_arc P d primal q p l =
    (do (d2, c, nw) <- dom_sel d1 q p c0 (bd d1 p + p_cost P (st d1 p) l) ;
     do d5 <- arc_tail d2 p c l (p_cost P (st d1 p) l) ;
     if negb (p_eqs P (st d5 c)) && nw then Ok (d5, Some c) else Ok (d5, None)).
Proof.
  unfold step_arc. intros ->. fold (dom_sel d1 q p c0 (bd d1 p + p_cost P (st d1 p) l)).
  destruct (dom_sel d1 q p c0 (bd d1 p + p_cost P (st d1 p) l)) as [[[d2 c] nw]|e] eqn:DS; cbn [bind]; auto.
  assert (bd d2 p = bd d1 p) as <-.
  { unfold dom_sel in DS. destruct (p_sdom P); [|congruence]. destruct (nbParents d1 c0 =? 0); [|congruence].
    destruct checkDominance; [|congruence]. apply bind_ok in DS as (an & _ & DS). injection DS as <- <- <-. reflexivity. }
  unfold arc_tail.
  destruct (addEdge d2 p c l (p_cost P (st d1 p) l)) as [d3|e]; cbn [bind]; auto.
Qed.
End Frame.

Arguments m_c {St P d s x d1 c} _.
Arguments m_stc {St P d s x d1 c} _.
Arguments m_st {St P d s x d1 c} _.
Arguments m_ed {St P d s x d1 c} _.
Arguments m_ne {St P d s x d1 c} _.
Arguments m_root {St P d s x d1 c} _.
Arguments m_trg {St P d s x d1 c} _.
Arguments m_dex {St P d s x d1 c} _.
Arguments m_par {St P d s x d1 c} _.
Arguments m_kids {St P d s x d1 c} _.
Arguments m_lay {St P d s x d1 c} _.
Arguments m_lab {St P d s x d1 c} _.
Arguments m_new {St P d s x d1 c} _.
Arguments m_bd {St P d s x d1 c} _.
Arguments m_bb {St P d s x d1 c} _.
Arguments m_ex {St P d s x d1 c} _.
Arguments m_exc {St P d s x d1 c} _.
Arguments m_reset {St P d s x d1 c} _.
Arguments m_keep {St P d s x d1 c} _.
Arguments a_nn {St P d p c l cost d'} _.
Arguments a_ne {St P d p c l cost d'} _.
Arguments a_an {St P d p c l cost d'} _.
Arguments a_root {St P d p c l cost d'} _.
Arguments a_trg {St P d p c l cost d'} _.
Arguments a_dex {St P d p c l cost d'} _.
Arguments a_ed {St P d p c l cost d'} _.
Arguments a_edn {St P d p c l cost d'} _.
Arguments a_st {St P d p c l cost d'} _.
Arguments a_ex {St P d p c l cost d'} _.
Arguments a_bb {St P d p c l cost d'} _.
Arguments a_par {St P d p c l cost d'} _.
Arguments a_parc {St P d p c l cost d'} _.
Arguments a_kids {St P d p c l cost d'} _.
Arguments a_kidsp {St P d p c l cost d'} _.
Arguments a_bd {St P d p c l cost d'} _.
Arguments a_lab {St P d p c l cost d'} _.
Arguments a_bdc {St P d p c l cost d'} _.
Arguments a_lay {St P d p c l cost d'} _.
Arguments a_layc {St P d p c l cost d'} _.
