(** computeBest / computeBestBackward on well-formed acyclic diagrams: Bellman equations and path optima. *)
From Verif Require Import Base HeapModel HeapProofs DDModel DDSpec DDFrame DDRestricted DDExpand DDTopo.

(** well-formed diagram: arcs join active nodes, child and parent lists are exact, f increases along arcs *)
Record wfg {St} (d : dd St) (f : nat -> nat) : Prop := {
  w_nda : NoDup (d_an d);
  w_ends : forall e, e < d_ne d -> In (from d e) (d_an d) /\ In (to d e) (d_an d);
  w_par : forall i e, In i (d_an d) -> (In e (par d i) <-> e < d_ne d /\ to d e = i);
  w_kids : forall i e, In i (d_an d) -> (In e (kids d i) <-> e < d_ne d /\ from d e = i);
  w_ndp : forall i, In i (d_an d) -> NoDup (par d i);
  w_ndk : forall i, In i (d_an d) -> NoDup (kids d i);
  w_f : forall e, e < d_ne d -> f (from d e) < f (to d e) }.
Arguments w_nda {St d f} _. Arguments w_ends {St d f} _. Arguments w_par {St d f} _. Arguments w_kids {St d f} _.
Arguments w_ndp {St d f} _. Arguments w_ndk {St d f} _. Arguments w_f {St d f} _.

Lemma cnt_map_filter (g : nat -> nat) L i : cnt (map g L) i = length (filter (fun e => g e =? i) L).
Proof.
  induction L as [|a L IH]; cbn; auto. destruct (Nat.eq_dec (g a) i) as [->|N].
  - rewrite Nat.eqb_refl. cbn. now rewrite IH.
  - destruct (Nat.eqb_spec (g a) i); [congruence|auto].
Qed.
Lemma flat_map_map {A B C} (h : B -> C) (g : A -> list B) l : flat_map (fun x => map h (g x)) l = map h (flat_map g l).
Proof. induction l; cbn; auto. now rewrite map_app, IHl. Qed.
Lemma NoDup_flat_map (g : nat -> list nat) (k : nat -> nat) l : NoDup l -> (forall i, In i l -> NoDup (g i)) ->
  (forall i e, In i l -> In e (g i) -> k e = i) -> NoDup (flat_map g l).
Proof.
  induction l as [|a l IH]; intros ND Hg Hk; cbn; [constructor|]. apply NoDup_cons_iff in ND as [N ND].
  assert (Hl : NoDup (flat_map g l)).
  { apply IH; auto; intros; [apply Hg|apply Hk]; auto; now right. }
  assert (D : forall e, In e (g a) -> ~ In e (flat_map g l)).
  { intros e He Hin. apply in_flat_map in Hin as (b & Hb & Heb). apply N.
    rewrite <- (Hk a e (or_introl eq_refl) He), (Hk b e (or_intror Hb) Heb). auto. }
  specialize (Hg a (or_introl eq_refl)). revert D Hg. clear - Hl. induction (g a) as [|x xs IHx]; cbn; auto.
  intros D Hg. apply NoDup_cons_iff in Hg as [N1 Hg]. constructor.
  - rewrite in_app_iff. intros [?|?]; auto. eapply D; eauto. 
  - apply IHx; auto.
Qed.

Section Degrees.
Context {St : Type}.
Variable d : dd St.
Variable f : nat -> nat.
Hypothesis W : wfg d f.

Lemma deg_kids i : In i (d_an d) -> indeg (par_ids d) (d_an d) i = nbChildren d i.
Proof.
  intros Hi. unfold indeg, par_ids, nbChildren. rewrite flat_map_map, cnt_map_filter. apply Permutation_length.
  apply NoDup_Permutation.
  - apply NoDup_filter. apply NoDup_flat_map with (k := fun e => to d e); [apply W|apply W|].
    intros j e Hj He. now apply (w_par W) in He.
  - now apply (w_ndk W).
  - intros e. rewrite filter_In, in_flat_map, (w_kids W), Nat.eqb_eq by auto. split.
    + intros ((j & Hj & He) & E). apply (w_par W) in He; auto. tauto.
    + intros (He & E). split; auto. exists (to d e). destruct (w_ends W e He). split; auto. apply (w_par W); auto.
Qed.
Lemma deg_par i : In i (d_an d) -> indeg (kid_ids d) (d_an d) i = nbParents d i.
Proof.
  intros Hi. unfold indeg, kid_ids, nbParents. rewrite flat_map_map, cnt_map_filter. apply Permutation_length.
  apply NoDup_Permutation.
  - apply NoDup_filter. apply NoDup_flat_map with (k := fun e => from d e); [apply W|apply W|].
    intros j e Hj He. now apply (w_kids W) in He.
  - now apply (w_ndp W).
  - intros e. rewrite filter_In, in_flat_map, (w_par W), Nat.eqb_eq by auto. split.
    + intros ((j & Hj & He) & E). apply (w_kids W) in He; auto. tauto.
    + intros (He & E). split; auto. exists (from d e). destruct (w_ends W e He). split; auto. apply (w_kids W); auto.
Qed.
End Degrees.

(** ** starting the loop *)
Section Start.
Context {St : Type}.
Variables (proc : dd St -> nat -> dd St) (nexts : dd St -> nat -> list nat) (nx : nat -> list nat) (f : nat -> nat).
Variable an : list nat.
Variable deg : nat -> nat.
Variable J : list nat -> dd St -> Prop.
Lemma deg_run d0 : NoDup an -> (forall i j, In i an -> In j (nx i) -> In j an) -> (forall i, ~ In i an -> nx i = []) ->
  (forall i j, In j (nx i) -> f i < f j) -> (forall i, In i an -> indeg nx an i = deg i) ->
  (forall R d i, NoDup R -> incl R an -> In i R -> (forall k, In k R -> ~ In i (nx k)) -> J R d ->
     J (remove Nat.eq_dec i R) (proc d i) /\ nexts (proc d i) i = nx i) ->
  J an d0 ->
  exists d', (let '(h, nl) := deg_fill (heap_new dn_dflt 1000) (fun _ => None) deg an in
              deg_loop (length an) proc nexts (heap_buildHeap dn_ord h) nl d0) = Ok d' /\ J [] d'.
Proof.
  intros ND Cl Z Hf Hd HJ J0.
  destruct (deg_fill (heap_new dn_dflt 1000) (fun _ => None) deg an) as [h nl] eqn:E.
  destruct (new_ok dn_ord dn_dflt 1000 ltac:(lia)) as [[W0 _] E0]. unfold elems in E0.
  destruct (deg_fill_ok deg an _ _ _ _ W0 ND E) as (W & _ & lc & Hnl & Pe). rewrite E0 in Pe. cbn [app] in Pe.
  destruct (buildHeap_ok dn_ord dn_swo h W) as (K & S).
  apply (deg_loop_ok proc nexts nl nx lc f Hf an Hnl J HJ (length an) (heap_buildHeap dn_ord h) an d0); auto.
  - intros i; auto.
  - eapply Permutation_trans; [apply (elems_perm _ _ S)|]. unfold elems. rewrite Pe. unfold keyed.
    match goal with |- Permutation ?a ?b => enough (E1 : a = b) by (rewrite E1; apply Permutation_refl) end.
    apply map_ext_in. intros i Hi. now rewrite Hd.
Qed.
End Start.

(** ** Backward *)
Section Backward.
Context {St : Type}.
Variable P : prob St.
Notation dd := (dd St).

(** d' equals d except for the backward bounds *)
Record bbonly (d d' : dd) : Prop := {
  bo_nn : d_nn d' = d_nn d; bo_ne : d_ne d' = d_ne d; bo_ed : d_ed d' = d_ed d; bo_an : d_an d' = d_an d;
  bo_root : d_root d' = d_root d; bo_trg : d_trg d' = d_trg d; bo_dex : d_exact d' = d_exact d;
  bo_nd : forall i, d_nd d' i = nset_bb (d_nd d i) (bb d' i) }.
Lemma bbonly_refl d : bbonly d d.
Proof. constructor; auto. intros i. now destruct (d_nd d i). Qed.
Lemma bbonly_set d d' i x : bbonly d d' -> bbonly d (with_node d' i (nset_bb (d_nd d' i) x)).
Proof.
  intros [A1 A2 A3 A4 A5 A6 A7 A8]. constructor; dsimp; auto. intros j. fcase; auto. rewrite A8 at 1. reflexivity.
Qed.

Definition bb0 (d : dd) (i : nat) : Z := if is_ptr (d_trg d) i then 0%Z else initialBest P.

Lemma bback_init_spec_aux : forall l (d d1 : dd), bbonly d d1 ->
  let d' := fold_left (fun d i => with_node d i (nset_bb (d_nd d i) (if is_ptr (d_trg d) i then 0%Z else initialBest P))) l d1 in
  bbonly d d' /\ (forall i, In i l -> bb d' i = bb0 d i) /\ (forall i, ~ In i l -> bb d' i = bb d1 i).
Proof.
  induction l as [|a l IH]; intros d d1 B; cbn [fold_left]; cbn zeta.
  - csplit; auto. intros i [].
  - set (d2 := with_node d1 a _). destruct (IH d d2) as (A1 & A2 & A3).
    { unfold d2. now apply bbonly_set. }
    csplit; auto.
    + intros i Hi. destruct (in_dec Nat.eq_dec i l) as [|N]; auto. destruct Hi as [->|]; [|tauto].
      rewrite A3 by auto. unfold d2. dsimp. rewrite fupd_same. dsimp. unfold bb0. now rewrite (bo_trg _ _ B).
    + intros i Hi. rewrite A3 by (intros ?; apply Hi; now right). unfold d2. dsimp. rewrite fupd_diff; auto.
      intros ->. apply Hi. now left.
Qed.

(** Bellman equation of the backward bounds *)
Definition bellman_back (d : dd) (i : nat) : Prop :=
  (kids d i = [] -> bb d i = bb0 d i) /\
  (kids d i <> [] -> be P (bb d i) (sentinel P) /\ (forall e, In e (kids d i) -> be P (bb d i) (bb d (to d e) + obj d e)) /\
     (bb d i = sentinel P \/ exists e, In e (kids d i) /\ bb d i = (bb d (to d e) + obj d e)%Z)).

Lemma bback_fold (g : nat -> Z) es : forall c0, let c := fold_left (fun cur e => if isBetter P (g e) cur then g e else cur) es c0 in
  be P c c0 /\ (forall e, In e es -> be P c (g e)) /\ (c = c0 \/ exists e, In e es /\ c = g e).
Proof.
  induction es as [|e es IH]; intros c0; cbn [fold_left]; cbn zeta.
  - csplit; auto using be_refl. intros e [].
  - destruct (IH (if isBetter P (g e) c0 then g e else c0)) as (A1 & A2 & A3).
    destruct (isBetter P (g e) c0) eqn:B; [apply isBetter_bt in B|apply isBetter_nbt in B]; csplit; try vlia.
    + intros e' [<-|He]; auto.
    + right. destruct A3 as [->|(e' & He & ->)]; [exists e|exists e']; cbn; auto.
    + intros e' [<-|He]; auto. vlia.
    + destruct A3 as [->|(e' & He & ->)]; auto. right. exists e'; cbn; auto.
Qed.

Lemma bback_ok d f : wfg d f -> exists d', computeBestBackward P d = Ok d' /\ bbonly d d' /\
  forall i, In i (d_an d) -> bellman_back d' i.
Proof.
  intros W. unfold computeBestBackward.
  destruct (bback_init_spec_aux (d_an d) d d (bbonly_refl d)) as (I1 & I2 & _). fold (bback_init P d) in I1, I2.
  pose (nx := fun i => if in_dec Nat.eq_dec i (d_an d) then par_ids d i else []).
  assert (NX : forall i, In i (d_an d) -> nx i = par_ids d i) by (intros i Hi; unfold nx; destruct (in_dec Nat.eq_dec i (d_an d)); tauto).
  assert (NI : forall i j, In j (nx i) <-> In i (d_an d) /\ exists e, e < d_ne d /\ to d e = i /\ from d e = j).
  { intros i j. unfold nx. destruct (in_dec Nat.eq_dec i (d_an d)) as [Hi|Hi]; [|split; [intros []|tauto]].
    unfold par_ids. rewrite in_map_iff. split.
    - intros (e & Ee & He). apply (w_par W) in He as [He1 He2]; auto. split; auto. exists e; auto.
    - intros (_ & e & He & Ht & Hf). exists e. split; auto. apply (w_par W); auto. }
  pose (J := fun (R : list nat) (d1 : dd) => bbonly d d1 /\
     (forall i, In i R -> bb d1 i = bb0 d i) /\
     (forall i, In i (d_an d) -> ~ In i R -> bellman_back d1 i /\ forall e, In e (kids d i) -> ~ In (to d e) R)).
  destruct (deg_run (bback_proc P) par_ids nx (fun i => fold_right Nat.max 0 (map f (d_an d)) - f i) (d_an d) (nbChildren d) J (bback_init P d))
    as (d' & E & B' & _ & R').
  - apply W.
  - intros i j Hi Hj. apply NI in Hj as (_ & e & He & _ & <-). apply (w_ends W e He).
  - intros i Hi. unfold nx. destruct (in_dec Nat.eq_dec i (d_an d)); tauto.
  - intros i j Hj. apply NI in Hj as (Hi & e & He & <- & <-). pose proof (w_f W e He).
    assert (f (to d e) <= fold_right Nat.max 0 (map f (d_an d))); [|lia].
    revert Hi. clear. induction (d_an d) as [|a l IH]; cbn; [intros []|]. intros [->|Hi]; [lia|]. specialize (IH Hi). lia.
  - intros i Hi. rewrite <- (deg_kids d f W i Hi). unfold indeg. f_equal. 
    assert (G : forall l, incl l (d_an d) -> flat_map nx l = flat_map (par_ids d) l).
    { induction l as [|a l IH]; intros Hl; cbn; auto. rewrite NX, IH; auto; [|apply Hl; now left]. intros x Hx. apply Hl. now right. }
    apply G. intros x; auto.
  - intros R d1 i ND HR Hi NoP (B1 & B2 & B3).
    assert (KD : forall j, kids d1 j = kids d j) by (intros j; rewrite (bo_nd _ _ B1); reflexivity).
    assert (PR : forall j, par d1 j = par d j) by (intros j; rewrite (bo_nd _ _ B1); reflexivity).
    assert (EDG := bo_ed _ _ B1).
    (* the children of i have been treated *)
    assert (NK : forall e, In e (kids d i) -> ~ In (to d e) R).
    { intros e He Hin. apply (w_kids W) in He as [He Ef]; auto. apply (NoP _ Hin). apply NI.
      split; auto. exists e; auto. }
    unfold bback_proc. rewrite KD. unfold nbChildren. rewrite KD.
    set (cur0 := if length (kids d i) =? 0 then bb d1 i else initialBest P).
    set (cur := fold_left _ (kids d i) cur0).
    assert (Ni : ~ (exists e, In e (kids d i) /\ to d e = i)) by (intros (e & He & Ee); apply (NK e He); rewrite Ee; auto).
    set (d2 := with_node d1 i (nset_bb (d_nd d1 i) cur)).
    assert (D2 : bbonly d d2) by (unfold d2; now apply bbonly_set).
    assert (KD2 : forall j, kids d2 j = kids d j) by (intros j; rewrite (bo_nd _ _ D2); reflexivity).
    assert (BBo : forall j, j <> i -> bb d2 j = bb d1 j) by (intros j Hj; unfold d2; dsimp; now rewrite fupd_diff).
    assert (BBi : bb d2 i = cur) by (unfold d2; dsimp; now rewrite fupd_same).
    assert (ED2 := bo_ed _ _ D2).
    split.
    + split; [auto|split].
      * intros j Hj. apply in_remove in Hj as [Hj N]. rewrite BBo by auto. auto.
      * intros j Hj NR. destruct (Nat.eq_dec j i) as [->|N].
        -- split; [|intros e He Hin; apply in_remove in Hin as [Hin _]; eapply NK; eauto].
           unfold bellman_back. rewrite KD2, BBi, ED2. split.
           ++ intros K0. unfold cur, cur0. rewrite K0. cbn. rewrite B2 by auto. unfold bb0. now rewrite (bo_trg _ _ D2).
           ++ intros K0. assert (cur0 = sentinel P) as C0.
              { unfold cur0. destruct (kids d i); [congruence|]. cbn. apply initialBest_sentinel. }
              destruct (bback_fold (fun e => (bb d1 (to d1 e) + obj d1 e)%Z) (kids d i) cur0) as (F1 & F2 & F3).
              fold cur in F1, F2, F3. rewrite C0, EDG in *. csplit; auto.
              ** intros e He. rewrite BBo; [auto|]. intros E0. apply Ni. exists e; auto.
              ** destruct F3 as [?|(e & He & Ec)]; auto. right. exists e. split; auto. rewrite BBo; auto. intros E0. apply Ni. exists e; auto.
        -- assert (NR' : ~ In j R) by (intros ?; apply NR; now apply in_in_remove).
           destruct (B3 j Hj NR') as [(Q1 & Q2) Q3]. split.
           ++ unfold bellman_back in *. rewrite KD2, ED2 in *. rewrite KD, EDG in *.
              rewrite (BBo j N). unfold bb0 in *. rewrite (bo_trg _ _ D2). rewrite (bo_trg _ _ B1) in Q1. split; auto.
              intros K0. destruct (Q2 K0) as (T1 & T2 & T3).
              assert (NB : forall e, In e (kids d j) -> bb d2 (to d e) = bb d1 (to d e)).
              { intros e He. apply BBo. intros E0. apply (Q3 e He). rewrite E0. auto. }
              csplit; auto.
              ** intros e He. rewrite NB; auto.
              ** destruct T3 as [?|(e & He & Ec)]; auto. right. exists e. split; auto. rewrite NB; auto.
           ++ intros e He Hin. apply in_remove in Hin as [Hin _]. eapply Q3; eauto.
    + unfold par_ids at 1. rewrite (NX i) by auto. unfold par_ids. rewrite ED2.
      assert (par d2 i = par d i) as -> by (rewrite (bo_nd _ _ D2); reflexivity). auto.
  - split; [auto|split; [auto|]]. intros i Hi Hn. tauto.
  - exists d'. split; [exact E|]. split; auto. intros i Hi. apply R'; auto.
Qed.

(** backward bounds are best path values *)
Lemma back_le d f : wfg d f -> forall d', bbonly d d' -> (forall i, In i (d_an d) -> bellman_back d' i) ->
  forall t, d_trg d = Some t -> kids d t = [] -> In t (d_an d) ->
  forall i es w, gpath d i es w t -> In i (d_an d) -> be P (bb d' i) w.
Proof.
  intros W d' B HB t T Kt Ht i es w G. revert T Kt Ht. induction G as [t|e es v t He G IH]; intros T Kt Ht Hi.
  - destruct (HB t Hi) as [H1 _]. rewrite H1.
    + unfold bb0. rewrite (bo_trg _ _ B), T. cbn. rewrite Nat.eqb_refl. apply be_refl.
    + rewrite (bo_nd _ _ B). exact Kt.
  - destruct (w_ends W e He) as [E1 E2]. specialize (IH T Kt Ht E2).
    destruct (HB _ Hi) as [_ H2]. assert (Hk : In e (kids d' (from d e))).
    { rewrite (bo_nd _ _ B). apply (w_kids W); auto. }
    destruct H2 as (_ & H2 & _); [intros E0; rewrite E0 in Hk; destruct Hk|].
    specialize (H2 e Hk). rewrite (bo_ed _ _ B) in H2. vlia.
Qed.
Lemma back_attained d f : wfg d f -> forall d', bbonly d d' -> (forall i, In i (d_an d) -> bellman_back d' i) ->
  forall t, d_trg d = Some t ->
  forall i, In i (d_an d) -> exists es w j, gpath d i es w j /\ In j (d_an d) /\ ((j = t /\ bb d' i = w) \/ bb d' i = (sentinel P + w)%Z).
Proof.
  intros W d' B HB t T.
  set (M := fold_right Nat.max 0 (map f (d_an d))).
  assert (HM : forall i, In i (d_an d) -> f i <= M).
  { unfold M. clear. induction (d_an d) as [|a l IH]; cbn; [intros i []|]. intros i [->|Hi]; [lia|]. specialize (IH i Hi). lia. }
  assert (Z : forall n i, M - f i < n -> In i (d_an d) ->
     exists es w j, gpath d i es w j /\ In j (d_an d) /\ ((j = t /\ bb d' i = w) \/ bb d' i = (sentinel P + w)%Z)).
  { induction n as [|n IH]; intros i Hn Hi; [lia|].
    destruct (HB i Hi) as [H1 H2]. destruct (kids d' i) as [|k ks] eqn:EK.
    - specialize (H1 eq_refl). unfold bb0 in H1. rewrite (bo_trg _ _ B), T in H1. exists [], 0%Z, i. csplit; auto; [constructor|].
      cbn [is_ptr] in H1. destruct (Nat.eqb_spec t i) as [->|N].
      + left. auto.
      + right. rewrite H1, initialBest_sentinel. lia.
    - destruct H2 as (_ & _ & H2); [discriminate|]. destruct H2 as [E|(e & He & E)].
      + exists [], 0%Z, i. csplit; auto; [constructor|]. right. lia.
      + rewrite <- EK, (bo_nd _ _ B) in He. apply (w_kids W) in He as [He Ef]; auto. destruct (w_ends W e He) as [_ Ht].
        pose proof (w_f W e He) as Hf. rewrite Ef in Hf. pose proof (HM _ Ht).
        destruct (IH (to d e)) as (es & w & j & G & Hj & C); auto; [lia|].
        exists (e :: es), (obj d e + w)%Z, j. rewrite (bo_ed _ _ B) in E. csplit; auto.
        * rewrite <- Ef. now constructor.
        * destruct C as [(-> & C)|C]; [left|right]; [split; auto|]; lia. }
  intros i. apply (Z (S (M - f i))). lia.
Qed.
End Backward.


(** ** Forward *)
Section Forward.
Context {St : Type}.
Variable P : prob St.
Notation dd := (dd St).

(** d' equals d except for the forward bounds and labels *)
Record bdonly (d d' : dd) : Prop := {
  fo_nn : d_nn d' = d_nn d; fo_ne : d_ne d' = d_ne d; fo_ed : d_ed d' = d_ed d; fo_an : d_an d' = d_an d;
  fo_root : d_root d' = d_root d; fo_trg : d_trg d' = d_trg d; fo_dex : d_exact d' = d_exact d;
  fo_nd : forall i, d_nd d' i = nset_bound (nset_lab (d_nd d i) (lab d' i)) (bd d' i) }.
Lemma bdonly_refl d : bdonly d d.
Proof. constructor; auto. intros i. now destruct (d_nd d i). Qed.
Lemma bdonly_set d d' i x l : bdonly d d' -> bdonly d (with_node d' i (nset_bound (nset_lab (d_nd d' i) l) x)).
Proof.
  intros [A1 A2 A3 A4 A5 A6 A7 A8]. constructor; dsimp; auto. intros j. fcase; auto. rewrite A8 at 1. reflexivity.
Qed.
Lemma bdonly_set0 d d' i x : bdonly d d' -> bdonly d (with_node d' i (nset_bound (d_nd d' i) x)).
Proof.
  intros [A1 A2 A3 A4 A5 A6 A7 A8]. constructor; dsimp; auto. intros j. fcase; auto. rewrite A8 at 1. reflexivity.
Qed.

Definition bd0 (d : dd) (i : nat) : Z := if is_ptr (d_root d) i then bd d i else initialBest P.

Lemma best_init_spec_aux : forall l (d d1 : dd), NoDup l -> bdonly d d1 -> (forall i, lab d1 i = lab d i) ->
  (forall i, In i l -> bd d1 i = bd d i) ->
  let d' := fold_left (fun d i => if is_ptr (d_root d) i then d else with_node d i (nset_bound (d_nd d i) (initialBest P))) l d1 in
  bdonly d d' /\ (forall i, lab d' i = lab d i) /\ (forall i, In i l -> bd d' i = bd0 d i) /\ (forall i, ~ In i l -> bd d' i = bd d1 i).
Proof.
  induction l as [|a l IH]; intros d d1 ND B L Hb; cbn [fold_left]; cbn zeta.
  - csplit; auto. intros i [].
  - apply NoDup_cons_iff in ND as [Na ND].
    set (d2 := if is_ptr (d_root d1) a then d1 else _).
    assert (Q : bdonly d d2 /\ (forall i, lab d2 i = lab d i) /\ bd d2 a = bd0 d a /\ (forall i, i <> a -> bd d2 i = bd d1 i)).
    { unfold d2, bd0. rewrite (fo_root _ _ B). destruct (is_ptr (d_root d) a).
      - csplit; auto. apply Hb. now left.
      - split; [now apply bdonly_set0|]. dsimp. csplit; intros; fcase; auto; congruence. }
    destruct Q as (Q1 & Q2 & Q3 & Q4).
    destruct (IH d d2) as (A1 & A2 & A3 & A4); auto.
    { intros i Hi. rewrite Q4; [apply Hb; now right|]. intros ->. auto. }
    csplit; auto.
    + intros i [<-|Hi]; auto. rewrite A4; auto.
    + intros i Hi. rewrite A4 by (intros ?; apply Hi; now right). apply Q4. intros ->. apply Hi. now left.
Qed.

(** Bellman equation of the forward bounds; [d] is the diagram before the pass *)
Definition bellman_fwd (d d' : dd) (i : nat) : Prop :=
  (par d i = [] -> bd d' i = bd0 d i /\ lab d' i = lab d i) /\
  (par d i <> [] -> be P (bd d' i) (sentinel P) /\ (forall e, In e (par d i) -> be P (bd d' i) (bd d' (from d e) + obj d e)) /\
     ((bd d' i = sentinel P /\ lab d' i = lab d i) \/
      exists e, In e (par d i) /\ bd d' i = (bd d' (from d e) + obj d e)%Z /\ lab d' i = lab d' (from d e) ++ [lbl d e])).

Lemma best_ok d f : wfg d f -> exists d', computeBest P d = Ok d' /\ bdonly d d' /\
  forall i, In i (d_an d) -> bellman_fwd d d' i.
Proof.
  intros W. unfold computeBest.
  destruct (best_init_spec_aux (d_an d) d d (w_nda W) (bdonly_refl d)) as (I1 & I4 & I2 & _); auto. fold (best_init P d) in I1, I2, I4.
  pose (nx := fun i => if in_dec Nat.eq_dec i (d_an d) then kid_ids d i else []).
  assert (NX : forall i, In i (d_an d) -> nx i = kid_ids d i) by (intros i Hi; unfold nx; destruct (in_dec Nat.eq_dec i (d_an d)); tauto).
  assert (NI : forall i j, In j (nx i) <-> In i (d_an d) /\ exists e, e < d_ne d /\ from d e = i /\ to d e = j).
  { intros i j. unfold nx. destruct (in_dec Nat.eq_dec i (d_an d)) as [Hi|Hi]; [|split; [intros []|tauto]].
    unfold kid_ids. rewrite in_map_iff. split.
    - intros (e & Ee & He). apply (w_kids W) in He as [He1 He2]; auto. split; auto. exists e; auto.
    - intros (_ & e & He & Ht & Hf). exists e. split; auto. apply (w_kids W); auto. }
  pose (J := fun (R : list nat) (d1 : dd) => bdonly d d1 /\
     (forall i, In i R -> bd d1 i = bd0 d i /\ lab d1 i = lab d i) /\
     (forall i, In i (d_an d) -> ~ In i R -> bellman_fwd d d1 i /\ forall e, In e (par d i) -> ~ In (from d e) R)).
  destruct (deg_run (best_proc P) kid_ids nx f (d_an d) (nbParents d) J (best_init P d))
    as (d' & E & B' & _ & R').
  - apply W.
  - intros i j Hi Hj. apply NI in Hj as (_ & e & He & _ & <-). apply (w_ends W e He).
  - intros i Hi. unfold nx. destruct (in_dec Nat.eq_dec i (d_an d)); tauto.
  - intros i j Hj. apply NI in Hj as (Hi & e & He & <- & <-). apply (w_f W e He).
  - intros i Hi. rewrite <- (deg_par d f W i Hi). unfold indeg. f_equal. 
    assert (G : forall l, incl l (d_an d) -> flat_map nx l = flat_map (kid_ids d) l).
    { induction l as [|a l IH]; intros Hl; cbn; auto. rewrite NX, IH; auto; [|apply Hl; now left]. intros x Hx. apply Hl. now right. }
    apply G. intros x; auto.
  - intros R d1 i ND HR Hi NoP (B1 & B2 & B3).
    assert (KD : forall j, kids d1 j = kids d j) by (intros j; rewrite (fo_nd _ _ B1); reflexivity).
    assert (PR : forall j, par d1 j = par d j) by (intros j; rewrite (fo_nd _ _ B1); reflexivity).
    assert (EDG := fo_ed _ _ B1).
    (* the parents of i have been treated *)
    assert (NK : forall e, In e (par d i) -> ~ In (from d e) R).
    { intros e He Hin. apply (w_par W) in He as [He Ef]; auto. apply (NoP _ Hin). apply NI.
      split; auto. exists e; auto. }
    assert (Ni : ~ (exists e, In e (par d i) /\ from d e = i)) by (intros (e & He & Ee); apply (NK e He); rewrite Ee; auto).
    destruct (B2 i Hi) as [Bi Li].
    set (cur0 := if length (par d i) =? 0 then bd d1 i else initialBest P).
    assert (F : exists cur lb, best_proc P d1 i = with_node d1 i (nset_bound (nset_lab (d_nd d1 i) lb) cur) /\
       (par d i = [] -> cur = bd d1 i /\ lb = lab d i) /\
       (((cur = cur0 /\ lb = lab d i) \/
        (exists e, In e (par d i) /\ bt P cur cur0 /\ cur = (bd d1 (from d e) + obj d e)%Z /\ lb = lab d1 (from d e) ++ [lbl d e])) /\
       be P cur cur0 /\ (forall e, In e (par d i) -> be P cur (bd d1 (from d e) + obj d e)))).
    { unfold best_proc. unfold nbParents. rewrite PR, Li. fold cur0.
      destruct (fold_left _ (par d i) (cur0, lab d i)) as [cur lb] eqn:F. exists cur, lb. split; [reflexivity|].
      split; [|apply tighten_fold in F; rewrite EDG in F; exact F].
      intros E0. unfold cur0 in F. rewrite E0 in F. cbn in F. injection F as <- <-. auto. }
    destruct F as (cur & lb & -> & F0 & F1 & F2 & F3).
    set (d2 := with_node d1 i (nset_bound (nset_lab (d_nd d1 i) lb) cur)).
    assert (D2 : bdonly d d2) by (unfold d2; now apply bdonly_set).
    assert (BBo : forall j, j <> i -> bd d2 j = bd d1 j /\ lab d2 j = lab d1 j) by (intros j Hj; unfold d2; dsimp; now rewrite fupd_diff).
    assert (BBi : bd d2 i = cur /\ lab d2 i = lb) by (unfold d2; dsimp; now rewrite fupd_same).
    split.
    + split; [auto|split].
      * intros j Hj. apply in_remove in Hj as [Hj N]. destruct (BBo j N) as [-> ->]. auto.
      * intros j Hj NR. destruct (Nat.eq_dec j i) as [->|N].
        -- split; [|intros e He Hin; apply in_remove in Hin as [Hin _]; eapply NK; eauto].
           assert (NB : forall e, In e (par d i) -> bd d2 (from d e) = bd d1 (from d e) /\ lab d2 (from d e) = lab d1 (from d e)).
           { intros e He. apply BBo. intros E0. apply Ni. exists e; auto. }
           unfold bellman_fwd. destruct BBi as [BBi1 BBi2]. rewrite BBi1, BBi2. split.
           ++ intros K0. destruct (F0 K0) as [-> ->]. now rewrite Bi.
           ++ intros K0. assert (cur0 = sentinel P) as C0.
              { unfold cur0. destruct (par d i); [congruence|]. cbn. apply initialBest_sentinel. }
              rewrite C0 in *. csplit; auto.
              ** intros e He. destruct (NB e He) as [-> _]. auto.
              ** destruct F1 as [?|(e & He & _ & -> & ->)]; auto. right. exists e. destruct (NB e He) as [-> ->]. auto.
        -- assert (NR' : ~ In j R) by (intros ?; apply NR; now apply in_in_remove).
           destruct (B3 j Hj NR') as [(Q1 & Q2) Q3]. split.
           ++ unfold bellman_fwd in *. destruct (BBo j N) as [-> ->]. split; auto.
              intros K0. destruct (Q2 K0) as (T1 & T2 & T3).
              assert (NB : forall e, In e (par d j) -> bd d2 (from d e) = bd d1 (from d e) /\ lab d2 (from d e) = lab d1 (from d e)).
              { intros e He. apply BBo. intros E0. apply (Q3 e He). rewrite E0. auto. }
              csplit; auto.
              ** intros e He. destruct (NB e He) as [-> _]; auto.
              ** destruct T3 as [?|(e & He & Ec & El)]; auto. right. exists e. destruct (NB e He) as [-> ->]; auto.
           ++ intros e He Hin. apply in_remove in Hin as [Hin _]. eapply Q3; eauto.
    + unfold kid_ids at 1. rewrite (NX i) by auto. unfold kid_ids. rewrite (fo_ed _ _ D2).
      assert (kids d2 i = kids d i) as -> by (rewrite (fo_nd _ _ D2); reflexivity). auto.
  - split; [auto|split; [auto|]]. intros i Hi Hn. tauto.
  - exists d'. split; [exact E|]. split; auto. intros i Hi. apply R'; auto.
Qed.

(** labels along a list of edges *)
Definition elabs (d : dd) (es : list nat) : list Z := map (fun e => lbl d e) es.

Lemma gpath_snoc (d : dd) i es v e : gpath d i es v (from d e) -> e < d_ne d -> gpath d i (es ++ [e]) (v + obj d e) (to d e).
Proof.
  intros G He. remember (from d e) as j eqn:Ej. induction G as [i|e0 es v j He0 G IH]; cbn [app].
  - subst i. replace (0 + obj d e)%Z with (obj d e + 0)%Z by lia. constructor; auto. constructor.
  - rewrite <- Z.add_assoc. constructor; auto.
Qed.

(** forward bounds are best path values from the root *)
Lemma fwd_le d f : wfg d f -> forall d', bdonly d d' -> (forall i, In i (d_an d) -> bellman_fwd d d' i) ->
  forall i es w j, gpath d i es w j -> In i (d_an d) -> be P (bd d' j) (bd d' i + w).
Proof.
  intros W d' B HB i es w j G. induction G as [i|e es v j He G IH]; intros Hi.
  - rewrite Z.add_0_r. apply be_refl.
  - destruct (w_ends W e He) as [E1 E2]. specialize (IH E2).
    destruct (HB _ E2) as [_ H2]. assert (Hk : In e (par d (to d e))) by (apply (w_par W); auto).
    destruct H2 as (_ & H2 & _); [intros E0; rewrite E0 in Hk; destruct Hk|].
    specialize (H2 e Hk). vlia.
Qed.
(** every forward bound is the value of the path spelled by the labels, from the root or from the sentinel *)
Lemma fwd_attained d f r : wfg d f -> d_root d = Some r -> par d r = [] ->
  forall d', bdonly d d' -> (forall i, In i (d_an d) -> bellman_fwd d d' i) ->
  forall j, In j (d_an d) ->
    (exists es w, gpath d r es w j /\ bd d' j = (bd d r + w)%Z /\ lab d' j = lab d r ++ elabs d es) \/
    (exists i es w, gpath d i es w j /\ In i (d_an d) /\ i <> r /\ bd d' j = (sentinel P + w)%Z).
Proof.
  intros W Er Pr d' B HB.
  assert (Z : forall n j, f j < n -> In j (d_an d) ->
    (exists es w, gpath d r es w j /\ bd d' j = (bd d r + w)%Z /\ lab d' j = lab d r ++ elabs d es) \/
    (exists i es w, gpath d i es w j /\ In i (d_an d) /\ i <> r /\ bd d' j = (sentinel P + w)%Z)).
  { induction n as [|n IH]; intros j Hn Hj; [lia|].
    destruct (HB j Hj) as [H1 H2]. destruct (par d j) as [|k ks] eqn:EK.
    - destruct (H1 eq_refl) as [H3 H4]. unfold bd0 in H3. rewrite Er in H3. cbn [is_ptr] in H3.
      destruct (Nat.eqb_spec r j) as [->|N].
      + left. exists [], 0%Z. csplit; [constructor|lia|]. cbn. now rewrite app_nil_r.
      + right. exists j, [], 0%Z. csplit; auto; [constructor|]. rewrite H3, initialBest_sentinel. lia.
    - destruct H2 as (_ & _ & H2); [discriminate|]. assert (Nj : j <> r) by (intros ->; congruence).
      destruct H2 as [(E & _)|(e & He & E & EL)].
      + right. exists j, [], 0%Z. csplit; auto; [constructor|lia].
      + rewrite <- EK in He. apply (w_par W) in He as [He Et]; auto. destruct (w_ends W e He) as [Hf _].
        pose proof (w_f W e He) as Hlt. rewrite Et in Hlt.
        destruct (IH (from d e)) as [(es & w & G & C1 & C2)|(i & es & w & G & C0 & C1 & C2)]; auto; [lia| |].
        * left. exists (es ++ [e]), (w + obj d e)%Z. rewrite <- Et. csplit; [now apply gpath_snoc|rewrite Et; lia|].
          rewrite Et, EL, C2. unfold elabs. rewrite map_app, app_assoc. reflexivity.
        * right. exists i, (es ++ [e]), (w + obj d e)%Z. rewrite <- Et. csplit; auto; [now apply gpath_snoc|rewrite Et; lia]. }
  intros j. apply (Z (S (f j))). lia.
Qed.
End Forward.

(** ** best values, when path costs stay away from the sentinel *)
Definition small (z : Z) : Prop := (- 536870912 <= z <= 536870912)%Z.
(** v is the best element of S *)
Definition best_of {St} (P : prob St) (S : Z -> Prop) (v : Z) : Prop := S v /\ forall w, S w -> be P v w.
(** v is as bad as "no solution": it differs from the sentinel by less than 2^29 *)
Definition hopeless {St} (P : prob St) (v : Z) : Prop := small (v - sentinel P).

Lemma small_cases {St} (P : prob St) a b : small (a - sentinel P) -> small b -> ~ be P a b.
Proof. unfold small, be, val, sentinel. destruct (p_min P); lia. Qed.

Theorem backward_best {St} (P : prob St) d f t : wfg d f -> d_trg d = Some t -> In t (d_an d) -> kids d t = [] ->
  (forall i es w j, gpath d i es w j -> small w) ->
  exists d', computeBestBackward P d = Ok d' /\ bbonly d d' /\ forall i, In i (d_an d) ->
    best_of P (fun w => exists es, gpath d i es w t) (bb d' i) \/
    ((forall es w, ~ gpath d i es w t) /\ hopeless P (bb d' i)).
Proof.
  intros W T Ht Kt Sm. destruct (bback_ok P d f W) as (d' & E & BO & BB). exists d'. csplit; auto. intros i Hi.
  destruct (back_attained P d f W d' BO BB t T i Hi) as (es & w & j & G & Hj & C). pose proof (Sm _ _ _ _ G) as Sw.
  destruct C as [(-> & C)|C].
  - left. split; [exists es; now rewrite C|]. intros w' (es' & G'). eapply (back_le P d f W d' BO BB t); eauto.
  - right. assert (Ho : hopeless P (bb d' i)) by (unfold hopeless; rewrite C; replace (sentinel P + w - sentinel P)%Z with w by lia; auto).
    split; auto. intros es' w' G'. pose proof (back_le P d f W d' BO BB t T Kt Ht i es' w' G' Hi) as L.
    revert L. apply small_cases; auto. eapply Sm; eauto.
Qed.

Theorem forward_best {St} (P : prob St) d f r : wfg d f -> d_root d = Some r -> In r (d_an d) -> par d r = [] -> small (bd d r) ->
  (forall i es w j, gpath d i es w j -> small w) ->
  exists d', computeBest P d = Ok d' /\ bdonly d d' /\ forall j, In j (d_an d) ->
    (best_of P (fun b => exists es w, gpath d r es w j /\ b = (bd d r + w)%Z) (bd d' j) /\
       exists es w, gpath d r es w j /\ bd d' j = (bd d r + w)%Z /\ lab d' j = lab d r ++ map (fun e => lbl d e) es) \/
    ((forall es w, ~ gpath d r es w j) /\ hopeless P (bd d' j)).
Proof.
  intros W R Hr Pr Sb Sm. destruct (best_ok P d f W) as (d' & E & BO & BB). exists d'. csplit; auto. intros j Hj.
  assert (Er : bd d' r = bd d r).
  { destruct (proj1 (BB r Hr) Pr) as [-> _]. unfold bd0. rewrite R. cbn. now rewrite Nat.eqb_refl. }
  destruct (fwd_attained P d f r W R Pr d' BO BB j Hj) as [(es & w & G & C1 & C2)|(i & es & w & G & Hi & Ni & C)].
  - left. split; [|exists es, w; auto]. split; [exists es, w; auto|]. intros b (es' & w' & G' & ->).
    pose proof (fwd_le P d f W d' BO BB r es' w' j G' Hr). rewrite Er in H. auto.
  - right. assert (Ho : hopeless P (bd d' j)).
    { unfold hopeless. rewrite C. replace (sentinel P + w - sentinel P)%Z with w by lia. eapply Sm; eauto. }
    split; auto. intros es' w' G'. pose proof (fwd_le P d f W d' BO BB r es' w' j G' Hr) as L. rewrite Er in L.
    pose proof (Sm _ _ _ _ G'). unfold hopeless, small, be, val, sentinel in *. destruct (p_min P); lia.
Qed.

(** ** deciding the hypotheses on a concrete diagram *)
Fixpoint nodupb (l : list nat) : bool := match l with [] => true | a :: r => negb (existsb (Nat.eqb a) r) && nodupb r end.
Lemma existsb_In a l : existsb (Nat.eqb a) l = true <-> In a l.
Proof. rewrite existsb_exists. split; [intros (x & H & E); apply Nat.eqb_eq in E; now subst|]. intros H. exists a. split; auto. apply Nat.eqb_refl. Qed.
Lemma nodupb_ok l : nodupb l = true -> NoDup l.
Proof.
  induction l as [|a r IH]; cbn; intros H; constructor.
  - rewrite <- existsb_In. destruct (existsb (Nat.eqb a) r); [discriminate|auto].
  - apply IH. destruct (existsb (Nat.eqb a) r); [discriminate|auto].
Qed.
Definition adjb {St} (d : dd St) (ends : nat -> nat) (adj : nat -> list nat) : bool :=
  forallb (fun i => nodupb (adj i) && forallb (fun e => (e <? d_ne d) && (ends e =? i)) (adj i)) (d_an d) &&
  forallb (fun e => existsb (Nat.eqb e) (adj (ends e)) && existsb (Nat.eqb (ends e)) (d_an d)) (seq 0 (d_ne d)).
Definition wfgb {St} (d : dd St) (f : nat -> nat) : bool :=
  nodupb (d_an d) && adjb d (fun e => from d e) (fun i => kids d i) && adjb d (fun e => to d e) (fun i => par d i) &&
  forallb (fun e => f (from d e) <? f (to d e)) (seq 0 (d_ne d)).
Lemma adjb_ok {St} (d : dd St) ends adj : adjb d ends adj = true ->
  (forall e, e < d_ne d -> In (ends e) (d_an d)) /\
  (forall i, In i (d_an d) -> NoDup (adj i)) /\ (forall i e, In i (d_an d) -> (In e (adj i) <-> e < d_ne d /\ ends e = i)).
Proof.
  unfold adjb. intros H. apply andb_true_iff in H as [H1 H2]. rewrite forallb_forall in H1, H2.
  assert (H3 : forall e, e < d_ne d -> In e (adj (ends e)) /\ In (ends e) (d_an d)).
  { intros e He. specialize (H2 e). rewrite in_seq in H2. specialize (H2 ltac:(lia)). apply andb_true_iff in H2 as [A B].
    split; now apply existsb_In. }
  csplit.
  - intros e He. now apply H3.
  - intros i Hi. specialize (H1 i Hi). apply andb_true_iff in H1 as [A _]. now apply nodupb_ok.
  - intros i e Hi. specialize (H1 i Hi). apply andb_true_iff in H1 as [_ B]. rewrite forallb_forall in B. split.
    + intros He. specialize (B e He). lia.
    + intros [He <-]. now apply H3.
Qed.
Lemma wfgb_ok {St} (d : dd St) f : wfgb d f = true -> wfg d f.
Proof.
  unfold wfgb. intros H. apply andb_true_iff in H as [H H4]. apply andb_true_iff in H as [H H3]. apply andb_true_iff in H as [H1 H2].
  apply adjb_ok in H2 as (A1 & A2 & A3). apply adjb_ok in H3 as (B1 & B2 & B3). rewrite forallb_forall in H4.
  constructor; auto; [now apply nodupb_ok|].
  intros e He. specialize (H4 e). rewrite in_seq in H4. specialize (H4 ltac:(lia)). lia.
Qed.
Lemma gpath_small {St} (d : dd St) f (n c : nat) : wfg d f ->
  forallb (fun e => (f (to d e) <=? n) && (Z.abs (obj d e) <=? Z.of_nat c)%Z) (seq 0 (d_ne d)) = true -> (Z.of_nat (n * c) <= 536870912)%Z ->
  forall i es w j, gpath d i es w j -> small w.
Proof.
  intros W H Hs i es w j G. rewrite forallb_forall in H.
  assert (L : forall e, e < d_ne d -> f (from d e) < f (to d e) <= n /\ (Z.abs (obj d e) <= Z.of_nat c)%Z).
  { intros e He. specialize (H e). rewrite in_seq in H. specialize (H ltac:(lia)). pose proof (w_f W e He). lia. }
  enough (f i <= n -> (Z.abs w <= Z.of_nat ((n - f i) * c))%Z) as Q.
  { destruct (Nat.le_gt_cases (f i) n) as [Hn|Hn].
    - specialize (Q Hn). unfold small. nia.
    - inversion G; subst; [unfold small; lia|]. specialize (L _ ltac:(eassumption)). lia. }
  clear Hs. induction G as [i|e es v j He G IH]; intros Hi; [cbn; nia|]. specialize (L e He). specialize (IH ltac:(lia)). nia.
Qed.
