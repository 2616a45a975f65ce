(** Exact diagrams of acyclic models (C01, C02): breadth-first expansion followed by computeBest. *)
From Verif Require Import Base DDModel DDSpec DDFrame DDInv DDRestricted DDExpand DDPasses.

(** the model is acyclic: m increases along every step *)
Definition acyclic {St} (P : prob St) (I : St -> Prop) (m : St -> nat) : Prop :=
  forall s l s', I s -> s <> p_target P -> In l (p_labels P s) -> p_stf P s l = Some s' -> m s < m s'.

Lemma target_dexact {St} (P : prob St) (d : dd St) b : target P (with_dexact d b) = with_dexact (target P d) b.
Proof.
  unfold target, makeNode. change (hasNode P (with_dexact d b)) with (hasNode P d).
  destruct (hasNode P d (p_target P)) as [a|]; [|reflexivity]. 
  change (nbParents (with_dexact d b) a) with (nbParents d a). change (d_root (with_dexact d b)) with (d_root d).
  change (d_trg (with_dexact d b)) with (d_trg d). destruct (_ && _ && _); reflexivity.
Qed.
Lemma compute_dexact {St} (P : prob St) srt fuel s (d : dd St) b primal : compute P srt fuel s (with_dexact d b) primal = compute P srt fuel s d primal.
Proof.
  destruct s; cbn [compute]; unfold ex_compute, rs_compute, rx_compute; change (d_root (with_dexact d b)) with (d_root d);
    destruct (d_root d); auto. rewrite target_dexact. reflexivity.
Qed.

Section E.
Context {St : Type}.
Variable P : prob St.
Variable I : St -> Prop.
Hypothesis HC : closed P I.
Hypothesis HL : p_local P = None.
Variable m : St -> nat.
Hypothesis HA : acyclic P I m.
Variables (rs : St) (rb : Z) (rl : list Z).
Hypothesis Hrs : rs <> p_target P.
Hypothesis HI : I rs.
Notation dd := (dd St).
Let Heqb := cl_eqb P I HC.
Notation base := (base P I 0 1 rs).

Lemma path_m s ls v t : I s -> path P s ls v t -> (s = t /\ ls = []) \/ m s < m t.
Proof.
  intros Is H. induction H as [s|s l s' ls v t N Hl S H IH]; auto. right.
  pose proof (HA s l s' Is N Hl S). destruct IH as [(-> & _)|?]; [eapply (cl_step P I HC); eauto| |]; lia.
Qed.

(** node i has an arc for each of the labels ls *)
Definition expd (d : dd) (i : nat) (ls : list Z) : Prop := forall l s', In l ls -> p_stf P (st d i) l = Some s' ->
  exists e, e < d_ne d /\ from d e = i /\ lbl d e = l /\ st d (to d e) = s'.

Record einv (X : nat -> Prop) (d : dd) (q : list nat) : Prop := {
  x_base : base d;
  x_an : d_an d = seq 0 (d_nn d);
  x_live : forall i, i < d_nn d -> i <> 0 -> i <> 1 -> par d i <> [];
  x_edge : forall e, e < d_ne d -> from d e <> 1 /\ In (lbl d e) (p_labels P (st d (from d e))) /\
     obj d e = p_cost P (st d (from d e)) (lbl d e) /\ p_stf P (st d (from d e)) (lbl d e) = Some (st d (to d e));
  x_nd : NoDup q;
  x_q : forall i, In i q -> i < d_nn d /\ i <> 1;
  x_done : forall i, i < d_nn d -> i <> 1 -> ~ In i q -> ~ X i -> expd d i (p_labels P (st d i));
  x_root : par d 0 = [] /\ bd d 0 = rb /\ lab d 0 = rl;
  x_sent : forall i, i < d_nn d -> i <> 0 -> bd d i = sentinel P;
  x_reach : forall i, i < d_nn d -> i <> 1 -> exists ls v, path P rs ls v (st d i);
  x_dex : d_exact d = true }.

(** adding an arc without touching bounds *)
Lemma base_addEdge d p c l cost d' : base d -> addEdge d p c l cost = Ok d' -> p < d_nn d -> c < d_nn d -> base d'.
Proof.
  intros B E Hp Hc. destruct (arc_tail_ok P d p c l cost) as (d5 & E5).
  { apply addEdge_frame in E. tauto. }
  apply arc_tail_arced in E5 as [N A]. pose proof (base_arced HC B A Hp Hc) as B5.
  apply addEdge_frame in E as (_ & F1 & F2 & F3 & F4 & F5 & F6 & F7 & F8).
  assert (S : forall i, st d' i = st d5 i).
  { intros i. rewrite (a_st A), F8. fcase; auto. }
  assert (Pr : forall i, par d' i = par d5 i).
  { intros i. rewrite F8. fcase; [now rewrite (a_parc A)|..]; rewrite (a_par A) by auto; auto. }
  assert (Kd : forall i, kids d' i = kids d5 i).
  { intros i. rewrite F8. fcase; rewrite ?(a_kidsp A), ?(a_kids A) by congruence; auto. }
  assert (En : d_nn d' = d_nn d5) by (rewrite (a_nn A); auto).
  assert (Ee : d_ne d' = d_ne d5) by (rewrite (a_ne A); auto).
  assert (Ed : forall e, d_ed d' e = d_ed d5 e).
  { intros e. rewrite F7. fcase; [now rewrite (a_edn A)|now rewrite (a_ed A) by auto]. }
  destruct B5 as [b1 b2 b3 b4 b5 b6 b7 b8 b9 b10 b11].
  constructor; rewrite ?En, ?Ee.
  - intros i j. rewrite !S. auto.
  - intros i. rewrite S. auto.
  - rewrite F4. apply B.
  - rewrite F5. apply B.
  - rewrite S. auto.
  - rewrite S. auto.
  - intros e. rewrite Ed. auto.
  - intros i e. rewrite Pr, Ed. auto.
  - intros i e. rewrite Kd, Ed. auto.
  - intros i. rewrite Pr. auto.
  - intros i. rewrite Kd. auto.
Qed.

Lemma expd_mono (d d' : dd) i ls : base d -> i < d_nn d -> d_ne d <= d_ne d' -> (forall e, e < d_ne d -> d_ed d' e = d_ed d e) ->
  (forall j, j < d_nn d -> st d' j = st d j) -> expd d i ls -> expd d' i ls.
Proof.
  intros B Hi Hn He Hs H l s' Hl S. rewrite Hs in S by auto. destruct (H l s' Hl S) as (e & A1 & A2 & A3 & A4).
  exists e. rewrite He by auto. csplit; auto; [lia|]. rewrite Hs; auto. now apply (b_ends B).
Qed.

Lemma ex_arc_ok d primal q p l : einv (eq p) d q -> p < d_nn d -> p <> 1 -> ~ In p q -> In l (p_labels P (st d p)) ->
  exists d' q', ex_arc P d primal q p l = Ok (d', q') /\ einv (eq p) d' q' /\ d_nn d <= d_nn d' /\
    (forall i, i < d_nn d -> st d' i = st d i) /\ ~ In p q' /\ d_nn d + length q' = d_nn d' + length q /\
    (forall ls, expd d p ls -> expd d' p ls) /\ expd d' p [l].
Proof.
  intros H Hp Np Nq Hl. pose proof (x_base _ _ _ H) as B. destruct (b_r B) as [R1 R2]. destruct (b_t B) as [T1 T2].
  assert (Nt : st d p <> p_target P) by (rewrite (st_target B Hp); auto).
  assert (Ip : I (st d p)) by (now apply (b_I B)).
  unfold ex_arc. destruct (transition P d primal p l) as [d1 o] eqn:T.
  destruct (transition_spec P _ _ _ _ _ _ (eqb_next HC B Hp Nt Hl) T) as [(-> & -> & NT)|(c & s' & -> & ST & _ & M)].
  - destruct NT as [NT|(s' & loc & _ & E & _)]; [|congruence]. exists d, q. csplit; auto.
    intros l' s' [<-|[]] E. congruence.
  - assert (Is : I s') by (eapply (cl_step P I HC); eauto).
    pose proof (base_made HC B M Is) as B1.
    pose proof (HA _ _ _ Ip Nt Hl ST) as Hm.
    destruct (x_reach _ _ _ H p Hp Np) as (ls0 & v0 & Pa0).
    assert (Pa : path P rs (ls0 ++ [l]) (v0 + p_cost P (st d p) l) s') by (eapply path_snoc; eauto).
    assert (Nrs : s' <> rs).
    { intros ->. destruct (path_m _ _ _ _ HI Pa0) as [[E _]|?]; [rewrite <- E in Hm|]; lia. }
    assert (Hc : c < d_nn d1) by (destruct (m_c M) as [(?&?&?)|(?&?&?)]; lia).
    assert (Hn : d_nn d <= d_nn d1) by (destruct (m_c M) as [(?&?&?)|(?&?&?)]; lia).
    assert (Npc : p <> c).
    { intros ->. pose proof (m_stc M) as E. rewrite (m_st M) in E by auto. rewrite E in Hm. lia. }
    assert (Nc0 : c <> 0).
    { intros ->. apply Nrs. rewrite <- (m_stc M), (m_st M); auto. }
    (* new node, or an existing one that keeps its data *)
    assert (Cs : (c = d_nn d /\ d_nn d1 = S (d_nn d) /\ d_an d1 = d_an d ++ [c] /\ par d1 c = [] /\ bd d1 c = sentinel P /\ c <> 1) \/
                 (c < d_nn d /\ d_nn d1 = d_nn d /\ d_an d1 = d_an d /\ bd d1 c = bd d c /\ (c <> 1 -> par d1 c <> []))).
    { destruct (m_c M) as [(C1&C2&C3)|(C1&C2&C3)].
      - right. assert (NR : ~ resets d c).
        { intros [?|(Q1 & Q2 & Q3)]; [lia|]. rewrite (b_trg B) in Q3. apply (x_live _ _ _ H c); auto; congruence. }
        destruct (m_keep M NR) as [K1 K2]. csplit; auto. intros N1. rewrite (m_par M) by auto. apply (x_live _ _ _ H); auto.
      - left. destruct (m_reset M (or_introl C1)) as [K1 K2]. csplit; auto; [now apply (m_new M)|lia]. }
    destruct (addEdge_ok d1 p c l (p_cost P (st d1 p) l) Npc) as (d2 & E2). rewrite E2. cbn [bind].
    pose proof (base_addEdge _ _ _ _ _ _ B1 E2 ltac:(lia) Hc) as B2.
    apply addEdge_frame in E2 as (_ & F1 & F2 & F3 & F4 & F5 & F6 & F7 & F8).
    assert (S2 : forall i, st d2 i = st d1 i) by (intros i; rewrite F8; fcase; auto).
    assert (Bd2 : forall i, bd d2 i = bd d1 i) by (intros i; rewrite F8; fcase; auto).
    assert (Lb2 : forall i, lab d2 i = lab d1 i) by (intros i; rewrite F8; fcase; auto).
    assert (Pr2 : forall i, i <> c -> par d2 i = par d1 i) by (intros i Ni; rewrite F8; fcase; congruence).
    assert (Pc2 : par d2 c = par d1 c ++ [d_ne d1]) by (rewrite F8; fcase; congruence).
    assert (Ed2 : forall e, e < d_ne d -> d_ed d2 e = d_ed d e).
    { intros e He. rewrite F7, (m_ne M). rewrite fupd_diff by lia. now rewrite (m_ed M). }
    assert (EdN : d_ed d2 (d_ne d) = mkEdge p c (p_cost P (st d p) l) l).
    { rewrite F7, (m_ne M), fupd_same. now rewrite (m_st M) by auto. }
    assert (Ne2 : d_ne d2 = S (d_ne d)) by (rewrite F2, (m_ne M); auto).
    assert (St2 : forall i, i < d_nn d -> st d2 i = st d i) by (intros i Hi; rewrite S2; now apply (m_st M)).
    assert (Sc2 : st d2 c = s') by (rewrite S2; apply (m_stc M)).
    assert (EX : forall ls i, i < d_nn d -> expd d i ls -> expd d2 i ls).
    { intros ls i Hi. apply expd_mono; auto. lia. }
    assert (EXl : expd d2 p [l]).
    { intros l' s2 [<-|[]] E. rewrite St2 in E by auto. exists (d_ne d). rewrite EdN. cbn. csplit; auto; [lia|congruence]. }
    assert (Eqs : p_eqs P (st d2 c) = true <-> c = 1).
    { rewrite (cl_eqs P I HC) by (rewrite Sc2; auto). apply (st_target B2). lia. }
    set (nw := nbParents d1 c =? 0).
    assert (CQ : (negb (p_eqs P (st d2 c)) && nw = true /\ c = d_nn d /\ d_nn d1 = S (d_nn d)) \/
                 (negb (p_eqs P (st d2 c)) && nw = false /\ c < d_nn d /\ d_nn d1 = d_nn d)).
    { destruct Cs as [(C1&C2&C3&C4&C5&C6)|(C1&C2&C3&C4&C5)].
      - left. csplit; auto. apply andb_true_iff. split; [apply negb_true_iff; destruct (p_eqs P (st d2 c)); tauto|].
        unfold nw. now apply Nat.eqb_eq, nbParents_zero.
      - right. csplit; auto. destruct (p_eqs P (st d2 c)) eqn:Q; auto. cbn. unfold nw. apply Nat.eqb_neq. rewrite nbParents_zero.
        apply C5. intros E1. destruct Eqs as [_ Q1]. specialize (Q1 E1). congruence. }
    set (q' := if negb (p_eqs P (st d2 c)) && nw then q ++ [c] else q).
    exists d2, q'. split; [reflexivity|].
    assert (Hq : forall i, In i q' <-> In i q \/ (i = c /\ c = d_nn d)).
    { intros i. unfold q'. destruct CQ as [(-> & C1 & _)|(-> & C1 & _)]; [rewrite in_app_iff; cbn; split; [intros [?|[?|[]]]|intros [?|(?&?)]]; auto|].
      split; auto. intros [?|(?&?)]; auto. lia. }
    csplit; auto.
    + constructor; auto.
      * rewrite F3, F1. destruct Cs as [(C1&C2&C3&_)|(C1&C2&C3&_)].
        -- rewrite C3, C2, (x_an _ _ _ H), seq_snoc, C1. reflexivity.
        -- rewrite C3, C2. apply H.
      * intros i Hi N0 N1. destruct (Nat.eq_dec i c) as [->|Nc]; [rewrite Pc2; destruct (par d1 c); discriminate|].
        rewrite Pr2 by auto. assert (i < d_nn d) by lia. rewrite (m_par M) by auto. now apply (x_live _ _ _ H).
      * intros e He. destruct (Nat.eq_dec e (d_ne d)) as [->|Ne].
        -- rewrite EdN. cbn. rewrite Sc2, St2 by auto. csplit; auto.
        -- assert (He' : e < d_ne d) by lia. rewrite Ed2 by auto. destruct (b_ends B e He') as [Q1 Q2].
           rewrite !St2 by auto. now apply (x_edge _ _ _ H).
      * unfold q'. destruct CQ as [(-> & C1 & _)|(-> & C1 & _)]; [|apply H].
        apply Permutation_NoDup with (c :: q); [apply Permutation_cons_append|]. constructor; [|apply H].
        intros Q. apply (x_q _ _ _ H) in Q. lia.
      * intros i Hi. apply Hq in Hi as [Hi|[-> Hi]].
        -- destruct (x_q _ _ _ H i Hi). split; auto. lia.
        -- split; [lia|]. lia.
      * intros i Hi N1 Ni Nx. assert (i < d_nn d).
        { destruct (Nat.eq_dec i c) as [->|]; [|lia]. destruct CQ as [(_ & Q & _)|(_ & Q & _)]; auto. exfalso. apply Ni, Hq. auto. }
        rewrite St2 by auto. apply EX; auto. apply (x_done _ _ _ H); auto. intros Q. apply Ni, Hq. auto.
      * destruct (x_root _ _ _ H) as (Q1 & Q2 & Q3). rewrite Pr2, Bd2, Lb2 by auto.
        rewrite (m_par M), (m_lab M), (m_bd M) by auto. auto.
      * intros i Hi N0. rewrite Bd2. destruct (Nat.eq_dec i c) as [->|Nc].
        -- destruct Cs as [(C1&C2&C3&C4&C5&_)|(C1&C2&C3&C4&_)]; auto. rewrite C4. now apply (x_sent _ _ _ H).
        -- assert (i < d_nn d) by lia. rewrite (m_bd M) by auto. now apply (x_sent _ _ _ H).
      * intros i Hi N1. destruct (Nat.eq_dec i c) as [->|Nc]; [rewrite Sc2; eauto|].
        assert (i < d_nn d) by lia. rewrite St2 by auto. now apply (x_reach _ _ _ H).
      * rewrite F6, (m_dex M). apply H.
    + lia.
    + intros Q. apply Hq in Q as [Q|[Q _]]; auto.
    + unfold q'. destruct CQ as [(-> & C1 & C2)|(-> & C1 & C2)]; [rewrite app_length; cbn|]; lia.
Qed.

Lemma ex_labels_ok : forall ls d primal q p, einv (eq p) d q -> p < d_nn d -> p <> 1 -> ~ In p q ->
  (forall l, In l ls -> In l (p_labels P (st d p))) ->
  exists d' q', ex_labels P d primal q p ls = Ok (d', q') /\ einv (eq p) d' q' /\ d_nn d <= d_nn d' /\
    (forall i, i < d_nn d -> st d' i = st d i) /\ ~ In p q' /\ d_nn d + length q' = d_nn d' + length q /\
    (forall ls, expd d p ls -> expd d' p ls) /\ expd d' p ls.
Proof.
  induction ls as [|l ls IH]; intros d primal q p H Hp Np Nq Hl; cbn [ex_labels].
  - exists d, q. csplit; auto. intros l s' [].
  - destruct (ex_arc_ok d primal q p l H Hp Np Nq) as (d1 & q1 & E & H1 & A1 & A2 & A3 & A4 & A5 & A6); [apply Hl; now left|].
    rewrite E. cbn [bind].
    destruct (IH d1 primal q1 p H1) as (d2 & q2 & E2 & H2 & B1 & B2 & B3 & B4 & B5 & B6); auto; [lia| |].
    { intros l' Hl'. rewrite A2 by auto. apply Hl. now right. }
    exists d2, q2. csplit; auto; try lia.
    + intros i Hi. rewrite B2 by lia. auto.
    + intros l' s' [<-|Hl']; [|now apply B6]. apply (B5 _ A6). now left.
Qed.

Definition nox : nat -> Prop := fun _ => False.
Lemma einv_open X d p q : einv nox d (p :: q) -> X = eq p -> einv X d q.
Proof.
  intros [? ? ? ? ? ? ? ? ? ? ?] ->. constructor; auto.
  - now apply NoDup_cons_iff in x_nd0.
  - intros i Hi. apply x_q0. now right.
  - intros i Hi N1 Nq Nx. apply x_done0; auto. intros [E|Hin]; auto.
Qed.
Lemma einv_close d p q : einv (eq p) d q -> expd d p (p_labels P (st d p)) -> einv nox d q.
Proof.
  intros [? ? ? ? ? ? ? ? ? ? ?] E. constructor; auto. intros i Hi N1 Nq _. destruct (Nat.eq_dec p i) as [->|N]; auto.
Qed.

(** the loop: correct when it ends, and it ends when there are finitely many states *)
Lemma ex_loop_ok : forall fuel d primal q k, einv nox d q -> d_nn d = 1 + k + length q ->
  (exists d', ex_loop P fuel d primal q = Ok d' /\ einv nox d' []) \/
  (ex_loop P fuel d primal q = Err OutOfFuel /\ exists d' q', einv nox d' q' /\ q' <> [] /\ d_nn d' = 1 + (k + fuel) + length q').
Proof.
  induction fuel as [|f IH]; intros d primal q k H Hk; destruct q as [|p q]; cbn [ex_loop].
  - left. eauto.
  - right. split; auto. exists d, (p :: q). csplit; auto; [discriminate|lia].
  - left. eauto.
  - pose proof (x_nd _ _ _ H) as ND. apply NoDup_cons_iff in ND as [Np _]. destruct (x_q _ _ _ H p (or_introl eq_refl)) as [Hp N1].
    destruct (ex_labels_ok (p_labels P (st d p)) d primal q p) as (d1 & q1 & E & H1 & A1 & A2 & A3 & A4 & A5 & A6); auto.
    { eapply einv_open; eauto. }
    rewrite E. cbn [bind]. cbn in Hk.
    assert (H1' : einv nox d1 q1) by (eapply einv_close; [eauto|now rewrite A2 by auto]).
    destruct (IH d1 primal q1 (S k) H1') as [?|(E1 & d2 & q2 & Q1 & Q2 & Q3)]; auto; [lia|].
    right. split; auto. exists d2, q2. csplit; auto. lia.
Qed.

Lemma reach_bounded X d q (L : list St) : einv X d q -> (forall ls v s, path P rs ls v s -> In s L) -> In (p_target P) L -> d_nn d <= length L.
Proof.
  intros H HLs HT. pose proof (x_base _ _ _ H) as B.
  assert (ND : NoDup (map (fun i => st d i) (seq 0 (d_nn d)))).
  { assert (G : forall l, NoDup l -> (forall i, In i l -> i < d_nn d) -> NoDup (map (fun i => st d i) l)).
    { induction l as [|a l IHl]; intros N F; cbn; [constructor|]. apply NoDup_cons_iff in N as [N1 N2]. constructor.
      - intros Q. apply in_map_iff in Q as (b & E & Hb). apply N1. apply (b_uniq B) in E; [now subst| |]; apply F; cbn; auto.
      - apply IHl; auto. intros; apply F; now right. }
    apply G; [apply seq_NoDup|]. intros i Hi. apply in_seq in Hi. lia. }
  rewrite <- (seq_length (d_nn d) 0), <- (map_length (fun i => st d i)). apply NoDup_incl_length; auto.
  intros s Hs. apply in_map_iff in Hs as (i & <- & Hi). apply in_seq in Hi. destruct (Nat.eq_dec i 1) as [->|N].
  - destruct (b_t B) as [_ ->]. auto.
  - destruct (x_reach _ _ _ H i) as (ls & v & Pa); auto; [lia|]. eauto.
Qed.

(** final graph *)
Lemma einv_wfg d : einv nox d [] -> wfg d (fun i => m (st d i)).
Proof.
  intros H. pose proof (x_base _ _ _ H) as B.
  assert (IN : forall i, In i (d_an d) <-> i < d_nn d) by (intros i; rewrite (x_an _ _ _ H), in_seq; lia).
  constructor.
  - rewrite (x_an _ _ _ H). apply seq_NoDup.
  - intros e He. rewrite !IN. now apply (b_ends B).
  - intros i e Hi. apply (b_par B). now apply IN.
  - intros i e Hi. apply (b_kids B). now apply IN.
  - intros i Hi. apply (b_ndp B). now apply IN.
  - intros i Hi. apply (b_ndk B). now apply IN.
  - intros e He. destruct (x_edge _ _ _ H e He) as (E1 & E2 & E3 & E4). destruct (b_ends B e He) as [E5 E6].
    eapply HA; eauto; [now apply (b_I B)|]. now rewrite (st_target B E5).
Qed.

(** paths of the graph are label sequences of the model, and conversely *)
Lemma gpath_path d : einv nox d [] -> forall i es w j, gpath d i es w j -> path P (st d i) (map (fun e => lbl d e) es) w (st d j).
Proof.
  intros H i es w j G. pose proof (x_base _ _ _ H) as B. induction G as [i|e es v j He G IH]; cbn [map]; [constructor|].
  destruct (x_edge _ _ _ H e He) as (E1 & E2 & E3 & E4). destruct (b_ends B e He) as [E5 E6]. rewrite E3.
  econstructor; eauto. now rewrite (st_target B E5).
Qed.
Lemma path_gpath d : einv nox d [] -> forall s ls v s', path P s ls v s' -> forall i, i < d_nn d -> st d i = s ->
  exists es j, gpath d i es v j /\ j < d_nn d /\ st d j = s'.
Proof.
  intros H s ls v s' Pa. pose proof (x_base _ _ _ H) as B. induction Pa as [s|s l s1 ls v s' N Hl S Pa IH]; intros i Hi E.
  - exists [], i. csplit; auto. constructor.
  - subst s. assert (N1 : i <> 1) by (intros ->; apply N; now apply (b_t B)).
    destruct (x_done _ _ _ H i Hi N1 (fun x => x) (fun x => x) l s1 Hl S) as (e & He & Ef & El & Es).
    destruct (b_ends B e He) as [E5 E6]. destruct (IH (to d e) E6 Es) as (es & j & G & Hj & Ej).
    destruct (x_edge _ _ _ H e He) as (E1 & E2 & E3 & E4). rewrite Ef, El in E3. rewrite <- E3, <- Ef.
    exists (e :: es), j. csplit; auto. now constructor.
Qed.

Lemma started_einv d : started d rs rb rl -> einv nox (with_dexact (target P d) true) [0] /\ d_nn (with_dexact (target P d) true) = 2.
Proof.
  intros H. assert (PP : prepped P (with_dexact (target P d) true) rs rb rl).
  { destruct H. destruct d as [nd nn ed ne an root trg ex]. dsimp. subst. unfold target, makeNode.
    assert (hasNode P (mkDD nd 1 ed 0 [0] (Some 0) None ex) (p_target P) = None) as ->.
    { unfold hasNode. cbn. destruct (p_eqb P (n_state (nd 0)) (p_target P)) eqn:E; auto.
      apply (cl_eqb P I HC) in E; auto; [congruence|apply (cl_target P I HC)]. }
    constructor; reflexivity || (dsimp; fcase; auto; try lia). }
  pose proof (prepped_gen P I HC rs rb rl Hrs HI _ PP) as G. set (d1 := with_dexact (target P d) true) in *. destruct PP. split; auto.
  constructor; auto.
  - apply G.
  - now rewrite pp_an, pp_nn.
  - intros; lia.
  - intros; lia.
  - constructor; [auto|constructor].
  - intros i [<-|[]]. lia.
  - intros i Hi N1 Nq. exfalso. apply Nq. left. lia.
  - intros i Hi N0. replace i with 1 by lia. auto.
  - intros i Hi N1. replace i with 0 by lia. rewrite pp_st. exists [], 0%Z. constructor.
Qed.

Hypothesis Hrange : in_range P rs rb.

Lemma exact_result d d' : einv nox d [] -> computeBest P d = Ok d' ->
  d_trg d' = Some 1 /\ st d' 1 = p_target P /\ d_exact d' = true /\
  (forall V, solution P rs rb V -> be P (bd d' 1) V) /\
  ((exists V, solution P rs rb V) -> genuine P rs rb rl (p_target P) (bd d' 1) (lab d' 1)) /\
  ((forall V, ~ solution P rs rb V) -> bd d' 1 = sentinel P).
Proof.
  intros H E. pose proof (x_base _ _ _ H) as B. destruct (b_r B) as [R1 R2]. destruct (b_t B) as [T1 T2].
  pose proof (einv_wfg d H) as W. destruct (best_ok P d _ W) as (d2 & E2 & BO & BB). rewrite E in E2. injection E2 as <-.
  assert (IN : forall i, In i (d_an d) <-> i < d_nn d) by (intros i; rewrite (x_an _ _ _ H), in_seq; lia).
  destruct (x_root _ _ _ H) as (Pr & Br & Lr).
  assert (B0 : bd d' 0 = rb /\ lab d' 0 = rl).
  { destruct (proj1 (BB 0 (proj2 (IN 0) R1)) Pr) as [-> ->]. unfold bd0. rewrite (b_root B). cbn. auto. }
  destruct B0 as [B0 L0].
  assert (LE : forall es w j, gpath d 0 es w j -> be P (bd d' j) (rb + w)).
  { intros es w j G. rewrite <- B0. eapply (fwd_le P d _ W d' BO BB); eauto. now apply IN. }
  (* every node with a parent is attained through a parent *)
  assert (AT : forall n j, m (st d j) < n -> j < d_nn d -> par d j <> [] \/ j = 0 ->
      exists es w, gpath d 0 es w j /\ bd d' j = (rb + w)%Z /\ lab d' j = rl ++ map (fun e => lbl d e) es).
  { induction n as [|n IH]; intros j Hn Hj L; [lia|]. destruct (Nat.eq_dec j 0) as [->|N0].
    - exists [], 0%Z. csplit; [constructor|lia|]. cbn. now rewrite app_nil_r.
    - destruct L as [L|L]; [|congruence]. destruct (BB j (proj2 (IN j) Hj)) as [_ H2].
      destruct (H2 L) as (_ & _ & [(E1 & _)|(e & He & E1 & E3)]).
      + exfalso. destruct (par d j) as [|e es0] eqn:EP; [congruence|]. assert (He : In e (par d j)) by (rewrite EP; now left).
        apply (b_par B) in He as [He Et]; auto. destruct (b_ends B e He) as [F1 F2].
        destruct (x_edge _ _ _ H e He) as (X1 & _). destruct (x_reach _ _ _ H (from d e) F1 X1) as (ls & v & Pa).
        destruct (path_gpath d H _ _ _ _ Pa 0 R1 R2) as (es & i & G & Hi & Ei).
        apply (b_uniq B) in Ei; auto. subst i.
        pose proof (gpath_snoc d 0 es v e G He) as G2. rewrite Et in G2. pose proof (LE _ _ _ G2) as Q. rewrite E1 in Q.
        pose proof (gpath_path d H _ _ _ _ G2) as Pa2. rewrite R2 in Pa2. specialize (Hrange _ _ _ Pa2). vlia.
      + apply (b_par B) in He as [He Et]; auto. destruct (b_ends B e He) as [F1 F2]. destruct (x_edge _ _ _ H e He) as (X1 & _).
        pose proof (w_f W e He) as Hlt. cbn beta in Hlt. rewrite Et in Hlt.
        destruct (IH (from d e)) as (es & w & G & C1 & C2); auto; [lia| |].
        { destruct (Nat.eq_dec (from d e) 0); auto. left. apply (x_live _ _ _ H); auto. }
        exists (es ++ [e]), (w + obj d e)%Z. csplit.
        * rewrite <- Et. now apply gpath_snoc.
        * lia.
        * rewrite E3, C2, map_app, app_assoc. reflexivity. }
  csplit.
  - rewrite (fo_trg _ _ BO). apply B.
  - rewrite (fo_nd _ _ BO). cbn. auto.
  - rewrite (fo_dex _ _ BO). apply H.
  - intros V (v & (ls & Pa) & ->). destruct (path_gpath d H _ _ _ _ Pa 0 R1 R2) as (es & j & G & Hj & Ej).
    rewrite (st_target B Hj) in Ej. subst j. eauto.
  - intros (V & v & (ls & Pa) & ->). destruct (path_gpath d H _ _ _ _ Pa 0 R1 R2) as (es & j & G & Hj & Ej).
    rewrite (st_target B Hj) in Ej. subst j.
    destruct (AT (S (m (st d 1))) 1) as (es2 & w & G2 & C1 & C2); auto; [left|].
    + intros P1. assert (NE : forall i es w j, gpath d i es w j -> j = 1 -> i <> j -> exists e, e < d_ne d /\ to d e = 1).
      { clear. intros i es w j G. induction G as [i|e es v j He G IH]; intros -> N; [congruence|].
        destruct (Nat.eq_dec (to d e) 1) as [E1|N1]; eauto. }
      destruct (NE _ _ _ _ G eq_refl) as (e & He & Et); [lia|]. assert (Q : In e (par d 1)) by (apply (b_par B); auto).
      rewrite P1 in Q. destruct Q.
    + exists (map (fun e => lbl d e) es2), w. csplit; auto. rewrite <- R2, <- T2. now apply gpath_path.
  - intros NS. destruct (par d 1) as [|e es0] eqn:EP.
    + destruct (proj1 (BB 1 (proj2 (IN 1) T1)) EP) as [-> _]. unfold bd0. rewrite (b_root B). cbn. apply initialBest_sentinel.
    + exfalso. destruct (AT (S (m (st d 1))) 1) as (es2 & w & G2 & C1 & C2); auto; [left; rewrite EP; discriminate|].
      apply (NS (rb + w)%Z). exists w. split; auto. exists (map (fun e => lbl d e) es2). rewrite <- R2, <- T2. now apply gpath_path.
Qed.

Theorem exact_ok d fuel primal d' : started d rs rb rl -> ex_compute P fuel d primal = Ok d' ->
  d_trg d' = Some 1 /\ st d' 1 = p_target P /\ d_exact d' = true /\
  (forall V, solution P rs rb V -> be P (bd d' 1) V) /\
  ((exists V, solution P rs rb V) -> genuine P rs rb rl (p_target P) (bd d' 1) (lab d' 1)) /\
  ((forall V, ~ solution P rs rb V) -> bd d' 1 = sentinel P).
Proof.
  intros S. unfold ex_compute. rewrite (sd_root _ _ _ _ S). destruct (started_einv d S) as [H0 N0].
  destruct (ex_loop_ok fuel _ primal [0] 0 H0) as [(d1 & E & H1)|(E & _)]; [rewrite N0; reflexivity| |rewrite E; discriminate].
  rewrite E. cbn [bind]. now apply exact_result.
Qed.

(** with finitely many reachable states the computation ends without error *)
Theorem exact_terminates d fuel primal (L : list St) : started d rs rb rl ->
  (forall ls v s, path P rs ls v s -> In s L) -> In (p_target P) L -> length L <= fuel ->
  exists d', ex_compute P fuel d primal = Ok d'.
Proof.
  clear Hrange. intros S HLs HT HF. unfold ex_compute. rewrite (sd_root _ _ _ _ S). destruct (started_einv d S) as [H0 N0].
  destruct (ex_loop_ok fuel _ primal [0] 0 H0) as [(d1 & E & H1)|(E & d2 & q2 & H2 & Q & Hn)]; [rewrite N0; reflexivity| |].
  - rewrite E. cbn [bind]. destruct (best_ok P d1 _ (einv_wfg d1 H1)) as (d3 & E3 & _). eauto.
  - exfalso. pose proof (reach_bounded _ _ _ L H2 HLs HT). lia.
Qed.
End E.
