(** Handles: as long as the program does not use objects that ended, addresses behave as references to objects. *)
From Verif Require Import Base HandleModel HandleSpec.

Lemma mget_out m a : ~ In a (map fst m) -> mget m a = None.
Proof. induction m as [|[b v] r IH]; cbn; intros H; auto. destruct (Nat.eqb_spec b a); [tauto|]. apply IH. tauto. Qed.
Lemma mget_mset m a v b : mget m a <> None -> mget (mset m a v) b = if Nat.eqb b a then Some v else mget m b.
Proof.
  induction m as [|[c w] r IH]; cbn; intros H; [congruence|]. destruct (Nat.eqb_spec c a) as [->|N]; cbn.
  - destruct (Nat.eqb_spec a b) as [->|Nb]; [now rewrite Nat.eqb_refl|]. destruct (Nat.eqb_spec b a); [congruence|].
    clear - Nb. induction r as [|[c w'] r IH]; cbn; auto. destruct (Nat.eqb_spec c a) as [->|N]; cbn.
    + destruct (Nat.eqb_spec a b); [congruence|]. exact IH.
    + now rewrite IH.
  - destruct (Nat.eqb_spec c b) as [->|Nb]; [destruct (Nat.eqb_spec b a); [congruence|reflexivity]|]. now apply IH.
Qed.
Lemma mget_mdel m a b : mget (mdel m a) b = if Nat.eqb b a then None else mget m b.
Proof.
  induction m as [|[c w] r IH]; cbn; [now destruct (Nat.eqb b a)|]. destruct (Nat.eqb_spec c a) as [->|N]; cbn.
  - fold (mdel r a). rewrite IH. destruct (Nat.eqb_spec b a); auto. destruct (Nat.eqb_spec a b); congruence.
  - fold (mdel r a). rewrite IH. destruct (Nat.eqb_spec c b) as [->|Nb]; auto. destruct (Nat.eqb_spec b a); congruence.
Qed.
Lemma mset_dom m a v : map fst (mset m a v) = map fst m.
Proof. unfold mset. rewrite map_map. apply map_ext. intros [b w]; cbn. now destruct (Nat.eqb b a). Qed.
Lemma mdel_dom m a x : In x (map fst (mdel m a)) -> In x (map fst m).
Proof. rewrite !in_map_iff. intros (p & <- & H). apply filter_In in H as [H _]. eauto. Qed.
Lemma mget_in m a v : mget m a = Some v -> In a (map fst m).
Proof. intros H. destruct (in_dec Nat.eq_dec a (map fst m)) as [|N]; auto. now rewrite (mget_out _ _ N) in H. Qed.

Lemma oset_len l : forall i x, length (oset l i x) = length l.
Proof. induction l as [|y r IH]; intros [|i] x; cbn; auto. Qed.
Lemma oset_nth l : forall i x j, i < length l -> nth j (oset l i x) None = if Nat.eqb j i then x else nth j l None.
Proof. induction l as [|y r IH]; intros i x j H; cbn in H; [lia|]. destruct i as [|i], j as [|j]; cbn; auto. apply IH; lia. Qed.

(** [al]: the address each object got *)
Record hrel (al : list nat) (s : hst) (t : ost) : Prop := {
  hr_len : length al = length (o_obj t);
  hr_ptr : forall h, h_ptr s h = match o_ref t h with None => 0 | Some i => nth i al 0 end;
  hr_ref : forall h i, o_ref t h = Some i -> i < length al;
  hr_pos : forall i, i < length al -> nth i al 0 <> 0;
  hr_val : forall i v, nth i (o_obj t) None = Some v -> mget (h_mem s) (nth i al 0) = Some v;
  hr_inj : forall i j v w, nth i (o_obj t) None = Some v -> nth j (o_obj t) None = Some w -> nth i al 0 = nth j al 0 -> i = j;
  hr_nul : forall a, In a (map fst (h_mem s)) -> a <> 0 }.
Lemma live_lt (l : list (option Z)) i v : nth i l None = Some v -> i < length l.
Proof. intros H. destruct (lt_dec i (length l)); auto. rewrite nth_overflow in H; [discriminate|lia]. Qed.
Lemma hrel_empty : hrel [] h_empty o_empty.
Proof. constructor; cbn; intros; try discriminate; try lia; auto; destruct i; discriminate. Qed.
Lemma hrel_null al s t h : hrel al s t -> hbool (h_ptr s h) = negb (o_null t h).
Proof.
  intros R. unfold hbool, o_null. rewrite (hr_ptr _ _ _ R). destruct (o_ref t h) as [i|] eqn:E; [|reflexivity].
  pose proof (hr_pos _ _ _ R i (hr_ref _ _ _ R h i E)). destruct (Nat.eqb_spec (nth i al 0) 0); [congruence|reflexivity].
Qed.
Lemma hrel_val al s t h v : hrel al s t -> o_val t h = Some v -> exists i, o_ref t h = Some i /\ nth i (o_obj t) None = Some v /\ h_ptr s h = nth i al 0 /\
  mget (h_mem s) (h_ptr s h) = Some v.
Proof.
  intros R. unfold o_val. rewrite (hr_ptr _ _ _ R). destruct (o_ref t h) as [i|]; [|discriminate]. intros H. exists i. repeat (split; auto). now apply (hr_val _ _ _ R).
Qed.
Lemma hrel_refs al s t h x p : hrel al s t -> p = match x with None => 0 | Some i => nth i al 0 end -> (forall i, x = Some i -> i < length al) ->
  hrel al (mkH (h_mem s) (fupd (h_ptr s) h p)) (mkO (o_obj t) (fupd (o_ref t) h x)).
Proof.
  intros R Ep Hx. destruct R. constructor; cbn; auto.
  - intros g. rewrite !fupd_eq. destruct (Nat.eqb g h); auto.
  - intros g i. rewrite fupd_eq. destruct (Nat.eqb g h); eauto.
Qed.

Section Proofs.
Variable alloc : heapm -> nat.
Hypothesis HA : allocator alloc.
Lemma step_ok al s t o t' a : hrel al s t -> o_step t o = Some (t', a) -> exists s' al', h_step alloc s o = Ok (s', a) /\ hrel al' s' t'.
Proof.
  intros R. destruct o as [h v|h|h g|h g|h|h v|h|h g|h g|h]; cbn [o_step h_step].
  - intros [= <- <-]. destruct (HA (h_mem s)) as [N0 Nf]. set (a := alloc (h_mem s)) in *. exists (mkH ((a, v) :: h_mem s) (fupd (h_ptr s) h a)), (al ++ [a]). split; auto.
    assert (Old : forall i, i < length al -> nth i (al ++ [a]) 0 = nth i al 0) by (intros; now apply app_nth1).
    assert (New : nth (length al) (al ++ [a]) 0 = a) by (rewrite app_nth2, Nat.sub_diag; auto).
    assert (OO : forall i w, nth i (o_obj t ++ [Some v]) None = Some w -> (i < length al /\ nth i (o_obj t) None = Some w) \/ (i = length al /\ w = v)).
    { intros i w H. rewrite (hr_len _ _ _ R). destruct (lt_dec i (length (o_obj t))); [left; split; auto; now rewrite app_nth1 in H|right].
      pose proof (live_lt _ _ _ H) as Hl. rewrite app_length in Hl. cbn in Hl. assert (i = length (o_obj t)) by lia. subst. rewrite app_nth2, Nat.sub_diag in H by lia. cbn in H. now injection H. }
    constructor; cbn.
    + rewrite !app_length. cbn. now rewrite (hr_len _ _ _ R).
    + intros g. rewrite !fupd_eq. destruct (Nat.eqb g h); [now rewrite <- (hr_len _ _ _ R)|]. rewrite (hr_ptr _ _ _ R). destruct (o_ref t g) as [i|] eqn:Eg; auto.
      symmetry. apply Old. now apply (hr_ref _ _ _ R g).
    + intros g i. rewrite fupd_eq, app_length. cbn. destruct (Nat.eqb g h); [intros [= <-]; rewrite (hr_len _ _ _ R); lia|]. intros Eg. pose proof (hr_ref _ _ _ R g i Eg). lia.
    + intros i. rewrite app_length. cbn. intros Hi. destruct (Nat.eq_dec i (length al)) as [->|]; [now rewrite New|]. rewrite Old by lia. apply (hr_pos _ _ _ R). lia.
    + intros i w H. destruct (OO i w H) as [[A B]|[-> ->]]; [|now rewrite New, Nat.eqb_refl]. rewrite Old by auto. pose proof (hr_val _ _ _ R i w B) as Hv.
      destruct (Nat.eqb_spec a (nth i al 0)) as [Ea|]; auto. exfalso. apply Nf. rewrite Ea. now apply mget_in in Hv.
    + assert (Fr : forall i w, i < length al -> nth i (o_obj t) None = Some w -> nth i al 0 <> a).
      { intros i w A B Ea. apply Nf. rewrite <- Ea. pose proof (hr_val _ _ _ R i w B) as Hv. now apply mget_in in Hv. }
      intros i j x y Hi Hj. destruct (OO i x Hi) as [[A B]|[-> ->]], (OO j y Hj) as [[C D]|[-> ->]]; rewrite ?New, ?Old by auto; auto.
      * intros H. exact (hr_inj _ _ _ R i j x y B D H).
      * intros H. exfalso. exact (Fr i x A B H).
      * intros H. exfalso. exact (Fr j y C D (eq_sym H)).
    + intros x [<-|H]; auto. now apply (hr_nul _ _ _ R).
  - intros [= <- <-]. do 2 eexists. split; [reflexivity|]. apply (hrel_refs al s t h None 0 R); [reflexivity|discriminate].
  - intros [= <- <-]. do 2 eexists. split; [reflexivity|]. apply (hrel_refs al s t h (o_ref t g) (h_ptr s g) R); [apply (hr_ptr _ _ _ R)|apply (hr_ref _ _ _ R)].
  - intros [= <- <-]. do 2 eexists. split; [reflexivity|]. apply (hrel_refs al s t h (o_ref t g) (h_ptr s g) R); [apply (hr_ptr _ _ _ R)|apply (hr_ref _ _ _ R)].
  - destruct (o_val t h) as [v|] eqn:E; [|discriminate]. intros [= <- <-]. destruct (hrel_val _ _ _ _ _ R E) as (i & _ & _ & _ & ->). eauto.
  - destruct (o_ref t h) as [i|] eqn:Er; [|discriminate]. destruct (o_val t h) as [u|] eqn:E; [|discriminate]. intros [= <- <-].
    destruct (hrel_val _ _ _ _ _ R E) as (i' & Ei & Lv & Ep & Em). rewrite Er in Ei. injection Ei as <-. rewrite Em. exists (mkH (mset (h_mem s) (h_ptr s h) v) (h_ptr s)), al. split; auto.
    pose proof (live_lt _ _ _ Lv) as Li.
    assert (Lw : forall j x, nth j (oset (o_obj t) i (Some v)) None = Some x -> exists y, nth j (o_obj t) None = Some y).
    { intros j x. rewrite oset_nth by auto. destruct (Nat.eqb_spec j i) as [->|]; eauto. }
    constructor; cbn.
    + now rewrite oset_len, (hr_len _ _ _ R).
    + apply (hr_ptr _ _ _ R).
    + apply (hr_ref _ _ _ R).
    + apply (hr_pos _ _ _ R).
    + intros j x H. rewrite mget_mset by congruence. destruct (Lw j x H) as [y Hy]. rewrite oset_nth in H by auto. rewrite Ep. destruct (Nat.eqb_spec j i) as [->|N]; [now rewrite Nat.eqb_refl|].
      destruct (Nat.eqb_spec (nth j al 0) (nth i al 0)) as [Ea|]; [elim N; exact (hr_inj _ _ _ R j i y u Hy Lv Ea)|]. now apply (hr_val _ _ _ R).
    + intros j k x y Hj Hk. destruct (Lw j x Hj) as [x' Hx], (Lw k y Hk) as [y' Hy]. exact (hr_inj _ _ _ R j k x' y' Hx Hy).
    + rewrite mset_dom. apply (hr_nul _ _ _ R).
  - intros [= <- <-]. rewrite (hrel_null al s t h R). eauto.
  - destruct (dangling t h || dangling t g) eqn:D; [discriminate|]. intros [= <- <-]. apply orb_false_iff in D as [D1 D2]. exists s, al. split; auto. do 3 f_equal. f_equal.
    rewrite !(hr_ptr _ _ _ R). unfold dangling, o_null, o_val in D1, D2. destruct (o_ref t h) as [i|] eqn:Eh, (o_ref t g) as [j|] eqn:Eg; cbn in *.
    + destruct (nth i (o_obj t) None) as [x|] eqn:Hx; [|discriminate]. destruct (nth j (o_obj t) None) as [y|] eqn:Hy; [|discriminate].
      destruct (Nat.eqb_spec i j) as [->|N]; [now rewrite Nat.eqb_refl|]. destruct (Nat.eqb_spec (nth i al 0) (nth j al 0)) as [Ea|]; auto. elim N. exact (hr_inj _ _ _ R i j x y Hx Hy Ea).
    + pose proof (hr_pos _ _ _ R i (hr_ref _ _ _ R h i Eh)). destruct (Nat.eqb_spec (nth i al 0) 0); congruence.
    + pose proof (hr_pos _ _ _ R j (hr_ref _ _ _ R g j Eg)). destruct (nth j al 0); congruence.
    + reflexivity.
  - intros [= <- <-]. rewrite !(hrel_null al s t _ R). exists s, al. split; auto. now destruct (o_null t h), (o_null t g).
  - pose proof (hrel_null al s t h R) as Nb. unfold hbool in Nb. destruct (o_ref t h) as [i|] eqn:Er.
    + assert (o_null t h = false) as N1 by (unfold o_null; now rewrite Er). rewrite N1 in Nb. destruct (Nat.eqb (h_ptr s h) 0); [discriminate|].
      destruct (o_val t h) as [u|] eqn:E; [|discriminate]. intros [= <- <-]. destruct (hrel_val _ _ _ _ _ R E) as (i' & Ei & Lv & Ep & Em). rewrite Er in Ei. injection Ei as <-. rewrite Em.
      exists (mkH (mdel (h_mem s) (h_ptr s h)) (fupd (h_ptr s) h 0)), al. split; auto. pose proof (live_lt _ _ _ Lv) as Li.
      assert (Lw : forall j x, nth j (oset (o_obj t) i None) None = Some x -> j <> i /\ nth j (o_obj t) None = Some x).
      { intros j x. rewrite oset_nth by auto. destruct (Nat.eqb_spec j i); [discriminate|auto]. }
      constructor; cbn.
      * now rewrite oset_len, (hr_len _ _ _ R).
      * intros g. rewrite !fupd_eq. destruct (Nat.eqb g h); auto. apply (hr_ptr _ _ _ R).
      * intros g j. rewrite fupd_eq. destruct (Nat.eqb g h); [discriminate|]. apply (hr_ref _ _ _ R).
      * apply (hr_pos _ _ _ R).
      * intros j x H. destruct (Lw j x H) as [N Hx]. rewrite mget_mdel, Ep. destruct (Nat.eqb_spec (nth j al 0) (nth i al 0)) as [Ea|].
        -- elim N. exact (hr_inj _ _ _ R j i x u Hx Lv Ea).
        -- now apply (hr_val _ _ _ R).
      * intros j k x y Hj Hk. destruct (Lw j x Hj) as [_ Hx], (Lw k y Hk) as [_ Hy]. exact (hr_inj _ _ _ R j k x y Hx Hy).
      * intros x Hx. apply mdel_dom in Hx. now apply (hr_nul _ _ _ R).
    + assert (o_null t h = true) as N1 by (unfold o_null; now rewrite Er). rewrite N1 in Nb. destruct (Nat.eqb (h_ptr s h) 0); [|discriminate]. intros [= <- <-]. eauto.
Qed.
Lemma run_ok : forall os al s t t' obs, hrel al s t -> o_run t os = Some (t', obs) -> exists s' al', h_run alloc s os = Ok (s', obs) /\ hrel al' s' t'.
Proof.
  induction os as [|o r IH]; intros al s t t' obs R; cbn [o_run h_run].
  - intros [= <- <-]. eauto.
  - destruct (o_step t o) as [[t1 a]|] eqn:E; [|discriminate]. destruct (o_run t1 r) as [[t2 b]|] eqn:E2; [|discriminate]. intros [= <- <-].
    destruct (step_ok _ _ _ _ _ _ R E) as (s1 & al1 & -> & R1). destruct (IH _ _ _ _ _ R1 E2) as (s2 & al2 & E3 & R2). cbn [bind]. rewrite E3. cbn [bind]. eauto.
Qed.
Theorem handles_refine os t obs : o_run o_empty os = Some (t, obs) -> exists s, h_run alloc h_empty os = Ok (s, obs).
Proof. intros H. destruct (run_ok _ _ _ _ _ _ hrel_empty H) as (s & _ & E & _). eauto. Qed.

(** every object lives *)
Definition all_live (t : ost) : Prop := forall i, i < length (o_obj t) -> nth i (o_obj t) None <> None.
Lemma live_val al s t h : hrel al s t -> all_live t -> o_val t h = None -> mget (h_mem s) (h_ptr s h) = None.
Proof.
  intros R A. unfold o_val. rewrite (hr_ptr _ _ _ R). destruct (o_ref t h) as [i|] eqn:E.
  - intros H. exfalso. apply (A i); auto. rewrite <- (hr_len _ _ _ R). now apply (hr_ref _ _ _ R h).
  - intros _. apply mget_out. intros H. now apply (hr_nul _ _ _ R) in H.
Qed.
Lemma live_dangling al s t h : hrel al s t -> all_live t -> dangling t h = false.
Proof.
  intros R A. unfold dangling, o_null, o_val. destruct (o_ref t h) as [i|] eqn:E; auto. cbn. destruct (nth i (o_obj t) None) eqn:F; auto. exfalso. apply (A i); auto.
  rewrite <- (hr_len _ _ _ R). now apply (hr_ref _ _ _ R h).
Qed.
Lemma step_live t o t' a : (forall h, o <> HFree h) -> all_live t -> o_step t o = Some (t', a) -> all_live t'.
Proof.
  intros NF A. destruct o as [h v|h|h g|h g|h|h v|h|h g|h g|h]; cbn [o_step]; try (intros [= <- <-]; exact A).
  - intros [= <- <-] i. cbn. rewrite app_length. cbn. intros Hi. destruct (lt_dec i (length (o_obj t))); [rewrite app_nth1 by auto; now apply A|].
    rewrite app_nth2 by lia. replace (i - length (o_obj t)) with 0 by lia. discriminate.
  - destruct (o_val t h); [|discriminate]. intros [= <- <-]. exact A.
  - destruct (o_ref t h) as [i|]; [|discriminate]. destruct (o_val t h) as [u|] eqn:E; [|discriminate]. intros [= <- <-] j. cbn. rewrite oset_len. intros Hj.
    destruct (lt_dec i (length (o_obj t))) as [Hi|Hi].
    + rewrite oset_nth by auto. destruct (Nat.eqb j i); [discriminate|]. now apply A.
    + assert (oset (o_obj t) i (Some v) = o_obj t) as ->; [|now apply A]. clear - Hi. revert i Hi. induction (o_obj t) as [|y r IH]; intros [|i] H; cbn in *; auto; [lia|]. f_equal. apply IH. lia.
  - destruct (_ || _); [discriminate|]. intros [= <- <-]. exact A.
  - now elim (NF h).
Qed.
Lemma step_fault al s t o : hrel al s t -> all_live t -> (forall h, o <> HFree h) -> o_step t o = None -> h_step alloc s o = Err UB.
Proof.
  intros R A NF. destruct o as [h v|h|h g|h g|h|h v|h|h g|h g|h]; cbn [o_step h_step]; try discriminate.
  - destruct (o_val t h) eqn:E; [discriminate|]. now rewrite (live_val _ _ _ _ R A E).
  - destruct (o_val t h) eqn:E; [|now rewrite (live_val _ _ _ _ R A E)]. unfold o_val in E. destruct (o_ref t h); [discriminate|discriminate].
  - rewrite !(live_dangling _ _ _ _ R A). discriminate.
  - now elim (NF h).
Qed.
Lemma run_fault : forall os al s t, hrel al s t -> all_live t -> no_free os -> o_run t os = None -> h_run alloc s os = Err UB.
Proof.
  induction os as [|o r IH]; intros al s t R A NF; cbn [o_run h_run]; [discriminate|].
  assert (N1 : forall h, o <> HFree h) by (intros h ->; apply (NF h); now left). assert (N2 : no_free r) by (intros h Hh; apply (NF h); now right).
  destruct (o_step t o) as [[t1 a]|] eqn:E.
  - destruct (step_ok _ _ _ _ _ _ R E) as (s1 & al1 & -> & R1). cbn [bind]. destruct (o_run t1 r) as [[t2 b]|] eqn:E2; [discriminate|]. intros _.
    rewrite (IH _ _ _ R1 (step_live _ _ _ _ N1 A E) N2 E2). reflexivity.
  - intros _. now rewrite (step_fault _ _ _ _ R A N1 E).
Qed.
Theorem handles_no_free os : no_free os ->
  match o_run o_empty os with Some (_, obs) => exists s, h_run alloc h_empty os = Ok (s, obs) | None => h_run alloc h_empty os = Err UB end.
Proof.
  intros NF. destruct (o_run o_empty os) as [[t obs]|] eqn:E; [now apply (handles_refine os t)|].
  apply (run_fault os [] h_empty o_empty); auto; [apply hrel_empty|]. intros i Hi. cbn in Hi. lia.
Qed.
End Proofs.
Lemma bump_ok : allocator bump.
Proof.
  intros m. unfold bump. split; [lia|]. intros H. pose proof (proj1 (list_max_le (map fst m) (list_max (map fst m))) (le_n _)) as F. rewrite Forall_forall in F. specialize (F _ H). lia.
Qed.
