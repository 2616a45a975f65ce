(** Finite models given by tables, with a checker for the hypotheses of the theorems.  Used only to write examples and
    counterexamples; nothing here models code of the repository. *)
From Verif Require Import Base DDModel DDSpec DDFrame.

(** source, label, destination, cost *)
Definition row := (nat * Z * nat * Z)%type.
Definition rw (a : nat) (l : Z) (b : nat) (c : Z) : row := (a, l, b, c).
Definition r_from (x : row) : nat := fst (fst (fst x)).
Definition r_lbl (x : row) : Z := snd (fst (fst x)).
Definition r_to (x : row) : nat := snd (fst x).
Definition r_cost (x : row) : Z := snd x.

Record tab := mkTab {
  t_rows : list row;
  t_last : nat;                              (* the target is the last state; steps go to larger numbers *)
  t_rank : list nat;                         (* rank of states 0,1,2,... *)
  t_merge : list (nat * nat * nat);          (* a, b, merged *)
  t_local : option (list Z);                 (* local bound of states 0,1,2,... *)
  t_dom : option (list (nat * nat));         (* (a,b): a dominates b *)
  t_min : bool }.

Definition look (T : tab) (s : nat) (l : Z) : option row :=
  find (fun x => (r_from x =? s) && (r_lbl x =? l)%Z) (t_rows T).
Definition tabP (T : tab) : prob nat :=
  mkProb nat 0 (t_last T)
    (fun s => map r_lbl (filter (fun x => r_from x =? s) (t_rows T)))
    (fun s l => option_map r_to (look T s l))
    (fun s l => match look T s l with Some x => r_cost x | None => 0%Z end)
    (fun a b => option_map snd (find (fun x => (fst (fst x) =? a) && (snd (fst x) =? b)) (t_merge T)))
    (fun s => s =? t_last T)
    (option_map (fun tl s (_ : bool) => nth s tl 0%Z) (t_local T))
    (option_map (fun dl a b => existsb (fun x => (fst x =? a) && (snd x =? b)) dl) (t_dom T))
    (t_min T) Nat.eqb.
Definition tabRank (T : tab) (s : nat) : nat := nth s (t_rank T) 0.
Definition inTab (T : tab) (s : nat) : Prop := s <= t_last T.

Definition beb {St} (P : prob St) (a b : Z) : bool := negb (isBetter P b a).
Fixpoint compls (T : tab) (fuel : nat) (s : nat) : list Z :=
  if s =? t_last T then [0%Z]
  else match fuel with
  | O => []
  | S f => flat_map (fun l => match look T s l with Some x => map (Z.add (r_cost x)) (compls T f (r_to x)) | None => [] end)
             (p_labels (tabP T) s)
  end.
Fixpoint prefixes (T : tab) (fuel : nat) (s : nat) : list Z :=
  0%Z :: if s =? t_last T then []
  else match fuel with
  | O => []
  | S f => flat_map (fun l => match look T s l with Some x => map (Z.add (r_cost x)) (prefixes T f (r_to x)) | None => [] end)
             (p_labels (tabP T) s)
  end.
Definition incr_ok (T : tab) : bool := forallb (fun x => (r_from x <? r_to x) && (r_to x <=? t_last T)) (t_rows T).
Definition relaxb (T : tab) (a b : nat) : bool :=
  forallb (fun v => existsb (fun v' => beb (tabP T) v' v) (compls T (S (t_last T)) a)) (compls T (S (t_last T)) b).
Definition rank_ok (T : tab) : bool :=
  forallb (fun x => (r_from x =? t_last T) || (r_to x =? t_last T) || (tabRank T (r_to x) =? S (tabRank T (r_from x)))) (t_rows T).
Definition depth_ok (T : tab) (N : nat) : bool := forallb (fun k => k <=? N) (t_rank T).
Definition merge_ok (T : tab) : bool :=
  forallb (fun x => let '(a, b, m) := x in
    (a =? t_last T) || (b =? t_last T) || negb (tabRank T a =? tabRank T b) ||
    ((m <? t_last T) && (tabRank T m =? tabRank T a) && relaxb T m a && relaxb T m b)) (t_merge T).
Definition dom_ok (T : tab) : bool := match t_dom T with None => true | Some dl =>
  forallb (fun x => let '(a, b) := x in
    (a =? t_last T) || (b =? t_last T) || negb (tabRank T a =? tabRank T b) || relaxb T a b) dl end.
(** also for the target *)
Definition dom_ok_full (T : tab) : bool := match t_dom T with None => true | Some dl =>
  forallb (fun x => let '(a, b) := x in relaxb T a b) dl end.
Definition domt_ok (T : tab) : bool := match t_dom T with None => true | Some dl =>
  forallb (fun x => let '(a, b) := x in negb (b =? t_last T)) dl end.
Definition local_ok (T : tab) : bool := match t_local T with None => true | Some tl =>
  forallb (fun s => forallb (fun v => beb (tabP T) (nth s tl 0%Z) v) (compls T (S (t_last T)) s)) (seq 0 (S (t_last T))) end.
Definition range_ok (T : tab) (rs : nat) (rb : Z) : bool :=
  forallb (fun v => isBetter (tabP T) (rb + v) (initialBest (tabP T))) (prefixes T (S (t_last T)) rs).
Definition tab_ok (T : tab) (N : nat) : bool :=
  incr_ok T && rank_ok T && depth_ok T N && merge_ok T && dom_ok T && domt_ok T && local_ok T.

Section Check.
Variable T : tab.
Notation P := (tabP T).
Hypothesis HI : incr_ok T = true.

Lemma beb_be a b : beb P a b = true <-> be P a b.
Proof. unfold beb. rewrite negb_true_iff. apply isBetter_nbt. Qed.
Lemma look_in s l x : look T s l = Some x -> In x (t_rows T) /\ r_from x = s /\ r_lbl x = l.
Proof. unfold look. intros H. apply find_some in H as [H1 H2]. apply andb_true_iff in H2 as [H2 H3]. csplit; auto; lia. Qed.
Lemma row_incr x : In x (t_rows T) -> r_from x < r_to x /\ r_to x <= t_last T.
Proof. intros H. unfold incr_ok in HI. rewrite forallb_forall in HI. specialize (HI x H). lia. Qed.
Lemma stf_look s l s' : p_stf P s l = Some s' -> exists x, look T s l = Some x /\ r_to x = s' /\ p_cost P s l = r_cost x.
Proof. cbn. destruct (look T s l) as [x|]; [|discriminate]. cbn. intros [= <-]. eauto. Qed.

Lemma compls_sound : forall fuel s v, In v (compls T fuel s) -> compl P s v.
Proof.
  induction fuel as [|fuel IH]; intros s v H; cbn [compls] in H; destruct (Nat.eqb_spec s (t_last T)) as [->|N].
  - destruct H as [<-|[]]. now apply compl_target.
  - destruct H.
  - destruct H as [<-|[]]. now apply compl_target.
  - apply in_flat_map in H as (l & Hl & H). destruct (look T s l) as [x|] eqn:E; [|destruct H].
    apply in_map_iff in H as (v' & <- & H). apply IH in H.
    assert (Ec : r_cost x = p_cost P s l) by (cbn; now rewrite E). rewrite Ec.
    eapply compl_cons; eauto. cbn. now rewrite E.
Qed.
Lemma compls_complete : forall fuel s v, t_last T - s < fuel -> compl P s v -> In v (compls T fuel s).
Proof.
  induction fuel as [|fuel IH]; intros s v F H; [lia|]. cbn [compls]. destruct (Nat.eqb_spec s (t_last T)) as [->|N].
  - apply (compl_target P) in H. subst. now left.
  - apply compl_inv in H as (l & s' & v' & Hl & S & H & ->); auto. apply stf_look in S as (x & E & <- & ->).
    apply in_flat_map. exists l. split; auto. rewrite E. apply in_map. apply IH; auto.
    apply look_in in E as (Hx & <- & _). apply row_incr in Hx. lia.
Qed.
Lemma compls_iff s v : compl P s v <-> In v (compls T (S (t_last T)) s).
Proof. split; [apply compls_complete; lia|apply compls_sound]. Qed.
Lemma relaxb_ok a b : relaxb T a b = true -> relaxes P a b.
Proof.
  intros H v Hv. apply compls_iff in Hv. unfold relaxb in H. rewrite forallb_forall in H. specialize (H v Hv).
  apply existsb_exists in H as (v' & H1 & H2). exists v'. split; [now apply compls_iff|now apply beb_be].
Qed.
Lemma prefixes_complete : forall fuel s ls v t, t_last T - s < fuel -> path P s ls v t -> In v (prefixes T fuel s).
Proof.
  induction fuel as [|fuel IH]; intros s ls v t F H; [lia|]. cbn [prefixes]. inversion H as [|s0 l s' ls' v' t' N Hl S H']; subst; [now left|].
  right. destruct (Nat.eqb_spec s (t_last T)) as [->|_]; [exfalso; apply N; reflexivity|]. apply stf_look in S as (x & E & <- & ->).
  apply in_flat_map. exists l. split; auto. rewrite E. apply in_map. eapply IH; eauto.
  apply look_in in E as (Hx & <- & _). apply row_incr in Hx. lia.
Qed.
Lemma tab_range rs rb : range_ok T rs rb = true -> in_range P rs rb.
Proof.
  intros H ls v s Hp. unfold range_ok in H. rewrite forallb_forall in H. eapply prefixes_complete in Hp; [|apply (Nat.lt_succ_r (t_last T - rs) (t_last T)); lia].
  apply H in Hp. now apply isBetter_bt in Hp.
Qed.
Lemma tab_closed : closed P (inTab T).
Proof.
  constructor.
  - intros a b _ _. apply Nat.eqb_eq.
  - intros s _. apply Nat.eqb_eq.
  - unfold inTab. cbn. lia.
  - intros s l s' _ _ _ S. apply stf_look in S as (x & E & <- & _). apply look_in in E as (Hx & _). now apply row_incr in Hx.
Qed.
Lemma tab_layered : rank_ok T = true -> layered P (inTab T) (tabRank T).
Proof.
  intros H s l s' _ N Hl S N'. apply stf_look in S as (x & E & <- & _). apply look_in in E as (Hx & <- & _).
  unfold rank_ok in H. rewrite forallb_forall in H. specialize (H x Hx). cbn in N, N'. lia.
Qed.
Lemma tab_depth N : depth_ok T N = true -> depth_le P (inTab T) (tabRank T) N.
Proof.
  intros H s _ _. unfold tabRank. destruct (nth_in_or_default s (t_rank T) 0) as [Hin| ->]; [|lia].
  unfold depth_ok in H. rewrite forallb_forall in H. specialize (H _ Hin). lia.
Qed.
Lemma tab_smf a b m : p_smf P a b = Some m -> In (a, b, m) (t_merge T).
Proof.
  cbn. destruct (find _ (t_merge T)) as [[[a' b'] m']|] eqn:E; [|discriminate]. cbn. intros [= <-].
  apply find_some in E as [E1 E2]. cbn in E2. assert (a' = a /\ b' = b) as [-> ->] by lia. auto.
Qed.
Lemma tab_merge : merge_ok T = true -> merge_layered P (inTab T) (tabRank T) /\ valid_merge P (inTab T) (tabRank T).
Proof.
  intros H. unfold merge_ok in H. rewrite forallb_forall in H.
  assert (G : forall a b m, a <> p_target P -> b <> p_target P -> tabRank T a = tabRank T b -> p_smf P a b = Some m ->
    m < t_last T /\ tabRank T m = tabRank T a /\ relaxb T m a = true /\ relaxb T m b = true).
  { intros a b m Na Nb R E. apply tab_smf in E. specialize (H _ E). cbn [p_target tabP] in Na, Nb; cbn iota beta in H. csplit; lia. }
  split; intros a b m _ _ Na Nb R E; destruct (G a b m Na Nb R E) as (G1 & G2 & G3 & G4).
  - csplit; auto; [unfold inTab; lia|cbn; lia].
  - split; now apply relaxb_ok.
Qed.
Definition total_ok : bool := forallb (fun a => forallb (fun b => negb (tabRank T a =? tabRank T b) ||
   match p_smf P a b with Some _ => true | None => false end) (seq 0 (t_last T))) (seq 0 (t_last T)).
Lemma tab_total : total_ok = true -> forall a b, inTab T a -> inTab T b -> a <> p_target P -> b <> p_target P ->
  tabRank T a = tabRank T b -> p_smf P a b <> None.
Proof.
  unfold total_ok. rewrite forallb_forall. intros H a b Ia Ib Na Nb R. unfold inTab in *. cbn [p_target tabP] in Na, Nb.
  specialize (H a ltac:(apply in_seq; lia)). rewrite forallb_forall in H. specialize (H b ltac:(apply in_seq; lia)). cbn beta in H.
  rewrite R, Nat.eqb_refl in H. cbn [negb orb] in H. destruct (p_smf P a b); congruence.
Qed.
Lemma tab_sdom sdom a b : p_sdom P = Some sdom -> sdom a b = true -> exists dl, t_dom T = Some dl /\ In (a, b) dl.
Proof.
  cbn. destruct (t_dom T) as [dl|]; [|discriminate]. cbn. intros [= <-] H. apply existsb_exists in H as ([a' b'] & H1 & H2). cbn in H2.
  assert (a' = a /\ b' = b) as [-> ->] by lia. eauto.
Qed.
Lemma tab_dom : dom_ok T = true -> valid_dom P (inTab T) (tabRank T).
Proof.
  intros H sdom a b E _ _ Na Nb R D. destruct (tab_sdom _ _ _ E D) as (dl & Ed & Hin). unfold dom_ok in H. rewrite Ed in H.
  rewrite forallb_forall in H. specialize (H _ Hin). cbn [p_target tabP] in Na, Nb; cbn iota beta in H. apply relaxb_ok. lia.
Qed.
Lemma tab_dom_full : dom_ok_full T = true -> forall sdom a b, p_sdom P = Some sdom -> sdom a b = true -> relaxes P a b.
Proof.
  intros H sdom a b E D. destruct (tab_sdom _ _ _ E D) as (dl & Ed & Hin). unfold dom_ok_full in H. rewrite Ed in H.
  rewrite forallb_forall in H. specialize (H _ Hin). now apply relaxb_ok.
Qed.
Lemma tab_domt : domt_ok T = true -> dom_avoids_target P (inTab T) (tabRank T).
Proof.
  intros H sdom a s l E _ _ _ _ _ _ _. destruct (sdom a (p_target P)) eqn:D; auto. destruct (tab_sdom _ _ _ E D) as (dl & Ed & Hin).
  unfold domt_ok in H. rewrite Ed in H. rewrite forallb_forall in H. specialize (H _ Hin). cbn in H. lia.
Qed.
Lemma tab_local : local_ok T = true -> valid_local P (inTab T).
Proof.
  intros H local s ctx v E _ C. unfold local_ok in H. cbn in E. destruct (t_local T) as [tl|]; [|discriminate]. cbn in E. injection E as <-.
  rewrite forallb_forall in H. destruct (Nat.le_gt_cases s (t_last T)) as [L|L].
  - specialize (H s ltac:(apply in_seq; lia)). rewrite forallb_forall in H. apply compls_iff in C. apply H in C. now apply beb_be in C.
  - exfalso. assert (s <> t_last T) as N by lia. destruct (compl_inv P s v N C) as (l & s' & v' & Hl & S & _).
    apply stf_look in S as (x & E & _). apply look_in in E as (Hx & <- & _). apply row_incr in Hx. lia.
Qed.
Lemma tab_acyclic s l s' : p_stf P s l = Some s' -> s < s'.
Proof. intros S. apply stf_look in S as (x & E & <- & _). apply look_in in E as (Hx & <- & _). now apply row_incr in Hx. Qed.
Lemma tab_solution rs rb V : solution P rs rb V <-> In (V - rb)%Z (compls T (S (t_last T)) rs).
Proof.
  split.
  - intros (v & C & ->). apply compls_iff in C. now replace (rb + v - rb)%Z with v by lia.
  - intros H. exists (V - rb)%Z. split; [now apply compls_iff|lia].
Qed.
End Check.

Lemma tab_valid T N : tab_ok T N = true -> valid_model (tabP T) (inTab T) (tabRank T) N.
Proof.
  unfold tab_ok. rewrite !andb_true_iff. intros ((((((H1 & H2) & H3) & H4) & H5) & H6) & H7).
  destruct (tab_merge T H1 H4). constructor; auto using tab_closed, tab_layered, tab_depth, tab_dom, tab_domt, tab_local.
Qed.
