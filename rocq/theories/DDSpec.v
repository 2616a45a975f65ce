(** Specification vocabulary for decision diagrams, independent of the engine:
    label sequences, completions, valid closures, layered models.  Only the problem record is used. *)
From Verif Require Import Base DDModel.

Section Spec.
Context {St : Type}.
Variable P : prob St.

(** objective values on a scale where smaller is better *)
Definition val (x : Z) : Z := if p_min P then x else (- x)%Z.
(** strictly better / at least as good *)
Definition bt (a b : Z) : Prop := (val a < val b)%Z.
Definition be (a b : Z) : Prop := (val a <= val b)%Z.
(** the sentinel "no solution": the largest int for Minimize, its opposite for Maximize *)
Definition sentinel : Z := if p_min P then 2147483647%Z else (-2147483647)%Z.

(** [path s ls v t]: the label sequence ls leads from s to t with total cost v; a sequence stops at the target *)
Inductive path : St -> list Z -> Z -> St -> Prop :=
| path_nil s : path s [] 0 s
| path_cons s l s' ls v t :
    s <> p_target P -> In l (p_labels P s) -> p_stf P s l = Some s' -> path s' ls v t ->
    path s (l :: ls) (p_cost P s l + v) t.

(** v is the cost of some way to complete s to the target *)
Definition compl (s : St) (v : Z) : Prop := exists ls, path s ls v (p_target P).
(** every completion of b has an at least as good completion of a *)
Definition relaxes (a b : St) : Prop := forall v, compl b v -> exists v', compl a v' /\ be v' v.

(** Well-formedness of the closures on the states satisfying [I] (for instance: reachable states and merges of them) *)
Record closed (I : St -> Prop) : Prop := {
  cl_eqb : forall a b, I a -> I b -> (p_eqb P a b = true <-> a = b);
  cl_eqs : forall s, I s -> (p_eqs P s = true <-> s = p_target P);
  cl_target : I (p_target P);
  cl_step : forall s l s', I s -> s <> p_target P -> In l (p_labels P s) -> p_stf P s l = Some s' -> I s' }.

(** layered: each state other than the target has a depth, each step to a non-target state goes one deeper *)
Definition layered (I : St -> Prop) (rank : St -> nat) : Prop :=
  forall s l s', I s -> s <> p_target P -> In l (p_labels P s) -> p_stf P s l = Some s' ->
    s' <> p_target P -> rank s' = S (rank s).
(** merges stay on the layer and never give the target *)
Definition merge_layered (I : St -> Prop) (rank : St -> nat) : Prop :=
  forall a b m, I a -> I b -> a <> p_target P -> b <> p_target P -> rank a = rank b -> p_smf P a b = Some m ->
    I m /\ m <> p_target P /\ rank m = rank a.

(** merging two states of one depth only adds completions *)
Definition valid_merge (I : St -> Prop) (rank : St -> nat) : Prop :=
  forall a b m, I a -> I b -> a <> p_target P -> b <> p_target P -> rank a = rank b -> p_smf P a b = Some m ->
    relaxes m a /\ relaxes m b.
(** dominance at one depth: the dominating state has an at least as good completion for each completion *)
Definition valid_dom (I : St -> Prop) (rank : St -> nat) : Prop :=
  forall sdom a b, p_sdom P = Some sdom -> I a -> I b -> a <> p_target P -> b <> p_target P -> rank a = rank b ->
    sdom a b = true -> relaxes a b.
(** when the target is reached from depth k, no ordinary state of depth k+1 dominates it.  (In particular when the target is
    only reached from the last depth, or when no state dominates the target.) *)
Definition dom_avoids_target (I : St -> Prop) (rank : St -> nat) : Prop :=
  forall sdom a s l, p_sdom P = Some sdom -> I a -> a <> p_target P -> I s -> s <> p_target P ->
    In l (p_labels P s) -> p_stf P s l = Some (p_target P) -> rank a = S (rank s) -> sdom a (p_target P) = false.
(** the local bound never under-promises *)
Definition valid_local (I : St -> Prop) : Prop :=
  forall local s ctx v, p_local P = Some local -> I s -> compl s v -> be (local s ctx) v.

(** start of a (sub)problem: state, bound and labels accumulated so far.
    Every continuation keeps a value that beats the sentinel ("costs fit an int"). *)
Definition in_range (rs : St) (rb : Z) : Prop :=
  forall ls v s, path rs ls v s -> bt (rb + v) sentinel.

(** value V is reachable as a complete solution of the subproblem (rs,rb) *)
Definition solution (rs : St) (rb : Z) (V : Z) : Prop := exists v, compl rs v /\ V = (rb + v)%Z.

(** labels [lab] spell a genuine continuation of (rs, rb, rl) to state s with total value b *)
Definition genuine (rs : St) (rb : Z) (rl : list Z) (s : St) (b : Z) (lab : list Z) : Prop :=
  exists ls v, lab = rl ++ ls /\ b = (rb + v)%Z /\ path rs ls v s.

(** bounded depth *)
Definition depth_le (I : St -> Prop) (rank : St -> nat) (N : nat) : Prop :=
  forall s, I s -> s <> p_target P -> rank s <= N.

(** a layered model with valid closures *)
Record valid_model (I : St -> Prop) (rank : St -> nat) (N : nat) : Prop := {
  vm_closed : closed I;
  vm_layered : layered I rank;
  vm_depth : depth_le I rank N;
  vm_mlayered : merge_layered I rank;
  vm_merge : valid_merge I rank;
  vm_dom : valid_dom I rank;
  vm_domt : dom_avoids_target I rank;
  vm_local : valid_local I }.

(** ** elementary facts *)
Lemma val_add a b : val (a + b) = (val a + val b)%Z.
Proof. unfold val. destruct (p_min P); lia. Qed.
Lemma isBetter_bt a b : isBetter P a b = true <-> bt a b.
Proof. unfold isBetter, bt, val. destruct (p_min P); lia. Qed.
Lemma isBetter_nbt a b : isBetter P a b = false <-> be b a.
Proof. unfold isBetter, be, val. destruct (p_min P); lia. Qed.
Lemma isBetterEQ_be a b : isBetterEQ P a b = true <-> be a b.
Proof. unfold isBetterEQ, be, val. destruct (p_min P); lia. Qed.
Lemma initialBest_sentinel : initialBest P = sentinel.
Proof. reflexivity. Qed.
Lemma val_inj a b : val a = val b -> a = b.
Proof. unfold val. destruct (p_min P); lia. Qed.

Lemma be_refl a : be a a.
Proof. unfold be; lia. Qed.
Lemma relaxes_refl s : relaxes s s.
Proof. intros v H. exists v. split; auto. apply be_refl. Qed.
Lemma relaxes_trans a b c : relaxes a b -> relaxes b c -> relaxes a c.
Proof.
  intros H1 H2 v Hv. destruct (H2 v Hv) as (v1 & C1 & B1). destruct (H1 v1 C1) as (v2 & C2 & B2).
  exists v2. split; auto. unfold be in *; lia.
Qed.

Lemma path_app s ls v t ls' v' u : path s ls v t -> path t ls' v' u -> path s (ls ++ ls') (v + v') u.
Proof.
  intros H H'. induction H as [s|s l s1 ls v t N L S H IH]; cbn [app].
  - now rewrite Z.add_0_l.
  - rewrite <- Z.add_assoc. econstructor; eauto.
Qed.
Lemma path_snoc s ls v t l u : path s ls v t -> t <> p_target P -> In l (p_labels P t) -> p_stf P t l = Some u ->
  path s (ls ++ [l]) (v + p_cost P t l) u.
Proof.
  intros H N L S. apply path_app with t; auto.
  rewrite <- (Z.add_0_r (p_cost P t l)). econstructor; eauto. constructor.
Qed.
Lemma path_target ls v t : path (p_target P) ls v t -> ls = [] /\ v = 0%Z /\ t = p_target P.
Proof. intros H. inversion H; subst; auto. congruence. Qed.
Lemma compl_target v : compl (p_target P) v <-> v = 0%Z.
Proof.
  split.
  - intros [ls H]. apply path_target in H. tauto.
  - intros ->. exists []. constructor.
Qed.
Lemma compl_inv s v : s <> p_target P -> compl s v ->
  exists l s' v', In l (p_labels P s) /\ p_stf P s l = Some s' /\ compl s' v' /\ v = (p_cost P s l + v')%Z.
Proof.
  intros N [ls H]. inversion H; subst; [congruence|]. exists l, s', v0. repeat split; auto. exists ls0; auto.
Qed.
Lemma compl_cons s l s' v : s <> p_target P -> In l (p_labels P s) -> p_stf P s l = Some s' -> compl s' v ->
  compl s (p_cost P s l + v).
Proof. intros N L S [ls H]. exists (l :: ls). econstructor; eauto. Qed.

Lemma genuine_snoc rs rb rl s b lab l s' : genuine rs rb rl s b lab -> s <> p_target P -> In l (p_labels P s) ->
  p_stf P s l = Some s' -> genuine rs rb rl s' (b + p_cost P s l) (lab ++ [l]).
Proof.
  intros (ls & v & -> & -> & H) N L S. exists (ls ++ [l]), (v + p_cost P s l)%Z.
  rewrite app_assoc, Z.add_assoc. repeat split. eapply path_snoc; eauto.
Qed.
Lemma genuine_root rs rb rl : genuine rs rb rl rs rb rl.
Proof. exists [], 0%Z. rewrite app_nil_r, Z.add_0_r. repeat split. constructor. Qed.
Lemma genuine_trans rs rb rl s b lab s' b' lab' :
  genuine rs rb rl s b lab -> genuine s b lab s' b' lab' -> genuine rs rb rl s' b' lab'.
Proof.
  intros (ls & v & -> & -> & H) (ls' & v' & -> & -> & H'). exists (ls ++ ls'), (v + v')%Z.
  rewrite app_assoc, Z.add_assoc. repeat split. eapply path_app; eauto.
Qed.
Lemma path_closed I s ls v t : closed I -> I s -> path s ls v t -> I t.
Proof.
  intros C Hs H. induction H; auto. apply IHpath. eapply cl_step; eauto.
Qed.
Lemma in_range_step rs rb s b lab rl : in_range rs rb -> genuine rs rb rl s b lab -> in_range s b.
Proof.
  intros R (ls & v & -> & -> & H) ls' v' t H'. rewrite <- Z.add_assoc. eapply R. eapply path_app; eauto.
Qed.
End Spec.
#[global] Hint Rewrite @val_add : val.
Ltac vlia := unfold bt, be in *; autorewrite with val in *; lia.
