(** foo.cpp: its solutions are the independent sets; its exact diagram finds the heaviest one. *)
From Verif Require Import Base DDModel DDSpec DDFrame DDRestricted DDExact DDWide SearchModel SearchProofs TspModel TspSpec TspProofs MispModel MispSpec MispProofs ColorModel ColorProofs ToyModel ToySpec ToyProofs ToyTwo.
From Coq Require Import NArith Nnat Permutation Sorting.Sorted.

Section F.
Variables (n : nat) (es : list (nat * nat)) (weight : nat -> Z).
Hypothesis Hn : 1 <= n.
Notation P := (foo_prob n es weight).

Lemma f_nbrs_spec i j : bmem (f_nbrs n es i) j = true <-> 1 <= j <= n /\ (j = i \/ adjacent es i j).
Proof.
  unfold f_nbrs. rewrite bof_spec, filter_In, in_seq, orb_true_iff, Nat.eqb_eq, existsb_exists. unfold adjacent. split.
  - intros [H [->|((a & b) & He & Q)]]; [split; [lia|auto]|]. split; [lia|right]. cbn [fst snd] in Q. rewrite orb_true_iff, !andb_true_iff, !Nat.eqb_eq in Q.
    destruct Q as [[-> ->]|[-> ->]]; auto.
  - intros [H [->|[He|He]]]; (split; [lia|]); auto; right; eexists; (split; [exact He|]); cbn [fst snd]; rewrite !Nat.eqb_refl; cbn; auto using orb_true_r.
Qed.
(** what remains after vertex i *)
Definition f_rest (s : N) (i : nat) : N := bof (filter (fun j => (i <=? j) && negb (bmem (f_nbrs n es i) j)) (blist (S n) s)).
Lemma f_rest_spec s i j : (forall c, bmem s c = true -> 1 <= c /\ c <= n) -> bmem (f_rest s i) j = true <-> bmem s j = true /\ i < j /\ ~ adjacent es i j.
Proof.
  intros H. unfold f_rest. rewrite bof_spec, filter_In, in_blist, andb_true_iff, Nat.leb_le, negb_true_iff, <- not_true_iff_false, f_nbrs_spec. split.
  - intros ((A & B) & C & D). apply H in B as B'. assert (i <> j) by (intros ->; apply D; split; [lia|auto]). split; auto. split; [lia|]. intros Q; apply D; split; auto; lia.
  - intros (A & B & C). apply H in A as A'. csplit; auto; try lia. intros [_ [->|Q]]; [lia|auto].
Qed.

Definition f_inv (s : N) : Prop := forall c, bmem s c = true -> 1 <= c /\ c <= n.
Lemma f_init_inv : f_inv (p_init P).
Proof. intros c. cbn [foo_prob p_init]. unfold f_init. rewrite bmem_del, bmem_full, andb_true_iff, negb_true_iff, Nat.eqb_neq, Nat.ltb_lt. lia. Qed.
Lemma f_init_mem c : bmem (p_init P) c = true <-> 1 <= c <= n.
Proof. cbn [foo_prob p_init]. unfold f_init. rewrite bmem_del, bmem_full, andb_true_iff, negb_true_iff, Nat.eqb_neq, Nat.ltb_lt. lia. Qed.
Lemma f_init_ne : p_init P <> p_target P.
Proof. intros E. assert (Q : bmem (p_init P) 1 = true) by (apply f_init_mem; lia). rewrite E in Q. cbn [foo_prob p_target] in Q. unfold f_target in Q. rewrite bmem_0 in Q. discriminate. Qed.
Lemma f_nonempty (s : N) : s <> 0%N -> exists c, bmem s c = true.
Proof.
  intros H. exists (N.to_nat (N.log2 s)). unfold bmem. rewrite N2Nat.id. now apply N.bit_log2.
Qed.
Lemma f_cases s l s' : f_inv s -> (In l (p_labels P s) /\ p_stf P s l = Some s') <->
  (l = Z.of_nat (S n) /\ s' = p_target P) \/ (exists c, l = Z.of_nat c /\ bmem s c = true /\ s' = f_rest s c).
Proof.
  intros Hs. cbn [foo_prob p_labels p_stf p_target]. unfold f_lgf, f_stf, f_target. rewrite in_rclose by lia. split.
  - intros [HL E]. destruct (Z.eqb_spec l (Z.of_nat (S n))) as [->|NE]; [left; injection E as <-; auto|]. right.
    destruct (zmem s l) eqn:M; [|discriminate]. injection E as <-. exists (Z.to_nat l). csplit; auto; [lia|].
    unfold zmem in M. apply andb_true_iff in M. tauto.
  - intros [[-> ->]|(c & -> & Hc & ->)].
    + split; [lia|]. now rewrite Z.eqb_refl.
    + apply Hs in Hc as C. split; [lia|]. destruct (Z.eqb_spec (Z.of_nat c) (Z.of_nat (S n))); [lia|].
      assert (M : zmem s (Z.of_nat c) = true). { unfold zmem. rewrite Nat2Z.id, Hc, andb_true_r. apply Z.leb_le. lia. }
      now rewrite M, Nat2Z.id.
Qed.
Lemma f_rest_inv s c : f_inv s -> f_inv (f_rest s c).
Proof. intros Hs x Hx. apply f_rest_spec in Hx; auto. apply Hs. tauto. Qed.
Lemma f_cost s c : c <= n -> p_cost P s (Z.of_nat c) = weight c.
Proof. intros H. cbn [foo_prob p_cost]. unfold f_scf. destruct (Z.eqb_spec (Z.of_nat c) (Z.of_nat (S n))); [lia|]. now rewrite Nat2Z.id. Qed.
Lemma f_cost_top s : p_cost P s (Z.of_nat (S n)) = 0%Z.
Proof. cbn [foo_prob p_cost]. unfold f_scf. now rewrite Z.eqb_refl. Qed.

(** members chosen from state s on *)
Definition f_from (s : N) (S : list nat) : Prop :=
  StronglySorted lt S /\ (forall x, In x S -> bmem s x = true) /\ independent es S.
(** a vertex of s remains beyond and beside S *)
Definition f_more (s : N) (S : list nat) : Prop := exists u, bmem s u = true /\ forall i, In i S -> i < u /\ ~ adjacent es i u.

Lemma f_from_cons s c S : f_inv s -> f_from s (c :: S) <-> bmem s c = true /\ f_from (f_rest s c) S.
Proof.
  intros Hs. unfold f_from. split.
  - intros (A & B & C). apply StronglySorted_inv in A as [A1 A2]. rewrite Forall_forall in A2. csplit; auto.
    + apply B. now left.
    + intros x Hx. apply f_rest_spec; auto. csplit; [apply B; now right|now apply A2|]. apply C; [now left|now right|]. apply A2 in Hx. lia.
    + intros i j Hi Hj. apply C; now right.
  - intros (H & A & B & C). assert (Q : forall x, In x S -> bmem s x = true /\ c < x /\ ~ adjacent es c x) by (intros x Hx; apply f_rest_spec; auto). csplit.
    + constructor; auto. apply Forall_forall. intros x Hx. now apply Q.
    + intros x [<-|Hx]; auto. now apply Q.
    + intros i j [<-|Hi] [<-|Hj] N; try congruence.
      * now apply Q.
      * apply Q in Hi as (_ & _ & Hi). unfold adjacent in *. tauto.
      * now apply C.
Qed.
Lemma f_more_cons s c S : f_inv s -> bmem s c = true -> f_more s (c :: S) <-> f_more (f_rest s c) S.
Proof.
  intros Hs Hc. unfold f_more. split.
  - intros (u & Hu & A). exists u. split; [|intros i Hi; apply A; now right]. apply f_rest_spec; auto. specialize (A c (or_introl eq_refl)). tauto.
  - intros (u & Hu & A). apply f_rest_spec in Hu as (U1 & U2 & U3); auto. exists u. split; auto. intros i [<-|Hi]; auto.
Qed.
Lemma f_sound : forall ls s v, path P s ls v (p_target P) -> f_inv s -> exists S', f_from s S' /\ v = total weight S' /\
    (ls = map Z.of_nat S' /\ ~ f_more s S' \/ ls = map Z.of_nat S' ++ [Z.of_nat (S n)] /\ f_more s S').
Proof.
  induction ls as [|l ls IH]; intros s v H Hs.
  - inversion H; subst. exists []. csplit; auto; [split; [constructor|]; split; [intros x []|intros i j []]|]. left. split; auto.
    intros (u & Hu & _). cbn [foo_prob p_target] in Hu. unfold f_target in Hu. rewrite bmem_0 in Hu. discriminate.
  - inversion H as [|s0 l0 s1 ls0 v0 t0 HN HL HS HP]; subst. destruct (proj1 (f_cases s l s1 Hs) (conj HL HS)) as [[-> ->]|(c & -> & Hc & ->)].
    + apply path_target in HP as (-> & -> & _). rewrite f_cost_top. exists []. csplit; auto; [split; [constructor|]; split; [intros x []|intros i j []]|].
      right. split; auto. destruct (f_nonempty s HN) as (u & Hu). exists u. split; auto. intros i [].
    + destruct (IH _ _ HP (f_rest_inv s c Hs)) as (S' & A & -> & B). apply Hs in Hc as C. rewrite f_cost by lia. exists (c :: S'). csplit; auto.
      * now apply f_from_cons.
      * cbn [map app]. rewrite f_more_cons by auto. destruct B as [[-> B]|[-> B]]; auto.
Qed.
Lemma f_complete : forall S' s, f_inv s -> f_from s S' -> (~ f_more s S' -> path P s (map Z.of_nat S') (total weight S') (p_target P)) /\
  (f_more s S' -> path P s (map Z.of_nat S' ++ [Z.of_nat (S n)]) (total weight S') (p_target P)).
Proof.
  induction S' as [|c S' IH]; intros s Hs HF.
  - split; cbn [map app total].
    + intros N. assert (s = p_target P) as ->; [|constructor]. destruct (N.eq_dec s 0) as [E|E]; [exact E|]. destruct (f_nonempty s E) as (u & Hu). exfalso. apply N.
      exists u. split; auto. intros i [].
    + intros (u & Hu & _). assert (N : s <> p_target P). { intros ->. cbn [foo_prob p_target] in Hu. unfold f_target in Hu. rewrite bmem_0 in Hu. discriminate. }
      destruct (proj2 (f_cases s (Z.of_nat (S n)) (p_target P) Hs)) as [Q1 Q2]; [now left|]. replace 0%Z with (p_cost P s (Z.of_nat (S n)) + 0)%Z by now rewrite f_cost_top. econstructor; eauto. constructor.
  - apply f_from_cons in HF as [Hc HF]; auto. destruct (IH _ (f_rest_inv s c Hs) HF) as [I1 I2].
    assert (N : s <> p_target P). { intros ->. cbn [foo_prob p_target] in Hc. unfold f_target in Hc. rewrite bmem_0 in Hc. discriminate. }
    destruct (proj2 (f_cases s (Z.of_nat c) (f_rest s c) Hs)) as [Q1 Q2]; [right; eauto|]. apply Hs in Hc as C.
    rewrite f_more_cons by auto. cbn [map app total]. rewrite <- (f_cost s c) by lia. split; intros; econstructor; eauto.
Qed.
Lemma f_from_init S' : f_from (p_init P) S' <-> indep1 n es S'.
Proof.
  unfold f_from, indep1. rewrite Forall_forall. split; intros (A & B & C); csplit; auto; intros x Hx; apply f_init_mem; auto.
Qed.
Lemma f_more_init S' : f_more (p_init P) S' <-> extends1 n es S'.
Proof. unfold f_more, extends1. split; intros (u & A & B); exists u; (split; [|auto]); now apply f_init_mem. Qed.

(** the solutions are the independent sets *)
Lemma f_solutions ls v : path P (p_init P) ls v (p_target P) <-> exists S', indep1 n es S' /\ v = total weight S' /\
    (ls = map Z.of_nat S' /\ ~ extends1 n es S' \/ ls = map Z.of_nat S' ++ [Z.of_nat (S n)] /\ extends1 n es S').
Proof.
  split.
  - intros H. destruct (f_sound _ _ _ H f_init_inv) as (S' & A & B & C). exists S'. rewrite <- f_from_init, <- f_more_init. auto.
  - intros (S' & A & -> & B). rewrite <- f_from_init in A. rewrite <- f_more_init in B. destruct (f_complete S' _ f_init_inv A). destruct B as [[-> B]|[-> B]]; auto.
Qed.
Lemma f_solution S' : indep1 n es S' -> exists ls, path P (p_init P) ls (total weight S') (p_target P).
Proof.
  intros H. assert (D : extends1 n es S' \/ ~ extends1 n es S').
  { set (ok := fun u => forallb (fun i => (i <? u) && negb (if in_dec (fun x y : nat * nat => ltac:(decide equality; apply Nat.eq_dec)) (i, u) es then true else false)
      && negb (if in_dec (fun x y : nat * nat => ltac:(decide equality; apply Nat.eq_dec)) (u, i) es then true else false)) S').
    assert (OK : forall u, ok u = true <-> forall i, In i S' -> i < u /\ ~ adjacent es i u).
    { intros u. unfold ok. rewrite forallb_forall. split; intros Q i Hi; specialize (Q i Hi).
      - rewrite !andb_true_iff, Nat.ltb_lt in Q. unfold adjacent. destruct (in_dec _ (i, u) es), (in_dec _ (u, i) es); cbn in Q; intuition discriminate.
      - rewrite !andb_true_iff, Nat.ltb_lt. unfold adjacent in Q. destruct (in_dec _ (i, u) es), (in_dec _ (u, i) es); cbn; tauto. }
    destruct (existsb ok (seq 1 n)) eqn:E.
    - left. apply existsb_exists in E as (u & Hu & Q). exists u. apply in_seq in Hu. split; [lia|now apply OK].
    - right. intros (u & Hu & Q). apply OK in Q. assert (X : existsb ok (seq 1 n) = true) by (apply existsb_exists; exists u; split; auto; apply in_seq; lia). congruence. }
  destruct D as [D|D]; eexists; apply f_solutions; exists S'; eauto.
Qed.

(** ** the exact diagram *)
Lemma f_closed : closed P f_inv.
Proof.
  constructor.
  - intros a b _ _. apply N.eqb_eq.
  - intros s _. cbn [foo_prob p_eqs p_target]. apply N.eqb_eq.
  - intros c. cbn [foo_prob p_target]. unfold f_target. rewrite bmem_0. discriminate.
  - intros s l s' Hs _ HL HS. destruct (proj1 (f_cases s l s' Hs) (conj HL HS)) as [[-> ->]|(c & -> & Hc & ->)]; [|now apply f_rest_inv].
    intros c. cbn [foo_prob p_target]. unfold f_target. rewrite bmem_0. discriminate.
Qed.
Lemma f_acyclic : acyclic P f_inv (fun s => S n - length (blist (S n) s)).
Proof.
  intros s l s' Hs Nt HL HS. assert (L : forall s, f_inv s -> length (blist (S n) s) <= S n).
  { intros x _. replace (S n) with (length (seq 0 (S n))) at 2 by apply seq_length. apply NoDup_incl_length; [apply blist_NoDup|].
    intros y Hy. apply in_blist in Hy as [Hy _]. apply in_seq. lia. }
  pose proof (L s Hs). assert (Q : length (blist (S n) s') < length (blist (S n) s)); [|lia].
  destruct (proj1 (f_cases s l s' Hs) (conj HL HS)) as [[-> ->]|(c & -> & Hc & ->)].
  - cbn [foo_prob p_target]. unfold f_target. destruct (f_nonempty s Nt) as (u & Hu). apply Hs in Hu as U.
    assert (E : blist (S n) 0 = []). { destruct (blist (S n) 0) as [|x r] eqn:E; auto. assert (X : In x (blist (S n) 0)) by (rewrite E; now left). apply in_blist in X as [_ X]. rewrite bmem_0 in X. discriminate. }
    rewrite E. cbn [length]. destruct (blist (S n) s) as [|x r] eqn:E2; [|cbn; lia]. assert (X : In u (blist (S n) s)) by (apply in_blist; split; [lia|auto]). rewrite E2 in X. destruct X.
  - apply Hs in Hc as C. assert (ND : NoDup (c :: blist (S n) (f_rest s c))).
    { constructor; [|apply blist_NoDup]. rewrite in_blist, f_rest_spec by auto. lia. }
    apply Nat.lt_le_trans with (length (c :: blist (S n) (f_rest s c))); [cbn; lia|]. apply NoDup_incl_length; auto.
    intros x [<-|Hx]; [apply in_blist; split; [lia|auto]|]. apply in_blist in Hx as [X1 X2]. apply f_rest_spec in X2; auto. apply in_blist. tauto.
Qed.
(** a path's value is the weight of an independent set, or of the empty continuation *)
Definition f_fits : Prop := forall S', indep1 n es S' -> (-2147483647 < total weight S')%Z.
Lemma f_prefix s ls v t : path P s ls v t -> f_inv s -> exists S', f_from s S' /\ v = total weight S'.
Proof.
  intros H. induction H as [s|s l s' ls v t N L HS H IH]; intros Hs.
  - exists []. split; auto. split; [constructor|]. split; [intros x []|intros i j []].
  - destruct (proj1 (f_cases s l s' Hs) (conj L HS)) as [[-> ->]|(c & -> & Hc & ->)].
    + apply path_target in H as (-> & -> & _). exists []. rewrite f_cost_top. split; auto. split; [constructor|]. split; [intros x []|intros i j []].
    + destruct (IH (f_rest_inv s c Hs)) as (S' & A & ->). exists (c :: S'). apply Hs in Hc as C. split; [now apply f_from_cons|]. now rewrite f_cost by lia.
Qed.
Lemma f_exact fuel primal : f_fits -> 2 ^ S n <= fuel ->
  exists d x S', ex_compute P fuel (initDefault P (dd_empty P true)) primal = Ok d /\ trg_node d = Ok x /\
    indep1 n es S' /\ n_bound x = total weight S' /\ (n_lab x = map Z.of_nat S' \/ n_lab x = map Z.of_nat S' ++ [Z.of_nat (S n)]) /\
    forall S'', indep1 n es S'' -> (total weight S'' <= n_bound x)%Z.
Proof.
  intros FT F. destruct (exact_best P f_inv _ (masks (S n)) fuel primal f_closed eq_refl f_acyclic) as (d & x & E & T & HS & B).
  - apply f_init_inv.
  - apply f_init_ne.
  - intros ls v s H. destruct (f_prefix _ _ _ _ H f_init_inv) as (S' & A & ->). apply f_from_init in A. apply FT in A. unfold bt, val, sentinel. cbn [foo_prob p_min]. lia.
  - intros s Hs _. apply in_masks. intros v Hv. apply Hs in Hv. lia.
  - apply in_masks. intros v. cbn [foo_prob p_target]. unfold f_target. rewrite bmem_0. discriminate.
  - now rewrite masks_length.
  - destruct (f_solution []) as (ls & H); eauto. split; [constructor|]. split; [constructor|intros i j []].
  - apply f_solutions in HS as (S' & A & Bd & C). exists d, x, S'. csplit; auto; [tauto|]. intros S'' HS''. destruct (f_solution S'' HS'') as (ls & H).
    specialize (B _ _ H). unfold be, val in B. cbn [foo_prob p_min] in B. lia.
Qed.
End F.
