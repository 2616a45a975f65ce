(** tsptoy2.cpp: its solutions are the tours; enumeration of the continuations of a state, for counterexamples. *)
From Verif Require Import Base DDModel DDSpec DDFrame DDRestricted DDExact DDWide SearchModel SearchProofs TspModel TspSpec TspProofs MispModel ColorModel ToyModel ToySpec ToyProofs.
From Coq Require Import NArith Nnat Permutation.

(** all continuations to the target with at most fuel labels *)
Fixpoint sols {St} (P : prob St) (fuel : nat) (s : St) : list (list Z * Z) :=
  if p_eqb P s (p_target P) then [([], 0%Z)] else
  match fuel with
  | 0 => []
  | S k => flat_map (fun l => match p_stf P s l with
      | Some s' => map (fun x => (l :: fst x, (p_cost P s l + snd x)%Z)) (sols P k s')
      | None => [] end) (p_labels P s)
  end.
Lemma sols_complete {St} (P : prob St) : (forall a b, p_eqb P a b = true <-> a = b) -> forall fuel s ls v, path P s ls v (p_target P) -> length ls <= fuel -> In (ls, v) (sols P fuel s).
Proof.
  intros HE. induction fuel as [|k IH]; intros s ls v H L.
  - inversion H; subst; [|cbn in L; lia]. cbn [sols]. rewrite (proj2 (HE (p_target P) (p_target P)) eq_refl). now left.
  - inversion H as [|s0 l s' ls0 v0 t N HL HS HP]; subst.
    + cbn [sols]. rewrite (proj2 (HE (p_target P) (p_target P)) eq_refl). now left.
    + cbn [sols]. destruct (p_eqb P s (p_target P)) eqn:E; [apply HE in E; contradiction|]. apply in_flat_map. exists l. split; auto. rewrite HS.
      apply in_map_iff. exists (ls0, v0). split; auto. apply IH; auto. cbn in L. lia.
Qed.

Lemma blist_NoDup m s : NoDup (blist m s).
Proof. unfold blist. apply NoDup_filter, seq_NoDup. Qed.
Lemma blist_add m s c : c < m -> bmem s c = false -> length (blist m (badd s c)) = S (length (blist m s)).
Proof.
  intros C1 C2. change (S (length (blist m s))) with (length (c :: blist m s)). apply Permutation_length, NoDup_Permutation.
  - apply blist_NoDup.
  - constructor; [|apply blist_NoDup]. rewrite in_blist. intros [_ Q]. congruence.
  - intros x. cbn [In]. rewrite !in_blist, bmem_add, orb_true_iff, Nat.eqb_eq. intuition (subst; auto).
Qed.
Lemma blist_size m s k : (forall c, bmem s c = true -> c < m) -> (forall c, bmem s c = true -> In c (seq 2 k)) -> length (blist m s) <= k.
Proof.
  intros H1 H2. replace k with (length (seq 2 k)) by apply seq_length. apply NoDup_incl_length; [apply blist_NoDup|]. intros x Hx. apply in_blist in Hx as [_ Hx]. auto.
Qed.

Section Z2.
Variables (n : nat) (d : nat -> nat -> Z).
Hypothesis Hn : 1 <= n.
Notation P := (toy2_prob n d).
Notation size s := (length (blist (S n) (z_s s))).

Lemma toy2_eqb_eq a b : toy2_eqb a b = true <-> a = b.
Proof.
  unfold toy2_eqb. rewrite andb_true_iff, Nat.eqb_eq, N.eqb_eq. destruct a, b; cbn. split; [intros [-> ->]; auto|intros [= -> ->]; auto].
Qed.
(** states of non-empty and empty partial tours *)
Definition z_live (s : toy2) : Prop :=
  (forall c, bmem (z_s s) c = true -> 2 <= c /\ c <= n) /\ (z_e s <> 1 -> bmem (z_s s) (z_e s) = true).
Lemma z_size s : z_live s -> size s <= n - 1.
Proof.
  intros [H _]. apply blist_size; intros c Hc; apply H in Hc; [lia|]. apply in_seq. lia.
Qed.
Lemma z_live_ne s : z_live s -> s <> p_target P.
Proof. intros [H _] ->. assert (Q : bmem (y_C n) 1 = true) by (rewrite bmem_C, andb_true_iff, !Nat.leb_le; lia). apply H in Q. lia. Qed.
Lemma z_step s c : z_live s -> 2 <= c -> c <= n -> z_live (mkToy2 (badd (z_s s) c) c).
Proof.
  intros [L1 L2] C1 C2. split; cbn [z_s z_e].
  - intros x. rewrite bmem_add. destruct (Nat.eqb_spec c x) as [<-|N]; cbn; auto.
  - intros _. rewrite bmem_add, Nat.eqb_refl. auto.
Qed.
Lemma z_cases s l s' : z_live s -> (In l (p_labels P s) /\ p_stf P s l = Some s') <->
  (size s = n - 1 /\ l = 1%Z /\ s' = p_target P) \/
  (size s < n - 1 /\ exists c, l = Z.of_nat c /\ 2 <= c /\ c <= n /\ bmem (z_s s) c = false /\ s' = mkToy2 (badd (z_s s) c) c).
Proof.
  intros L. pose proof (z_size s L) as SZ. destruct L as [L1 L2]. cbn [toy2_prob p_labels p_stf]. unfold z_lgf, z_stf. rewrite in_map_iff. split.
  - intros [(c & <- & Hc) E]. apply in_blist in Hc as [Hc1 Hc2]. rewrite bmem_add, bmem_diff, bmem_C in Hc2.
    destruct (Z.eqb_spec (Z.of_nat c) 1) as [E1|E1]; cbn [andb negb orb] in E.
    + left. destruct (Nat.ltb_spec (size s) (n - 1)); cbn [orb] in E; [discriminate|]. destruct (Nat.leb_spec (n - 1) (size s)); [|lia]. injection E as <-. csplit; auto; lia.
    + destruct (Nat.leb_spec (n - 1) (size s)); [discriminate|]. right. split; auto. exists c.
      destruct (zmem (z_s s) (Z.of_nat c)) eqn:M; cbn [negb andb] in E; [discriminate|]. destruct (Z.eqb_spec (Z.of_nat (z_e s)) (Z.of_nat c)); cbn in E; [discriminate|].
      injection E as <-. rewrite Nat2Z.id. assert (c <> 1) by lia. assert (Q : (1 =? c) = false) by (apply Nat.eqb_neq; lia). rewrite Q in Hc2. cbn [orb] in Hc2.
      rewrite !andb_true_iff, negb_true_iff, !Nat.leb_le in Hc2. csplit; auto; try tauto; lia.
  - intros [(T1 & -> & ->)|(T1 & c & -> & C1 & C2 & C3 & ->)].
    + split.
      * exists 1. split; auto. apply in_blist. split; [lia|]. rewrite bmem_add. reflexivity.
      * assert (Q1 : (size s <? n - 1) = false) by (apply Nat.ltb_ge; lia). assert (Q2 : (n - 1 <=? size s) = true) by (apply Nat.leb_le; lia). rewrite Q1, Q2. reflexivity.
    + split.
      * exists c. split; auto. apply in_blist. split; [lia|]. rewrite bmem_add, bmem_diff, bmem_C, C3, orb_true_iff. right.
        rewrite !andb_true_iff, !Nat.leb_le. cbn. csplit; auto; lia.
      * destruct (Z.eqb_spec (Z.of_nat c) 1) as [E1|E1]; [lia|]. cbn [andb negb orb]. assert (Q2 : (n - 1 <=? size s) = false) by (apply Nat.leb_gt; lia). rewrite Q2.
        assert (M : zmem (z_s s) (Z.of_nat c) = false). { unfold zmem. rewrite Nat2Z.id. rewrite C3. now rewrite ?andb_false_r. }
        rewrite M. cbn [negb andb]. destruct (Z.eqb_spec (Z.of_nat (z_e s)) (Z.of_nat c)) as [E2|E2]; cbn [negb]; [|now rewrite Nat2Z.id].
        assert (z_e s = c) by lia. subst c. rewrite L2 in C3; [discriminate|lia].
Qed.

Lemma z_paths : forall k s ls v, z_live s -> n - 1 - size s = k ->
  (path P s ls v (p_target P) <-> exists t, ls = map Z.of_nat (t ++ [1]) /\ length t = k /\ NoDup t /\
     (forall c, In c t -> 2 <= c /\ c <= n /\ bmem (z_s s) c = false) /\ v = walk d (z_e s) (t ++ [1])).
Proof.
  induction k as [|k IH]; intros s ls v Hs Ek; pose proof (z_size s Hs) as SZ; split.
  - intros H. inversion H as [|s0 l0 s1 ls0 v0 t0 HN HL HS HP]; subst; [now apply z_live_ne in Hs|].
    destruct (proj1 (z_cases s l0 s1 Hs) (conj HL HS)) as [(T1 & -> & ->)|(T1 & _)]; [|lia].
    apply path_target in HP as (-> & -> & _). exists []. csplit; auto; [constructor|intros c []].
  - intros (t & -> & Ht & _ & _ & ->). destruct t; [|discriminate]. cbn [app map walk].
    change (d (z_e s) 1) with (p_cost P s (Z.of_nat 1)).
    assert (Q : In (Z.of_nat 1) (p_labels P s) /\ p_stf P s (Z.of_nat 1) = Some (p_target P)) by (apply z_cases; auto; left; split; auto; lia).
    destruct Q. eapply path_cons; eauto; [now apply z_live_ne|constructor].
  - intros H. inversion H as [|s0 l0 s1 ls0 v0 t0 HN HL HS HP]; subst; [now apply z_live_ne in Hs|].
    destruct (proj1 (z_cases s l0 s1 Hs) (conj HL HS)) as [(T1 & _)|(T1 & c & -> & C1 & C2 & C3 & ->)]; [lia|].
    assert (L1 : z_live (mkToy2 (badd (z_s s) c) c)) by (apply z_step; auto).
    apply IH in HP; [|auto|cbn [z_s]; rewrite blist_add; auto; lia]. destruct HP as (t & -> & Ht & ND & A & ->). cbn [z_s z_e] in *. exists (c :: t). csplit.
    + reflexivity.
    + cbn. lia.
    + constructor; auto. intros Q. apply A in Q as (_ & _ & Q). rewrite bmem_add, Nat.eqb_refl in Q. discriminate.
    + intros x [<-|Hx]; auto. apply A in Hx as (X1 & X2 & X3). rewrite bmem_add in X3. apply orb_false_iff in X3. tauto.
    + cbn [app walk toy2_prob p_cost]. unfold z_scf. now rewrite Nat2Z.id.
  - intros (t & -> & Ht & ND & A & ->). destruct t as [|c t]; [discriminate|]. cbn [app map walk].
    destruct (A c (or_introl eq_refl)) as (C1 & C2 & C3). inversion ND as [|? ? N1 N2]; subst.
    replace (d (z_e s) c) with (p_cost P s (Z.of_nat c)) by (cbn [toy2_prob p_cost]; unfold z_scf; now rewrite Nat2Z.id).
    assert (Q : In (Z.of_nat c) (p_labels P s) /\ p_stf P s (Z.of_nat c) = Some (mkToy2 (badd (z_s s) c) c)).
    { apply z_cases; auto. right. split; [lia|]. exists c. auto. }
    destruct Q. eapply path_cons; eauto; [now apply z_live_ne|].
    apply IH; [apply z_step; auto; lia|cbn [z_s]; rewrite blist_add; auto; lia|]. exists t. cbn [z_s z_e]. cbn in Ht. csplit; auto; try lia.
    intros x Hx. destruct (A x (or_intror Hx)) as (X1 & X2 & X3). csplit; auto. rewrite bmem_add, X3.
    destruct (Nat.eqb_spec c x); subst; [contradiction|auto].
Qed.
Lemma z_init_live : z_live (p_init P).
Proof. split; cbn [toy2_prob p_init z_init z_s z_e]; [intros c; rewrite bmem_0; discriminate|congruence]. Qed.
Lemma z_solutions ls v : path P (p_init P) ls v (p_target P) <-> exists l, tour1 n l /\ ls = map Z.of_nat l /\ v = walk d 1 l.
Proof.
  rewrite <- (y_solutions n d Hn).
  rewrite (y_paths n d Hn (n - 1)), (z_paths (n - 1)); [|apply z_init_live| |apply (y_init_live n d Hn)|cbn; lia].
  - cbn [toy2_prob toy_prob p_init z_init y_init z_s z_e t_s t_e]. reflexivity.
  - cbn [toy2_prob p_init z_init z_s]. replace (length (blist (S n) 0)) with 0; [lia|]. symmetry.
    assert (Q : length (blist (S n) 0) <= 0) by (apply blist_size; intros c; rewrite bmem_0; discriminate). lia.
Qed.
End Z2.
