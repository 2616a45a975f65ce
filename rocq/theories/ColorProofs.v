(** The colouring examples: solutions are colourings in first-use order, merged states relax both states, and the labels may depend on the primal bound. *)
From Verif Require Import Base DDModel DDSpec DDFrame DDExact SearchModel SearchProofs SearchDyn TspModel TspProofs MispModel MispSpec MispProofs SetModel ColorModel ColorSpec.

(** ** arrays *)
Lemma upd_length {A} (l : list A) i x : length (upd l i x) = length l.
Proof. revert i. induction l as [|a l IH]; intros [|i]; cbn; auto. Qed.
Lemma nth_upd {A} (l : list A) i x j d : nth j (upd l i x) d = if (i =? j) && (i <? length l) then x else nth j l d.
Proof.
  revert i j. induction l as [|a l IH]; intros i j; cbn [upd length nth].
  - destruct i; cbn; rewrite ?andb_false_r; auto.
  - destruct i as [|i], j as [|j]; cbn [nth Nat.eqb andb]; auto. rewrite IH. reflexivity.
Qed.
Lemma arr_eqb_spec {A} (eqb : A -> A -> bool) : (forall x y, eqb x y = true <-> x = y) -> forall a b, arr_eqb eqb a b = true <-> a = b.
Proof.
  intros H. induction a as [|x a IH]; intros [|y b]; cbn; try (split; [discriminate|discriminate]); [tauto|].
  rewrite andb_true_iff, H, IH. split; [intros [-> ->]; auto|intros [= -> ->]; auto].
Qed.
Lemma nth_ext_eq {A} (a b : list A) d : length a = length b -> (forall i, i < length a -> nth i a d = nth i b d) -> a = b.
Proof. intros. eapply nth_ext; eauto. Qed.
Lemma nth_repeat_lt {A} (a d : A) n i : i < n -> nth i (repeat a n) d = a.
Proof. revert i. induction n as [|n IH]; intros [|i] H; cbn; auto; try lia. apply IH. lia. Qed.
Lemma in_rclose f t l : (f <= t)%Z -> (In l (rclose f t) <-> (f <= l <= t)%Z).
Proof.
  intros H. unfold rclose. replace (f <=? t)%Z with true by lia. rewrite in_map_iff. split.
  - intros (i & <- & Hi). apply in_seq in Hi. lia.
  - intros B. exists (Z.to_nat (l - f)). split; [lia|]. apply in_seq. lia.
Qed.
(** the enumeration is that of SetModel.v *)
Lemma rclose_walk f t : exists fuel, r_list fuel (r_close f t) = Ok (rclose f t).
Proof.
  unfold r_list, r_close, rclose. cbn [r_from r_to]. destruct (Z.leb_spec f t) as [H|H].
  - replace (t <? f)%Z with false by lia. cbn [r_inc]. replace (f <=? t + 1)%Z with true by lia. cbn [negb r_inc].
    exists (Z.to_nat (t + 1 - f)). remember (Z.to_nat (t + 1 - f)) as n eqn:E. assert (En : (t + 1 = f + Z.of_nat n)%Z) by lia. rewrite En. clear.
    revert f. induction n as [|n IH]; intros f; cbn [r_walk].
    + replace (f =? f + Z.of_nat 0)%Z with true by lia. reflexivity.
    + replace (f =? f + Z.of_nat (S n))%Z with false by lia. specialize (IH (f + 1)%Z). replace (f + 1 + Z.of_nat n)%Z with (f + Z.of_nat (S n))%Z in IH by lia. rewrite IH.
      cbn [bind seq map]. f_equal. f_equal; [lia|]. rewrite <- seq_shift, map_map. apply map_ext. intros. lia.
  - replace (t <? f)%Z with true by lia. cbn [r_inc]. replace (f <=? t + -1)%Z with false by lia. cbn [negb r_inc].
    exists (Z.to_nat (f + 1 - t)). remember (Z.to_nat (f + 1 - t)) as n eqn:E. assert (En : (t + -1 = f - Z.of_nat n)%Z) by lia. rewrite En. clear.
    revert f. induction n as [|n IH]; intros f; cbn [r_walk].
    + replace (f =? f - Z.of_nat 0)%Z with true by lia. reflexivity.
    + replace (f =? f - Z.of_nat (S n))%Z with false by lia. specialize (IH (f + -1)%Z). replace (f + -1 - Z.of_nat n)%Z with (f - Z.of_nat (S n))%Z in IH by lia. rewrite IH.
      cbn [bind seq map]. f_equal. f_equal; [lia|]. rewrite <- seq_shift, map_map. apply map_ext. intros. lia.
Qed.

(** ** first-use order *)
Lemma fu_bound c k : first_use c k -> (0 <= k)%Z /\ (forall l, In l c -> (1 <= l <= k)%Z) /\ (k = 0 \/ In k c)%Z.
Proof.
  induction 1 as [|c k l H (A & B & C) L|c k H (A & B & C)]; csplit; auto; try lia; cbn; try tauto.
  - intros x Hx. apply in_app_or in Hx as [Hx|[<-|[]]]; auto.
  - destruct C as [->|C]; [lia|]. right. apply in_or_app. auto.
  - intros x Hx. apply in_app_or in Hx as [Hx|[<-|[]]]; [specialize (B x Hx); lia|lia].
  - right. apply in_or_app. right. now left.
Qed.
Lemma fu_snoc c l k' : first_use (c ++ [l]) k' -> exists k, first_use c k /\ (1 <= l <= k + 1)%Z /\ k' = Z.max l k.
Proof.
  intros H. inversion H as [E|c0 k l0 H0 L E|c0 k H0 E].
  - destruct c; discriminate.
  - apply app_inj_tail in E as [-> ->]. exists k'. csplit; auto; lia.
  - apply app_inj_tail in E as [-> <-]. exists k. pose proof (fu_bound _ _ H0). csplit; auto; lia.
Qed.
Lemma fu_step c k l : first_use c k -> (1 <= l <= k + 1)%Z -> first_use (c ++ [l]) (Z.max l k).
Proof.
  intros H L. destruct (Z.eq_dec l (k + 1)) as [->|N].
  - replace (Z.max (k + 1) k) with (k + 1)%Z by lia. now constructor.
  - replace (Z.max l k) with k by lia. constructor; auto. lia.
Qed.
Lemma fu_prefix c ls k' : first_use (c ++ ls) k' -> exists k, first_use c k.
Proof.
  revert k'. induction ls as [|l ls IH] using rev_ind; intros k' H; [rewrite app_nil_r in H; eauto|].
  rewrite app_assoc in H. apply fu_snoc in H as (k & H & _). eauto.
Qed.
Lemma fu_fun c k k' : first_use c k -> first_use c k' -> k = k'.
Proof.
  intros A B. apply fu_bound in A as (A1 & A2 & A3), B as (B1 & B2 & B3).
  destruct A3 as [->|A3], B3 as [->|B3]; auto.
  - specialize (A2 _ B3). lia.
  - specialize (B2 _ A3). lia.
  - specialize (A2 _ B3). specialize (B2 _ A3). lia.
Qed.
Lemma fu_all c k l : first_use c k -> (1 <= l <= k)%Z -> In l c.
Proof.
  induction 1 as [|c k l0 H IH L|c k H IH]; intros B; [lia| |]; apply in_or_app; [auto|].
  destruct (Z.eq_dec l (k + 1)) as [->|N]; [right; now left|]. left. apply IH. lia.
Qed.
(** the last colour is the number of colours *)
Lemma fu_uses c k : first_use c k -> uses c (Z.to_nat k).
Proof.
  intros H. pose proof (fu_bound _ _ H) as (A & B & _). exists (map (fun i => Z.of_nat i + 1)%Z (seq 0 (Z.to_nat k))). csplit.
  - apply FinFun.Injective_map_NoDup; [intros x y E; lia|apply seq_NoDup].
  - now rewrite map_length, seq_length.
  - intros x. rewrite in_map_iff. split.
    + intros (i & <- & Hi). apply in_seq in Hi. apply (fu_all c k); auto. lia.
    + intros Hx. specialize (B x Hx). exists (Z.to_nat (x - 1)). split; [lia|]. apply in_seq. lia.
Qed.
Lemma uses_fun {A} (c : list A) k k' : uses c k -> uses c k' -> k = k'.
Proof.
  intros (a & A1 & <- & A2) (b & B1 & <- & B2). apply Nat.le_antisymm; apply NoDup_incl_length; auto; intros x Hx.
  - apply B2, A2, Hx.
  - apply A2, B2, Hx.
Qed.
(** every colouring can be renamed to first-use order *)
Lemma rename {A} (dec : forall x y : A, {x = y} + {x <> y}) (c : list A) k : uses c k ->
  exists c', first_use c' (Z.of_nat k) /\ length c' = length c /\ forall i j u, nth_error c' i = Some u -> nth_error c' j = Some u -> nth_error c i = nth_error c j.
Proof.
  revert k. induction c as [|x c IH] using rev_ind; intros k U.
  - exists []. destruct U as (cs & _ & <- & U2). destruct cs as [|y cs]; [|destruct (proj1 (U2 y) (or_introl eq_refl))]. csplit; auto; [constructor|].
    intros i j u H. destruct i; discriminate.
  - destruct (in_dec dec x c) as [Hx|Hx].
    + assert (U' : uses c k). { destruct U as (cs & U1 & U2 & U3). exists cs. csplit; auto. intros y. rewrite U3, in_app_iff. cbn. intuition (subst; auto). }
      destruct (IH k U') as (c' & F & L & S). apply In_nth_error in Hx as (i0 & E0).
      assert (i0 < length c) by (apply nth_error_Some; congruence).
      destruct (nth_error c' i0) as [l0|] eqn:E1. 2:{ apply nth_error_None in E1. lia. }
      exists (c' ++ [l0]). csplit.
      * constructor; auto. apply (fu_bound _ _ F). eapply nth_error_In; eauto.
      * rewrite !app_length, L. auto.
      * assert (Q : forall i u, nth_error (c' ++ [l0]) i = Some u -> exists i', nth_error c' i' = Some u /\ nth_error (c ++ [x]) i = nth_error c i').
        { intros i u Hi. destruct (Nat.lt_ge_cases i (length c')) as [Lt|Ge].
          - rewrite nth_error_app1 in Hi by auto. exists i. split; auto. apply nth_error_app1. lia.
          - rewrite nth_error_app2 in Hi by auto. destruct (i - length c') as [|n] eqn:En; [|destruct n; discriminate]. injection Hi as <-.
            exists i0. split; auto. rewrite nth_error_app2 by lia. replace (i - length c) with 0 by lia. cbn. auto. }
        intros i j u Hi Hj. apply Q in Hi as (i' & A1 & ->), Hj as (j' & B1 & ->). eapply S; eauto.
    + assert (U' : exists k0, k = S k0 /\ uses c k0).
      { destruct U as (cs & U1 & U2 & U3). assert (In x cs) by (apply U3, in_or_app; right; now left). apply in_split in H as (a & b & ->).
        exists (length (a ++ b)). split; [rewrite <- U2, !app_length; cbn; lia|]. exists (a ++ b). csplit; auto.
        - eapply NoDup_remove_1; eauto.
        - intros y. specialize (U3 y). rewrite !in_app_iff in U3. cbn in U3. rewrite in_app_iff. apply NoDup_remove_2 in U1. rewrite in_app_iff in U1.
          destruct (dec x y) as [<-|Nx]; [tauto|]. intuition congruence. }
      destruct U' as (k0 & -> & U'). destruct (IH k0 U') as (c' & F & L & S).
      exists (c' ++ [(Z.of_nat k0 + 1)%Z]). replace (Z.of_nat (Datatypes.S k0)) with (Z.of_nat k0 + 1)%Z by lia. csplit.
      * now constructor.
      * rewrite !app_length, L. auto.
      * assert (Old : forall i u, nth_error (c' ++ [(Z.of_nat k0 + 1)%Z]) i = Some u -> i < length c' /\ nth_error c' i = Some u /\ (u <= Z.of_nat k0)%Z \/ i = length c' /\ u = (Z.of_nat k0 + 1)%Z).
        { intros i u Hi. destruct (Nat.lt_ge_cases i (length c')) as [Lt|Ge].
          - rewrite nth_error_app1 in Hi by auto. left. csplit; auto. apply (fu_bound _ _ F). eapply nth_error_In; eauto.
          - rewrite nth_error_app2 in Hi by auto. destruct (i - length c') as [|n] eqn:En; [|destruct n; discriminate]. injection Hi as <-. right. split; auto. lia. }
        intros i j u Hi Hj. apply Old in Hi as [(A1 & A2 & A3)|(A1 & A2)], Hj as [(B1 & B2 & B3)|(B1 & B2)]; try lia.
        -- rewrite !nth_error_app1 by lia. eapply S; eauto.
        -- subst i j. reflexivity.
Qed.

(** ** extending a partial colouring vertex by vertex *)
(** the largest label allowed after k colours *)
Definition top_of (b : option Z) (k : Z) : Z := match b with Some b => Z.min b (k + 1) | None => (k + 1)%Z end.
Definition within (b : option Z) (k : Z) : Prop := match b with Some b => (k <= b)%Z | None => True end.
Definition pos (b : option Z) : Prop := match b with Some b => (1 <= b)%Z | None => True end.
Section Ext.
Variables (K : nat) (es : list (nat * nat)) (UB : nat) (b : option Z).
Hypothesis G : simple_graph K es.
(** vertex number [length c] may get the colour l *)
Definition okat (c : list Z) (k l : Z) : Prop :=
  (1 <= l <= top_of b k)%Z /\ (l <= Z.of_nat UB)%Z /\ forall i, i < length c -> adjacent es (length c) i -> nth i c 0%Z <> l.
Inductive ext : list Z -> Z -> list Z -> Z -> Prop :=
| ext_nil c k : ext c k [] k
| ext_cons c k l ls k' : okat c k l -> ext (c ++ [l]) (Z.max l k) ls k' -> ext c k (l :: ls) k'.

Definition clean (c : list Z) : Prop := forall i j, i < j -> j < length c -> adjacent es i j -> nth i c 0%Z <> nth j c 0%Z.
Lemma adj_sym i j : adjacent es i j <-> adjacent es j i.
Proof. unfold adjacent. tauto. Qed.
Lemma clean_colouring c : length c = K -> (clean c <-> colouring K es c).
Proof.
  intros L. split.
  - intros H. split; auto. intros x y Hxy u Hx Hy. destruct (G x y Hxy) as (A & B & C).
    apply nth_error_nth with (d := 0%Z) in Hx, Hy. destruct (Nat.lt_trichotomy x y) as [T|[T|T]]; [|lia|].
    + apply (H x y T); [lia|now left|congruence].
    + apply (H y x T); [lia|now right|congruence].
  - intros [_ H] i j Lt Lj [A|A] E.
    + apply (H i j A (nth i c 0%Z)); [apply nth_error_nth'; lia|]. rewrite E. apply nth_error_nth'. lia.
    + apply (H j i A (nth i c 0%Z)); [|apply nth_error_nth'; lia]. rewrite E. apply nth_error_nth'. lia.
Qed.
Lemma clean_snoc c l : clean (c ++ [l]) <-> clean c /\ forall i, i < length c -> adjacent es (length c) i -> nth i c 0%Z <> l.
Proof.
  split.
  - intros H. split.
    + intros i j Lt Lj A. specialize (H i j Lt). rewrite app_length in H. rewrite !app_nth1 in H by lia. apply H; auto. lia.
    + intros i Li A. specialize (H i (length c) Li). rewrite app_length in H. cbn in H. rewrite app_nth1, app_nth2, Nat.sub_diag in H by lia. apply H; [lia|].
      now apply adj_sym.
  - intros [H1 H2] i j Lt Lj A. rewrite app_length in Lj. cbn in Lj. destruct (Nat.eq_dec j (length c)) as [->|N].
    + rewrite app_nth1, app_nth2, Nat.sub_diag by lia. cbn. apply H2; auto. now apply adj_sym.
    + rewrite !app_nth1 by lia. apply H1; auto. lia.
Qed.
Lemma top_within k l : (0 <= k)%Z -> (1 <= l <= top_of b k)%Z -> (1 <= l <= k + 1)%Z /\ (within b l).
Proof. unfold top_of, within. destruct b; intros; split; auto; lia. Qed.
Lemma ext_sound c k ls k' : ext c k ls k' -> first_use c k -> clean c -> (k <= Z.of_nat UB)%Z -> (within b k \/ k = 0%Z) ->
  first_use (c ++ ls) k' /\ clean (c ++ ls) /\ (k' <= Z.of_nat UB)%Z /\ (within b k' \/ k' = 0%Z).
Proof.
  induction 1 as [c k|c k l ls k' (O1 & O2 & O3) H IH]; intros F C U W; [rewrite app_nil_r; auto|].
  pose proof (fu_bound _ _ F) as (B & _). destruct (top_within k l B O1) as [T1 T2].
  replace (c ++ l :: ls) with ((c ++ [l]) ++ ls) by (rewrite <- app_assoc; auto). apply IH.
  - now apply fu_step.
  - apply clean_snoc. auto.
  - lia.
  - left. unfold within in *. destruct b; auto. lia.
Qed.
Lemma ext_complete ls : forall c k k', first_use c k -> first_use (c ++ ls) k' -> clean (c ++ ls) -> (k' <= Z.of_nat UB)%Z -> within b k' -> ext c k ls k'.
Proof.
  induction ls as [|l ls IH]; intros c k k' F F' C U W.
  - rewrite app_nil_r in F'. rewrite (fu_fun _ _ _ F' F). constructor.
  - replace (c ++ l :: ls) with ((c ++ [l]) ++ ls) in * by (rewrite <- app_assoc; auto).
    destruct (fu_prefix _ _ _ F') as (k1 & F1). destruct (fu_snoc _ _ _ F1) as (k0 & F0 & L & E). rewrite (fu_fun _ _ _ F0 F) in *. subst k1.
    assert (Lk : (l <= k')%Z). { apply (fu_bound _ _ F'). apply in_or_app. left. apply in_or_app. right. now left. }
    assert (C1 : clean (c ++ [l])). { intros i j Lt Lj A. specialize (C i j Lt). rewrite app_length in C. rewrite (app_nth1 _ ls), (app_nth1 _ ls) in C by lia. apply C; auto. lia. }
    constructor.
    + split; [unfold top_of, within in *; destruct b; lia|]. split; [lia|]. now apply clean_snoc.
    + apply IH; auto.
Qed.
Lemma ext_all ls k : ls <> [] -> (ext [] 0 ls k <-> first_use ls k /\ clean ls /\ (k <= Z.of_nat UB)%Z /\ within b k).
Proof.
  intros Ne. split.
  - intros H. destruct (ext_sound _ _ _ _ H) as (A & B & C & D); auto; [constructor|intros i j Lt Lj; cbn in Lj; lia|lia|]. cbn in A, B.
    csplit; auto. destruct D as [D| ->]; auto. exfalso. apply fu_bound in A as (_ & A & _). destruct ls as [|l ls]; [congruence|]. specialize (A l (or_introl eq_refl)). lia.
  - intros (A & B & C & D). apply ext_complete; auto. constructor.
Qed.

(** ** a problem whose steps extend partial colourings *)
Context {St : Type} (P : prob St) (rep : St -> list Z -> Z -> Prop).
Record extends : Prop := {
  xt_min : p_min P = true;
  xt_init : rep (p_init P) [] 0;
  xt_rep : forall s c k, rep s c k -> s <> p_target P /\ length c < K /\ first_use c k;
  xt_step : forall s c k l s', rep s c k -> In l (p_labels P s) -> p_stf P s l = Some s' -> okat c k l /\
    (S (length c) = K /\ s' = p_target P \/ S (length c) < K /\ rep s' (c ++ [l]) (Z.max l k));
  xt_back : forall s c k l, rep s c k -> okat c k l -> In l (p_labels P s) /\ exists s', p_stf P s l = Some s';
  xt_cost : forall s c k l, rep s c k -> p_cost P s l = Z.max 0 (l - k) }.
Hypothesis X : extends.

Lemma xt_path_fwd s ls v t : path P s ls v t -> forall c k, rep s c k ->
  ext c k ls (k + v) /\ (t = p_target P /\ length c + length ls = K \/ length c + length ls < K /\ rep t (c ++ ls) (k + v)).
Proof.
  induction 1 as [s|s l s' ls v t N Hl S Hp IH]; intros c k R.
  - rewrite app_nil_r, Z.add_0_r. split; [constructor|]. right. split; auto. apply (xt_rep X) in R as (_ & L & _). cbn. lia.
  - destruct (xt_step X s c k l s' R Hl S) as (O & St'). rewrite (xt_cost X s c k l R). pose proof (xt_rep X _ _ _ R) as (_ & _ & F).
    pose proof (fu_bound _ _ F) as (Bk & _). destruct O as (O1 & O2 & O3). replace (k + (Z.max 0 (l - k) + v))%Z with (Z.max l k + v)%Z by lia.
    destruct St' as [[E ->]|[E R']].
    + inversion Hp; subst; [|congruence]. split; [rewrite Z.add_0_r; constructor; [split; auto|constructor]|]. left. split; auto. cbn. lia.
    + destruct (IH _ _ R') as [A B]. split; [constructor; auto; split; auto|]. rewrite app_length in B. cbn [length] in *. rewrite <- app_assoc in B.
      destruct B as [[B1 B2]|[B1 B2]]; [left|right]; split; auto; lia.
Qed.
Lemma xt_path_bwd c k ls k' : ext c k ls k' -> forall s, rep s c k -> length c + length ls = K -> path P s ls (k' - k) (p_target P).
Proof.
  induction 1 as [c k|c k l ls k' O H IH]; intros s R L.
  - apply (xt_rep X) in R as (_ & R & _). cbn in L. lia.
  - destruct (xt_back X s c k l R O) as (Hl & s' & S). destruct (xt_step X s c k l s' R Hl S) as (_ & St').
    pose proof (xt_rep X _ _ _ R) as (Nt & _ & F). pose proof (fu_bound _ _ F) as (Bk & _). destruct O as (O1 & O2 & O3).
    replace (k' - k)%Z with (p_cost P s l + (k' - Z.max l k))%Z by (rewrite (xt_cost X s c k l R); lia).
    eapply path_cons; eauto. cbn [length] in L. destruct St' as [[E ->]|[E R']].
    + destruct ls; [|cbn in L; lia]. inversion H; subst. rewrite Z.sub_diag. constructor.
    + apply IH; auto. rewrite app_length. cbn. lia.
Qed.
Hypothesis HK : 1 <= K.
Lemma xt_solutions ls v : path P (p_init P) ls v (p_target P) <-> first_use ls v /\ colouring K es ls /\ (v <= Z.of_nat UB)%Z /\ within b v.
Proof.
  split.
  - intros H. destruct (xt_path_fwd _ _ _ _ H [] 0%Z (xt_init X)) as [A [[_ B]|[_ B]]].
    + cbn in A, B. destruct ls as [|l ls]; [cbn in B; lia|]. apply ext_all in A as (A1 & A2 & A3 & A4); [|discriminate]. csplit; auto. now apply clean_colouring.
    + apply (xt_rep X) in B as (B & _). congruence.
  - intros (A1 & A2 & A3 & A4). pose proof (proj1 A2) as L. assert (ls <> []) by (intros ->; cbn in L; lia).
    replace v with (v - 0)%Z by lia. apply (xt_path_bwd [] 0); auto using (xt_init X). apply ext_all; auto. csplit; auto. now apply clean_colouring.
Qed.
(** reachable states carry the number of colours used as their value *)
Lemma xt_value s vb ls : path P (p_init P) ls vb s -> s <> p_target P -> rep s ls vb.
Proof. intros H N. destruct (xt_path_fwd _ _ _ _ H [] 0%Z (xt_init X)) as [_ [[B _]|[_ B]]]; [congruence|exact B]. Qed.
Lemma xt_range : (Z.of_nat UB < 2147483647)%Z -> in_range P (p_init P) 0.
Proof.
  intros U ls v s H. destruct (xt_path_fwd _ _ _ _ H [] 0%Z (xt_init X)) as [A _]. cbn in A. unfold bt, val, sentinel. rewrite (xt_min X).
  destruct (ext_sound _ _ _ _ A) as (B & _ & C & _); [constructor|intros i j Lt Lj; cbn in Lj; lia|lia|now right|]. lia.
Qed.
Lemma xt_worst V : solution P (p_init P) 0 V -> be P (initialWorst P) V.
Proof.
  intros (v & (ls & H) & ->). apply xt_solutions in H as (F & _). apply fu_bound in F as (F & _). unfold be, val, initialWorst, intMax. rewrite (xt_min X). lia.
Qed.
End Ext.

Lemma ext_le es UB b c k ls k' : ext es UB b c k ls k' -> (k <= k')%Z /\ forall l, In l ls -> (l <= k')%Z.
Proof.
  induction 1 as [c k|c k l ls k' O H [IH1 IH2]]; [split; [lia|intros l []]|]. split; [lia|]. intros x [<-|Hx]; [lia|auto].
Qed.
Lemma ext_bound es UB c k ls k' b : ext es UB None c k ls k' -> (k' <= b)%Z -> ext es UB (Some b) c k ls k'.
Proof.
  intros H. induction H as [c k|c k l ls k' O H IH]; intros L; [constructor|]. pose proof (ext_le _ _ _ _ _ _ _ H) as [M _].
  constructor; auto. destruct O as (O1 & O2 & O3). split; auto. unfold top_of in *. lia.
Qed.

(** ** closures *)
Section Shape.
Variable K : nat.
Context {St : Type} (P : prob St) (live : St -> Prop) (vtx : St -> nat) (sup : St -> St -> Prop).
Record shaped : Prop := {
  sh_min : p_min P = true; sh_local : p_local P = None; sh_sdom : p_sdom P = None;
  sh_eqb : forall a b, p_eqb P a b = true <-> a = b;
  sh_eqs : forall s, live s -> p_eqs P s = false;
  sh_eqst : p_eqs P (p_target P) = true;
  sh_vtx : forall s, live s -> vtx s < K;
  sh_vtxt : vtx (p_target P) = K;
  sh_step : forall s l s', live s -> In l (p_labels P s) -> p_stf P s l = Some s' -> s' = p_target P \/ (live s' /\ vtx s' = S (vtx s));
  sh_merge : forall a b m, live a -> live b -> p_smf P a b = Some m -> live m /\ vtx m = vtx a /\ sup m a /\ sup m b;
  sh_sim : forall m s l s', live m -> live s -> sup m s -> In l (p_labels P s) -> p_stf P s l = Some s' ->
    In l (p_labels P m) /\ p_cost P m l = p_cost P s l /\ exists m', p_stf P m l = Some m' /\ (s' = p_target P /\ m' = p_target P \/ (sup m' s' /\ live m' /\ live s')) }.
Hypothesis H : shaped.
Definition linv (s : St) : Prop := live s \/ s = p_target P.
Lemma live_ne s : live s -> s <> p_target P.
Proof. intros L ->. pose proof (sh_eqs H _ L) as E. rewrite (sh_eqst H) in E. discriminate. Qed.
Lemma linv_live s : linv s -> s <> p_target P -> live s.
Proof. intros [?|?]; tauto. Qed.
Lemma sh_closed : closed P linv.
Proof.
  constructor.
  - intros a b _ _. apply (sh_eqb H).
  - intros s [L| ->]; [|split; auto using (sh_eqst H)]. rewrite (sh_eqs H) by auto. split; [discriminate|]. intros E. now apply live_ne in L.
  - now right.
  - intros s l s' Is Nt Hl E. destruct (sh_step H s l s') as [->|[L _]]; auto; [now apply linv_live|now right|now left].
Qed.
Lemma sup_path s ls v t : path P s ls v t -> t = p_target P -> forall m, live m -> live s -> sup m s -> path P m ls v t.
Proof.
  intros Hp Et. induction Hp as [s|s l s' ls v t N Hl S Hp IH]; intros m Lm Ls Sm; [subst; now apply live_ne in Ls|].
  destruct (sh_sim H m s l s' Lm Ls Sm Hl S) as (A & B & m' & C & D). rewrite <- B.
  eapply path_cons; eauto using live_ne. destruct D as [[-> ->]|(D1 & D2 & D3)]; auto.
Qed.
Lemma sh_model : valid_model P linv vtx K.
Proof.
  constructor.
  - exact sh_closed.
  - intros s l s' Is Nt Hl E Nt'. destruct (sh_step H s l s') as [->|[_ L]]; auto; [now apply linv_live|congruence].
  - intros s Is Nt. apply linv_live in Is; auto. pose proof (sh_vtx H s Is). lia.
  - intros a b m Ia Ib Na Nb _ E. apply linv_live in Ia, Ib; auto. destruct (sh_merge H a b m Ia Ib E) as (A & B & _). csplit; auto; [now left|now apply live_ne].
  - intros a b m Ia Ib Na Nb _ E. apply linv_live in Ia, Ib; auto. destruct (sh_merge H a b m Ia Ib E) as (A & _ & B & C).
    split; intros v (ls & Hp); exists v; (split; [exists ls; eapply sup_path; eauto|apply be_refl]).
  - intros sdom a b Es. rewrite (sh_sdom H) in Es. discriminate.
  - intros sdom a s l Es. rewrite (sh_sdom H) in Es. discriminate.
  - intros local s c v El. rewrite (sh_local H) in El. discriminate.
Qed.
End Shape.

(** ** labels that depend on the primal bound *)
Section Fam.
Variables (K : nat) (es : list (nat * nat)) (UB : nat).
Hypothesis G : simple_graph K es.
Hypothesis HK : 1 <= K.
Hypothesis HU : (Z.of_nat UB < 2147483647)%Z.
Context {St : Type} (PP : option Z -> prob St) (rep : St -> list Z -> Z -> Prop) (live : St -> Prop) (vtx : St -> nat) (sup : St -> St -> Prop).
Record family : Prop := {
  fa_lab : forall b, PP (Some b) = relabel (PP None) (p_labels (PP (Some b)));
  fa_ext : forall b, pos b -> extends K es UB b (PP b) rep;
  fa_shape : forall b, pos b -> shaped K (PP b) live vtx sup;
  fa_live : forall s c k, rep s c k -> live s;
  fa_sub : forall b s l, (1 <= b)%Z -> In l (p_labels (PP (Some b)) s) -> In l (p_labels (PP None) s) }.
Hypothesis F : family.
Notation P := (PP None).
Let lab b := p_labels (PP (Some b)).
Lemma fam_at p0 b : (1 <= p0)%Z -> at_bound P p0 b -> (1 <= b)%Z.
Proof.
  intros A [->|(v & (ls & H) & ->)]; auto. apply (xt_solutions K es UB None G P rep (fa_ext F None I) HK) in H as (H & [L _] & _).
  apply fu_bound in H as (_ & H1 & _). destruct ls as [|l ls]; [cbn in L; lia|]. specialize (H1 l (or_introl eq_refl)). lia.
Qed.
Lemma fam_inv b : linv (PP (Some b)) live = linv P live.
Proof. unfold linv. now rewrite (fa_lab F b). Qed.
Lemma fam_dyn p0 : (1 <= p0)%Z -> dyn_ok P lab p0 (linv P live) vtx K.
Proof.
  intros A. constructor.
  - intros b Ab. apply fam_at in Ab; auto. unfold lab. rewrite <- (fa_lab F b), <- (fam_inv b). apply (sh_model K _ live vtx sup (fa_shape F (Some b) Ab)).
  - intros b s l Ab. apply fam_at in Ab; auto. now apply (fa_sub F).
  - intros b s vb ls v Ab (ls0 & v0 & E1 & E2 & Hp) Nt (ls' & H) B. apply fam_at in Ab; auto. cbn in E1, E2. subst ls vb.
    pose proof (xt_value K es UB None P rep (fa_ext F None I) s v0 ls0 Hp Nt) as R.
    destruct (xt_path_fwd K es UB None P rep (fa_ext F None I) _ _ _ _ H _ _ R) as [E [[_ L]|[_ Q]]].
    + assert (Le : (v0 + v < b)%Z). { unfold bt, val in B. rewrite (xt_min _ _ _ _ _ _ (fa_ext F None I)) in B. lia. }
      pose proof (ext_bound es UB _ _ _ _ b E ltac:(lia)) as E'.
      pose proof (xt_path_bwd K es UB (Some b) (PP (Some b)) rep (fa_ext F (Some b) Ab) _ _ _ _ E' s R L) as Hb.
      exists v. split; [|apply be_refl]. exists ls'. rewrite (fa_lab F b) in Hb. cbn [relabel p_target] in Hb. replace (v0 + v - v0)%Z with v in Hb by lia. exact Hb.
    + apply (xt_rep _ _ _ _ _ _ (fa_ext F None I)) in Q as (Q & _). congruence.
Qed.
Lemma fam_setting srt dfuel mxw : (forall d l, Permutation (srt d l) l) -> K + 1 < dfuel -> (N.of_nat mxw < 4294967296)%N ->
  setting P (linv P live) vtx K srt dfuel mxw.
Proof.
  intros S D W. pose proof (fa_ext F None I) as X. pose proof (xt_init _ _ _ _ _ _ X) as R. constructor; auto.
  - apply (sh_model K P live vtx sup (fa_shape F None I)).
  - now apply (xt_rep _ _ _ _ _ _ X) in R.
  - left. eapply (fa_live F); eauto.
  - eapply xt_range; eauto.
Qed.
End Fam.

(** ** coloring.cpp *)
Lemma labels_spec UB x : bmem (co_labels UB) x = true <-> 1 <= x <= UB.
Proof. unfold co_labels. rewrite bmem_del, bmem_full, andb_true_iff, negb_true_iff, Nat.ltb_lt, Nat.eqb_neq. lia. Qed.
Lemma blist_in n m v : In v (blist n m) <-> v < n /\ bmem m v = true.
Proof. unfold blist. rewrite filter_In, in_seq. intuition lia. Qed.
Lemma strip_length s l vs B : length (fold_left (co_strip s l) vs B) = length B.
Proof. revert B. induction vs as [|v vs IH]; intros B; cbn [fold_left]; auto. rewrite IH. unfold co_strip. destruct (bmem _ l); auto. apply upd_length. Qed.
Lemma strip_nth s l vs : (forall v, In v vs -> v < length s) -> forall B j x, length B = length s ->
  bmem (nth j (fold_left (co_strip s l) vs B) 0%N) x = true <-> bmem (nth j B 0%N) x = true /\ ~ (x = l /\ In j vs /\ bmem (nth j s 0%N) l = true).
Proof.
  induction vs as [|v vs IH]; intros Hv B j x L; cbn [fold_left In]; [tauto|]. rewrite IH; [|intros; apply Hv; now right|unfold co_strip; destruct (bmem _ l); rewrite ?upd_length; auto].
  assert (Q : bmem (nth j (co_strip s l B v) 0%N) x = true <-> bmem (nth j B 0%N) x = true /\ ~ (x = l /\ v = j /\ bmem (nth j s 0%N) l = true)).
  { unfold co_strip. destruct (bmem (nth v s 0%N) l) eqn:E.
    - rewrite nth_upd. replace (v <? length B) with true by (symmetry; apply Nat.ltb_lt; rewrite L; apply Hv; now left). rewrite andb_true_r.
      destruct (Nat.eqb_spec v j) as [->|N]; [|intuition]. rewrite bmem_del, andb_true_iff, negb_true_iff, Nat.eqb_neq.
      split; intros [M1 M2]; (split; [exact M1|]); [intros (-> & _); now apply M2|intros ->; apply M2; auto].
    - split; [|tauto]. intros H. split; auto. intros (_ & -> & C). congruence. }
  rewrite Q. tauto.
Qed.

Section C1.
Variables (K : nat) (es : list (nat * nat)) (UB : nat).
Hypothesis G : simple_graph K es.
Hypothesis HK : 1 <= K.
(** the vertices that lose a colour *)
Variable nb : nat -> list nat.
Hypothesis Hnb : forall v j, In j (nb v) -> j < K.
Hypothesis Hadj : forall v j, v < j -> j < K -> (In j (nb v) <-> adjacent es v j).

Definition c1_live (s : color) : Prop := co_vtx s < K /\ length (co_s s) = K /\ (0 <= co_last s)%Z /\ forall j x, bmem (nth j (co_s s) 0%N) x = true -> 1 <= x <= UB.
Definition c1_rep (s : color) (c : list Z) (k : Z) : Prop :=
  c1_live s /\ co_vtx s = length c /\ co_last s = k /\ first_use c k /\
  forall j x, length c <= j < K -> (bmem (nth j (co_s s) 0%N) x = true <-> 1 <= x <= UB /\ forall i, i < length c -> adjacent es j i -> nth i c 0%Z <> Z.of_nat x).
Definition c1_sup (m s : color) : Prop :=
  co_vtx m = co_vtx s /\ co_last m = co_last s /\ forall j x, bmem (nth j (co_s s) 0%N) x = true -> bmem (nth j (co_s m) 0%N) x = true.
Definition c1_next (s : color) (l : Z) : color :=
  mkCol (upd (fold_left (co_strip (co_s s) (Z.to_nat l)) (nb (co_vtx s)) (co_s s)) (co_vtx s) (badd 0 (Z.to_nat l))) (Z.max l (co_last s)) (co_vtx s + 1).

Lemma c1_next_mem s l j x : c1_live s -> bmem (nth j (co_s (c1_next s l)) 0%N) x = true <->
  j = co_vtx s /\ x = Z.to_nat l \/ j <> co_vtx s /\ bmem (nth j (co_s s) 0%N) x = true /\ ~ (x = Z.to_nat l /\ In j (nb (co_vtx s))).
Proof.
  intros (V & L & _ & _). unfold c1_next. cbn [co_s]. rewrite nth_upd, strip_length, L. replace (co_vtx s <? K) with true by (symmetry; now apply Nat.ltb_lt).
  rewrite andb_true_r. destruct (Nat.eqb_spec (co_vtx s) j) as [<-|N].
  - rewrite bmem_add, bmem_0, orb_false_r, Nat.eqb_eq. intuition congruence.
  - rewrite strip_nth; auto; [|intros v Hv; apply Hnb in Hv; lia]. split.
    + intros [A B]. right. csplit; auto. intros [-> C]. apply B. csplit; auto.
    + intros [[-> _]|(_ & A & B)]; [congruence|]. split; auto. intros (-> & C & _). auto.
Qed.
Lemma c1_stf s l s' : c1_live s -> co_stf K nb s l = Some s' -> (0 <= l)%Z /\ bmem (nth (co_vtx s) (co_s s) 0%N) (Z.to_nat l) = true /\
  (co_vtx s + 1 = K /\ s' = co_target K \/ co_vtx s + 1 < K /\ s' = c1_next s l).
Proof.
  intros (V & _). unfold co_stf. destruct (zmem _ l) eqn:E; [|discriminate]. apply zmem_spec in E as [E1 E2].
  destruct (Nat.eqb_spec (co_vtx s + 1) K) as [E|E]; intros [= <-]; csplit; auto. right. split; [lia|reflexivity].
Qed.
Lemma c1_next_live s l : c1_live s -> bmem (nth (co_vtx s) (co_s s) 0%N) (Z.to_nat l) = true -> co_vtx s + 1 < K -> c1_live (c1_next s l).
Proof.
  intros Ls E V. pose proof Ls as (A & B & C & D). unfold c1_live. csplit.
  - cbn. lia.
  - unfold c1_next. cbn [co_s]. now rewrite upd_length, strip_length.
  - cbn. lia.
  - intros j x H. apply c1_next_mem in H as [[-> ->]|(_ & H & _)]; auto; eapply D; eauto.
Qed.
Lemma c1_labels b s l : pos b -> c1_live s -> (In l (co_lgf K b s) <-> (1 <= l <= top_of b (co_last s))%Z).
Proof.
  intros Pb (V & _ & L & _). unfold co_lgf. replace (K <=? co_vtx s) with false by (symmetry; apply Nat.leb_gt; lia).
  unfold top_of. destruct b; cbn [pos] in Pb; apply in_rclose; lia.
Qed.
Lemma c1_extends b : pos b -> extends K es UB b (cg_prob K UB nb b) c1_rep.
Proof.
  intros Pb. constructor; cbn [cg_prob p_min p_init p_target p_labels p_stf p_cost]; auto.
  - assert (M : forall j x, bmem (nth j (repeat (co_labels UB) K) 0%N) x = true <-> j < K /\ 1 <= x <= UB).
    { intros j x. destruct (Nat.lt_ge_cases j K) as [Lj|Gj].
      - rewrite nth_repeat_lt by auto. rewrite labels_spec. tauto.
      - rewrite nth_overflow by (rewrite repeat_length; auto). rewrite bmem_0. split; [discriminate|lia]. }
    unfold c1_rep, c1_live, co_init. cbn [co_s co_last co_vtx length]. rewrite repeat_length. csplit; auto; try lia.
    + intros j x H. apply M in H. tauto.
    + constructor.
    + intros j x Hj. rewrite M. split; [intros [_ H]; split; auto; intros; lia|intros [H _]; split; auto; lia].
  - intros s c k ((V & _) & E & _ & F & _). csplit; auto; [|lia]. intros ->. cbn in V. lia.
  - intros s c k l s' (Ls & E & El & F & M) Hl S. apply c1_labels in Hl; auto. rewrite El in Hl. destruct (c1_stf s l s' Ls S) as (A & B & D).
    pose proof Ls as (V & _). rewrite E in B. apply M in B as [B1 B2]; [|lia]. split.
    + split; auto. split; [lia|]. intros i Li Ad. specialize (B2 i Li Ad). rewrite Z2Nat.id in B2 by lia. auto.
    + destruct D as [[D ->]|[D ->]]; [left; split; auto; lia|right]. split; [lia|]. split; [|split; [|split; [|split]]].
      * apply c1_next_live; auto. rewrite E. apply M; [lia|]. auto.
      * cbn. rewrite app_length. cbn. lia.
      * cbn. now rewrite El.
      * apply fu_step; auto. pose proof (fu_bound _ _ F) as (Bk & _). eapply top_within; eauto.
      * intros j x Hj. rewrite app_length in *. cbn in Hj. rewrite c1_next_mem by auto. rewrite E. split.
        -- intros [[-> _]|(_ & H1 & H2)]; [lia|]. apply M in H1 as [H1 H3]; [|lia]. split; auto. intros i Hi Ad. cbn in Hi. destruct (Nat.eq_dec i (length c)) as [->|N].
           ++ rewrite app_nth2, Nat.sub_diag by lia. cbn. intros Q. apply H2. split; [lia|]. apply Hadj; [lia|lia|]. now apply adj_sym.
           ++ rewrite app_nth1 by lia. apply H3; auto. lia.
        -- intros [H1 H2]. right. split; [lia|]. split.
           ++ apply M; [lia|]. split; auto. intros i Hi Ad. specialize (H2 i). rewrite app_nth1 in H2 by lia. apply H2; auto. cbn. lia.
           ++ intros [-> Ad]. apply Hadj in Ad; [|lia|lia]. apply (H2 (length c)); [cbn; lia|now apply adj_sym|]. rewrite app_nth2, Nat.sub_diag by lia. cbn. lia.
  - intros s c k l (Ls & E & El & F & M) (O1 & O2 & O3). rewrite c1_labels, El by auto. split; auto. unfold co_stf.
    assert (Z : zmem (nth (co_vtx s) (co_s s) 0%N) l = true).
    { apply zmem_spec. split; [lia|]. rewrite E. apply M; [pose proof (proj1 Ls); lia|]. split; [lia|]. rewrite Z2Nat.id by lia. auto. }
    rewrite Z. destruct (_ =? _); eauto.
  - intros s c k l (_ & _ & <- & _). reflexivity.
Qed.

Lemma merge_nth m (a : list N) : forall B j, nth j (fold_left (fun B i => upd B i (N.lor (nth i B 0%N) (nth i a 0%N))) (seq 0 m) B) 0%N =
   if (j <? m) && (j <? length B) then N.lor (nth j B 0%N) (nth j a 0%N) else nth j B 0%N.
Proof.
  induction m as [|m IH]; intros B j; [reflexivity|]. rewrite seq_S, fold_left_app. cbn [fold_left plus]. rewrite nth_upd, !IH.
  assert (L : forall n B, length (fold_left (fun B i => upd B i (N.lor (nth i B 0%N) (nth i a 0%N))) (seq 0 n) B) = length B).
  { clear. intros n. generalize 0. induction n as [|n IH]; intros k B; cbn [seq fold_left]; auto. rewrite IH. apply upd_length. }
  rewrite L, Nat.ltb_irrefl. cbn [andb].
  destruct (Nat.eqb_spec m j) as [->|N]; cbn [andb].
  - replace (j <? S j) with true by (symmetry; apply Nat.ltb_lt; lia). rewrite Nat.ltb_irrefl. cbn [andb]. destruct (j <? length B); auto.
  - destruct (Nat.ltb_spec j m), (Nat.ltb_spec j (S m)); try lia; reflexivity.
Qed.
Lemma merge_length m (a : list N) : forall B, length (fold_left (fun B i => upd B i (N.lor (nth i B 0%N) (nth i a 0%N))) (seq 0 m) B) = length B.
Proof. generalize 0. induction m as [|m IH]; intros k B; cbn [seq fold_left]; auto. rewrite IH. apply upd_length. Qed.

Lemma c1_shape b : pos b -> shaped K (cg_prob K UB nb b) c1_live co_vtx c1_sup.
Proof.
  intros Pb. constructor; cbn [cg_prob p_min p_init p_target p_labels p_stf p_cost p_local p_sdom p_eqb p_eqs p_smf]; auto.
  - intros [a1 a2 a3] [b1 b2 b3]. unfold color_eqb. cbn [co_s co_last co_vtx]. rewrite !andb_true_iff, Z.eqb_eq, Nat.eqb_eq, (arr_eqb_spec N.eqb N.eqb_eq).
    split; [intros [[-> ->] ->]; auto|intros [= -> -> ->]; auto].
  - intros s (V & _). apply Nat.eqb_neq. lia.
  - apply Nat.eqb_refl.
  - intros s (V & _). auto.
  - intros s l s' Ls _ S. destruct (c1_stf s l s' Ls S) as (A & B & [[_ ->]|[D ->]]); auto. right. split; [now apply c1_next_live|]. cbn. lia.
  - intros a c m La Lc. unfold co_smf. destruct ((co_last a =? co_last c)%Z && (co_vtx a =? co_vtx c)) eqn:E; [|discriminate]. intros [= <-].
    apply andb_true_iff in E as [E1 E2]. apply Z.eqb_eq in E1. apply Nat.eqb_eq in E2. pose proof La as (A1 & A2 & A3 & A4). pose proof Lc as (B1 & B2 & B3 & B4).
    assert (M : forall j x, bmem (nth j (fold_left (fun B i => upd B i (N.lor (nth i B 0%N) (nth i (co_s c) 0%N))) (seq 0 K) (co_s a)) 0%N) x = true <->
       bmem (nth j (co_s a) 0%N) x = true \/ bmem (nth j (co_s c) 0%N) x = true).
    { intros j x. rewrite merge_nth, A2. destruct (Nat.ltb_spec j K) as [Lj|Gj]; cbn [andb]; [rewrite bmem_or, orb_true_iff; tauto|].
      split; auto. intros [H|H]; auto. rewrite nth_overflow in H by lia. rewrite bmem_0 in H. discriminate. }
    unfold c1_live, c1_sup. cbn [co_s co_last co_vtx]. rewrite merge_length. csplit; auto.
    + intros j x H. apply M in H as [H|H]; [eapply A4|eapply B4]; eauto.
    + intros j x H. apply M. auto.
    + intros j x H. apply M. auto.
  - intros m s l s' Lm Ls (S1 & S2 & S3) Hl S. rewrite c1_labels in Hl |- * by auto. rewrite S2. split; auto. split; [unfold co_scf; now rewrite S2|].
    destruct (c1_stf s l s' Ls S) as (A & B & D). unfold co_stf. rewrite S1.
    assert (Z : zmem (nth (co_vtx s) (co_s m) 0%N) l = true) by (apply zmem_spec; auto). rewrite Z.
    destruct D as [[D ->]|[D ->]].
    + replace (co_vtx s + 1 =? K) with true by (symmetry; now apply Nat.eqb_eq). eexists. split; [reflexivity|]. auto.
    + replace (co_vtx s + 1 =? K) with false by (symmetry; apply Nat.eqb_neq; lia). eexists. split; [reflexivity|]. right.
      assert (E : mkCol (upd (fold_left (co_strip (co_s m) (Z.to_nat l)) (nb (co_vtx s)) (co_s m)) (co_vtx s) (badd 0 (Z.to_nat l))) (Z.max l (co_last s)) (co_vtx s + 1) =
        c1_next m l) by (unfold c1_next; now rewrite S1, S2).
      rewrite S2. rewrite E. csplit.
      * unfold c1_sup. cbn [c1_next co_vtx co_last]. rewrite S1, S2. csplit; auto. intros j x. rewrite !c1_next_mem by auto. rewrite S1.
        intros [H|(H1 & H2 & H3)]; auto.
      * apply c1_next_live; auto; rewrite S1; auto.
      * now apply c1_next_live.
Qed.
Lemma c1_family : family K es UB (cg_prob K UB nb) c1_rep c1_live co_vtx c1_sup.
Proof.
  constructor.
  - reflexivity.
  - exact c1_extends.
  - exact c1_shape.
  - intros s c k (H & _). exact H.
  - intros b s l Hb. cbn [cg_prob p_labels]. unfold co_lgf. destruct (K <=? co_vtx s); auto.
    destruct (Z.le_gt_cases 1 (co_last s + 1)%Z) as [L|L]; [rewrite !in_rclose by lia; lia|]. now replace (Z.min b (co_last s + 1)) with (co_last s + 1)%Z by lia.
Qed.
End C1.
Lemma co_nb_in K es v j : In j (co_nb K es v) <-> j < K /\ adjacent es v j.
Proof. unfold co_nb. rewrite blist_in, adjs_spec. tauto. Qed.
Lemma ct_nb_in K es v j : In j (ct_nb K es v) <-> v < j < K /\ adjacent es v j.
Proof.
  unfold ct_nb. rewrite filter_In, in_seq, existsb_exists. unfold adjacent. split.
  - intros [H ((a & c) & He & Q)]. split; [lia|]. cbn [fst snd] in Q. rewrite orb_true_iff, !andb_true_iff, !Nat.eqb_eq in Q. destruct Q as [[-> ->]|[-> ->]]; auto.
  - intros [H A]. split; [lia|]. destruct A as [He|He]; eexists; (split; [exact He|]); cbn [fst snd]; rewrite !Nat.eqb_refl; cbn; auto using orb_true_r.
Qed.
Lemma co_family K es UB : 1 <= K -> family K es UB (co_prob K es UB) (c1_rep K es UB) (c1_live K UB) co_vtx c1_sup.
Proof. intros HK. apply c1_family; auto; intros v j; rewrite co_nb_in; tauto. Qed.
Lemma ct_family K es UB : 1 <= K -> family K es UB (ct_prob K es UB) (c1_rep K es UB) (c1_live K UB) co_vtx c1_sup.
Proof. intros HK. apply c1_family; auto; intros v j; rewrite ct_nb_in; tauto. Qed.

(** ** coloring2.cpp and coloring3.cpp *)
Section C2.
Variables (K : nat) (es : list (nat * nat)) (UB : nat) (adj : nat -> N).
Hypothesis G : simple_graph K es.
Hypothesis HK : 1 <= K.
Hypothesis HS : (Z.of_nat UB < 65536)%Z.
(** the neighbours that matter: those before v *)
Hypothesis HA : forall v i, i < v -> (bmem (adj v) i = true <-> adjacent es v i).

Definition c2_live (s : color2) : Prop :=
  c2_vtx s < K /\ length (c2_s s) = K /\ (0 <= c2_last s)%Z /\ forall j, c2_vtx s <= j -> nth j (c2_s s) 0 = 0.
Definition c2_rep (s : color2) (c : list Z) (k : Z) : Prop :=
  c2_live s /\ c2_vtx s = length c /\ c2_last s = k /\ first_use c k /\ forall i, i < length c -> Z.of_nat (nth i (c2_s s) 0) = nth i c 0%Z.
Definition c2_sup (m s : color2) : Prop :=
  c2_vtx m = c2_vtx s /\ c2_last m = c2_last s /\ forall j, nth j (c2_s m) 0 = 0 \/ nth j (c2_s m) 0 = nth j (c2_s s) 0.

Lemma forbid_mem s vs : forall m x, bmem (fold_left (c2_forbid s) vs m) x = true <-> bmem m x = true /\ forall a, In a vs -> nth a s 0 <> 0 -> nth a s 0 <> x.
Proof.
  induction vs as [|v vs IH]; intros m x; cbn [fold_left In]; [intuition|]. rewrite IH. unfold c2_forbid at 1. destruct (Nat.eqb_spec (nth v s 0) 0) as [E|E].
  - split; intros [A B]; (split; [exact A|]); intros a; [intros [<-|Ha]; [congruence|auto]|auto].
  - rewrite bmem_del, andb_true_iff, negb_true_iff, Nat.eqb_neq. split.
    + intros [[A A2] B]. split; auto. intros a [<-|Ha]; auto.
    + intros [A B]. split; [split; auto|]. intros a Ha. apply B. auto.
Qed.
Lemma c2_labels b s l : In l (c2_lgf K UB adj b s) <-> (1 <= l <= top_of b (c2_last s))%Z /\ (l <= Z.of_nat UB)%Z /\
  forall a, a < K -> bmem (adj (c2_vtx s)) a = true -> nth a (c2_s s) 0 <> 0 -> Z.of_nat (nth a (c2_s s) 0) <> l.
Proof.
  unfold c2_lgf. rewrite filter_In, in_map_iff. change (match b with Some b => Z.min b (c2_last s + 1) | None => (c2_last s + 1)%Z end) with (top_of b (c2_last s)). split.
  - intros [(x & <- & Hx) L]. apply blist_in in Hx as [_ Hx]. apply forbid_mem in Hx as [Hx1 Hx2]. apply labels_spec in Hx1. csplit; try lia.
    intros a La Ad Nz E. apply (Hx2 a); [|auto|lia]. apply blist_in. auto.
  - intros (A & B & C). split; [|lia]. exists (Z.to_nat l). split; [lia|]. apply blist_in. split; [lia|]. apply forbid_mem. split; [apply labels_spec; lia|].
    intros a Ha Nz E. apply blist_in in Ha as [La Ad]. apply (C a); auto. lia.
Qed.
Definition c2_next (s : color2) (l : Z) : color2 := mkCol2 (upd (c2_s s) (c2_vtx s) (Z.to_nat (l mod 65536))) (Z.max l (c2_last s)) (c2_vtx s + 1).
Lemma c2_stf_cases s l s' : c2_live s -> c2_stf K s l = Some s' -> c2_vtx s + 1 = K /\ s' = c2_target K \/ c2_vtx s + 1 < K /\ s' = c2_next s l.
Proof. intros (V & _). unfold c2_stf. destruct (Nat.eqb_spec (c2_vtx s + 1) K) as [E|E]; intros [= <-]; auto. right. split; [lia|reflexivity]. Qed.
Lemma c2_next_nth s l j : c2_live s -> nth j (c2_s (c2_next s l)) 0 = if c2_vtx s =? j then Z.to_nat (l mod 65536) else nth j (c2_s s) 0.
Proof.
  intros (V & L & _). unfold c2_next. cbn [c2_s]. rewrite nth_upd, L. replace (c2_vtx s <? K) with true by (symmetry; now apply Nat.ltb_lt). now rewrite andb_true_r.
Qed.
Lemma c2_next_live s l : c2_live s -> c2_vtx s + 1 < K -> c2_live (c2_next s l).
Proof.
  intros Ls V. pose proof Ls as (A & B & C & D). unfold c2_live. csplit; try (cbn; lia).
  - cbn. now rewrite upd_length.
  - intros j Hj. rewrite c2_next_nth by auto. cbn [c2_next c2_vtx] in Hj. replace (c2_vtx s =? j) with false by (symmetry; apply Nat.eqb_neq; lia). apply D. lia.
Qed.
Lemma c2_extends b : extends K es UB b (c2_prob K UB adj b) c2_rep.
Proof.
  constructor; cbn [c2_prob p_min p_init p_target p_labels p_stf p_cost]; auto.
  - unfold c2_rep, c2_live, c2_init. cbn [c2_s c2_last c2_vtx length]. rewrite repeat_length. csplit; auto; try lia.
    + intros j _. apply nth_repeat.
    + constructor.
  - intros s c k ((V & _) & E & _ & F & _). csplit; auto; [|lia]. intros ->. cbn in V. lia.
  - intros s c k l s' (Ls & E & El & F & M) Hl S. apply c2_labels in Hl as (A & B & C). rewrite El in A. pose proof Ls as (V & Le & La & D). split.
    + split; auto. split; auto. intros i Li Ad Q. rewrite <- M in Q by auto. apply (C i); auto; [lia| |].
      * rewrite E. apply HA; auto.
      * specialize (M i Li). pose proof (fu_bound _ _ F) as (_ & Fb & _). specialize (Fb (nth i c 0%Z) (nth_In _ _ Li)). lia.
    + destruct (c2_stf_cases s l s' Ls S) as [[T ->]|[T ->]]; [left; split; auto; lia|right]. split; [lia|]. split; [|split; [|split; [|split]]].
      * now apply c2_next_live.
      * cbn. rewrite app_length. cbn. lia.
      * cbn. now rewrite El.
      * apply fu_step; auto. pose proof (fu_bound _ _ F) as (Bk & _). eapply top_within; eauto.
      * intros i Hi. rewrite app_length in Hi. cbn in Hi. rewrite c2_next_nth by auto. destruct (Nat.eqb_spec (c2_vtx s) i) as [Ei|Ei].
        -- rewrite app_nth2 by lia. replace (i - length c) with 0 by lia. cbn. rewrite Z.mod_small by lia. lia.
        -- rewrite app_nth1 by lia. apply M. lia.
  - intros s c k l (Ls & E & El & F & M) (O1 & O2 & O3). pose proof Ls as (V & Le & La & D). rewrite c2_labels. split.
    + rewrite El. csplit; auto; try lia. intros a Ha Ad Nz Q. destruct (Nat.lt_ge_cases a (length c)) as [Lc|Gc].
      * apply (O3 a Lc); [apply HA; auto; now rewrite E in Ad|]. now rewrite <- M.
      * apply Nz. apply D. lia.
    + unfold c2_stf. destruct (_ =? _); eauto.
  - intros s c k l (_ & _ & <- & _). reflexivity.
Qed.

Definition c2_mergef (a c : list nat) (B : list nat) (i : nat) : list nat := upd B i (if nth i a 0 =? nth i c 0 then nth i a 0 else 0).
Lemma mergef_length a c l : forall B, length (fold_left (c2_mergef a c) l B) = length B.
Proof. induction l as [|i l IH]; intros B; cbn [fold_left]; auto. rewrite IH. apply upd_length. Qed.
Lemma mergef_nth a c m : forall B j, nth j (fold_left (c2_mergef a c) (seq 0 m) B) 0 =
   if (j <? m) && (j <? length B) then if nth j a 0 =? nth j c 0 then nth j a 0 else 0 else nth j B 0.
Proof.
  induction m as [|m IH]; intros B j; [reflexivity|]. rewrite seq_S, fold_left_app. cbn [fold_left plus]. unfold c2_mergef at 1. rewrite nth_upd, IH, mergef_length.
  destruct (Nat.eqb_spec m j) as [->|N]; cbn [andb].
  - replace (j <? S j) with true by (symmetry; apply Nat.ltb_lt; lia). rewrite Nat.ltb_irrefl. cbn [andb]. destruct (j <? length B); auto.
  - destruct (Nat.ltb_spec j m), (Nat.ltb_spec j (S m)); try lia; reflexivity.
Qed.
Lemma c2_shape b : shaped K (c2_prob K UB adj b) c2_live c2_vtx c2_sup.
Proof.
  constructor; cbn [c2_prob p_min p_init p_target p_labels p_stf p_cost p_local p_sdom p_eqb p_eqs p_smf]; auto.
  - intros [a1 a2 a3] [b1 b2 b3]. unfold color2_eqb. cbn [c2_s c2_last c2_vtx]. rewrite !andb_true_iff, Z.eqb_eq, Nat.eqb_eq, (arr_eqb_spec Nat.eqb Nat.eqb_eq).
    split; [intros [[-> ->] ->]; auto|intros [= -> -> ->]; auto].
  - intros s (V & _). apply Nat.eqb_neq. lia.
  - apply Nat.eqb_refl.
  - intros s (V & _). auto.
  - intros s l s' Ls _ S. destruct (c2_stf_cases s l s' Ls S) as [[_ ->]|[D ->]]; auto. right. split; [now apply c2_next_live|]. cbn. lia.
  - intros a c m La Lc. unfold c2_smf. destruct ((c2_last a =? c2_last c)%Z && (c2_vtx a =? c2_vtx c)) eqn:E; [|discriminate]. intros [= <-].
    apply andb_true_iff in E as [E1 E2]. apply Z.eqb_eq in E1. apply Nat.eqb_eq in E2. pose proof La as (A1 & A2 & A3 & A4). pose proof Lc as (B1 & B2 & B3 & B4).
    change (fun B i => upd B i (if nth i (c2_s a) 0 =? nth i (c2_s c) 0 then nth i (c2_s a) 0 else 0)) with (c2_mergef (c2_s a) (c2_s c)).
    assert (M : forall j, nth j (fold_left (c2_mergef (c2_s a) (c2_s c)) (seq 0 (c2_vtx a + 1)) (c2_s a)) 0 = if nth j (c2_s a) 0 =? nth j (c2_s c) 0 then nth j (c2_s a) 0 else 0).
    { intros j. rewrite mergef_nth, A2. destruct (Nat.ltb_spec j (c2_vtx a + 1)) as [L1|L1], (Nat.ltb_spec j K) as [L2|L2]; cbn [andb]; auto; try lia.
      - rewrite (A4 j), (B4 j) by lia. reflexivity.
      - rewrite (A4 j), (B4 j) by lia. reflexivity. }
    unfold c2_live, c2_sup. cbn [c2_s c2_last c2_vtx]. rewrite mergef_length. csplit; auto.
    + intros j Hj. rewrite M, (A4 j) by auto. destruct (_ =? _); auto.
    + intros j. rewrite M. destruct (Nat.eqb_spec (nth j (c2_s a) 0) (nth j (c2_s c) 0)); auto.
    + intros j. rewrite M. destruct (Nat.eqb_spec (nth j (c2_s a) 0) (nth j (c2_s c) 0)) as [->|]; auto.
  - intros m s l s' Lm Ls (S1 & S2 & S3) Hl S. apply c2_labels in Hl as (A & B & C). rewrite c2_labels, S1, S2. split.
    + csplit; auto; try lia. intros a Ha Ad Nz. destruct (S3 a) as [Q|Q]; [congruence|]. rewrite Q in *. auto.
    + split; [unfold c2_scf; now rewrite S2|]. unfold c2_stf. rewrite S1. destruct (c2_stf_cases s l s' Ls S) as [[D ->]|[D ->]].
      * replace (c2_vtx s + 1 =? K) with true by (symmetry; now apply Nat.eqb_eq). eexists. split; [reflexivity|]. auto.
      * replace (c2_vtx s + 1 =? K) with false by (symmetry; apply Nat.eqb_neq; lia). eexists. split; [reflexivity|]. right.
        assert (E : mkCol2 (upd (c2_s m) (c2_vtx s) (Z.to_nat (l mod 65536))) (Z.max l (c2_last m)) (c2_vtx s + 1) = c2_next m l) by (unfold c2_next; now rewrite S1).
        rewrite E. csplit.
        -- split; [cbn; now rewrite S1|]. split; [cbn; now rewrite S2|]. intros j. rewrite !c2_next_nth by auto. rewrite S1. destruct (_ =? j); auto.
        -- apply c2_next_live; auto. now rewrite S1.
        -- now apply c2_next_live.
Qed.
Lemma c2_family : family K es UB (c2_prob K UB adj) c2_rep c2_live c2_vtx c2_sup.
Proof.
  constructor.
  - reflexivity.
  - intros b _. apply c2_extends.
  - intros b _. apply c2_shape.
  - intros s c k (H & _). exact H.
  - intros b s l Hb. cbn [c2_prob p_labels]. rewrite !c2_labels. unfold top_of. intros (A & B & C). csplit; auto; lia.
Qed.
End C2.
Lemma c2_adj es v i : i < v -> (bmem (adjs es v) i = true <-> adjacent es v i).
Proof. intros _. apply adjs_spec. Qed.
Lemma c3_adj_spec es v i : i < v -> (bmem (c3_adj es v) i = true <-> adjacent es v i).
Proof. intros H. unfold c3_adj. rewrite bmem_and, andb_true_iff, adjs_spec, bmem_full, Nat.ltb_lt. intuition lia. Qed.
