(** The clique and Lagrangian bounds of misp4_lag.cpp (C66). *)
From Coq Require Import QArith Qround Lqa Sorting.Sorted.
From Verif Require Import Base DDModel DDFrame TspModel TspProofs MispModel MispSpec MispProofs ColorModel SearchLoc LagModel LagSpec LagClique.
Local Open Scope nat_scope.

(** ** sums of rationals *)
Fixpoint sumq {A} (f : A -> Q) (l : list A) : Q := match l with [] => 0%Q | x :: r => (f x + sumq f r)%Q end.
Lemma sumq_app {A} (f : A -> Q) l1 l2 : (sumq f (l1 ++ l2) == sumq f l1 + sumq f l2)%Q.
Proof. induction l1 as [|x l IH]; cbn; [lra|]. rewrite IH. lra. Qed.
Lemma sumq_le {A} (f g : A -> Q) l : (forall x, In x l -> (f x <= g x)%Q) -> (sumq f l <= sumq g l)%Q.
Proof. induction l as [|x l IH]; intros H; cbn; [lra|]. assert (A1 := H x (or_introl eq_refl)). assert (A2 := IH (fun y Hy => H y (or_intror Hy))). lra. Qed.
Lemma sumq_eq {A} (f g : A -> Q) l : (forall x, In x l -> (f x == g x)%Q) -> (sumq f l == sumq g l)%Q.
Proof. induction l as [|x l IH]; intros H; cbn; [lra|]. rewrite (H x (or_introl eq_refl)), (IH (fun y Hy => H y (or_intror Hy))). lra. Qed.
Lemma sumq_nonneg {A} (f : A -> Q) l : (forall x, In x l -> (0 <= f x)%Q) -> (0 <= sumq f l)%Q.
Proof. induction l as [|x l IH]; intros H; cbn; [lra|]. assert (A1 := H x (or_introl eq_refl)). assert (A2 := IH (fun y Hy => H y (or_intror Hy))). lra. Qed.
Lemma sumq_plus {A} (f g : A -> Q) l : (sumq (fun x => (f x + g x)%Q) l == sumq f l + sumq g l)%Q.
Proof. induction l as [|x l IH]; cbn; [lra|]. rewrite IH. lra. Qed.
Lemma sumq_map {A B} (h : A -> B) (f : B -> Q) l : sumq f (map h l) = sumq (fun x => f (h x)) l.
Proof. induction l; cbn; congruence. Qed.
(** part of a list of nonnegative terms *)
Lemma sumq_sub (f : nat -> Q) : forall l L, NoDup l -> incl l L -> (forall x, In x L -> (0 <= f x)%Q) -> (sumq f l <= sumq f L)%Q.
Proof.
  induction l as [|x l IH]; intros L ND IN NN; cbn [sumq]; [now apply sumq_nonneg|]. inversion ND; subst.
  destruct (in_split x L (IN x (or_introl eq_refl))) as (L1 & L2 & ->).
  assert (A1 : (sumq f l <= sumq f (L1 ++ L2))%Q).
  { apply IH; auto.
    - intros y Hy. specialize (IN y (or_intror Hy)). apply in_app_or in IN as [K|[->|K]]; [| |]; try (apply in_or_app; auto; fail). contradiction.
    - intros y Hy. apply NN. apply in_app_or in Hy as [K|K]; apply in_or_app; cbn; auto. }
  rewrite sumq_app in A1. rewrite sumq_app. cbn [sumq]. lra.
Qed.
Lemma qsum_sumq l : (qsum l == sumq (fun x => x) l)%Q.
Proof.
  unfold qsum. enough (G : forall a, (fold_left (fun a x => Qred (a + x)) l a == a + sumq (fun x => x) l)%Q) by (rewrite G; lra).
  induction l as [|x l IH]; intros a; cbn [fold_left sumq]; [lra|]. rewrite IH, Qred_correct. lra.
Qed.
Lemma sumq_seq (a : list Q) : (sumq (fun x => x) a == sumq (get a) (seq 0 (length a)))%Q.
Proof.
  induction a as [|x a IH] using rev_ind; [cbn; lra|]. rewrite sumq_app, app_length. cbn [length]. rewrite Nat.add_1_r, seq_S, sumq_app. cbn [sumq].
  assert (G : (sumq (get (a ++ [x])) (seq 0 (length a)) == sumq (get a) (seq 0 (length a)))%Q).
  { apply sumq_eq. intros i Hi. apply in_seq in Hi. unfold get. rewrite app_nth1 by lia. lra. }
  rewrite G, <- IH. unfold get. rewrite Nat.add_0_l, app_nth2, Nat.sub_diag by lia. cbn. lra.
Qed.
Lemma qmax_ge a b : (a <= qmax a b)%Q /\ (b <= qmax a b)%Q.
Proof. unfold qmax. destruct (Qle_bool b a) eqn:E; [apply Qle_bool_iff in E; lra|]. assert (~ (b <= a)%Q) by (rewrite <- Qle_bool_iff; congruence). lra. Qed.
Lemma qmin_ge a b c : (c <= a)%Q -> (c <= b)%Q -> (c <= qmin a b)%Q.
Proof. unfold qmin. destruct (Qle_bool a b); auto. Qed.
Lemma get_upd a i x j : i < length a -> get (upd a i x) j = if j =? i then x else get a j.
Proof. intros. unfold get. now apply upd_nth. Qed.
Lemma get_upd_over a i x j : length a <= i -> get (upd a i x) j = get a j.
Proof. unfold get. revert i j. induction a as [|y a IH]; intros [|i] [|j] H; cbn in *; try lia; auto. apply IH. lia. Qed.
Lemma floor_ge (z : Z) (q : Q) : (inject_Z z <= q)%Q -> (z <= Qfloor q)%Z.
Proof. intros H. apply Qfloor_resp_le in H. now rewrite Qfloor_Z in H. Qed.
(** the margin: values that are too small by at most eps, as by rounding, still give a bound *)
Lemma floor_margin (z : Z) (q : Q) : (inject_Z z - eps <= q)%Q -> (z <= Qfloor (q + eps))%Z.
Proof. intros H. apply floor_ge. lra. Qed.

Section Bounds.
Variables (nv : nat) (es : list (nat * nat)) (part : clqPartition) (weight : nat -> Z).
Hypothesis HP : clique_partition nv es (q_cliques part).
Hypothesis HN : numbers nv (q_cliques part) (q_of part).
Notation cof := (cof part).
Notation nc := (nc part).
Notation warr := (warr nv weight).

Lemma cof_spec v : v < nv -> cof v < nc /\ In v (nth (cof v) (q_cliques part) []).
Proof.
  intros Hv. destruct HP as (_ & _ & P). destruct HN as [L N].
  assert (I : In v (concat (q_cliques part))) by (apply (Permutation_in _ (Permutation_sym P)), in_seq; lia).
  destruct (in_concat_nth _ _ I) as (i & Li & Hi). assert (E : cof v = i). { unfold LagModel.cof. rewrite (proj2 (N v i Hv) Hi). lia. } rewrite E. auto.
Qed.
Lemma cof_in v i : In v (nth i (q_cliques part) []) -> i < nc -> v < nv /\ cof v = i.
Proof.
  intros Hv Hi. destruct HP as (_ & _ & P). destruct HN as [L N].
  assert (I : In v (concat (q_cliques part))) by (apply in_concat; exists (nth i (q_cliques part) []); split; auto; now apply nth_In).
  apply (Permutation_in _ P), in_seq in I. split; [lia|]. unfold LagModel.cof. rewrite (proj2 (N v i ltac:(lia)) Hv). lia.
Qed.
Lemma same_clique u v : u < nv -> v < nv -> cof u = cof v -> u <> v -> adjacent es u v.
Proof.
  intros Hu Hv E Ne. destruct (cof_spec u Hu) as [L1 I1]. destruct (cof_spec v Hv) as [_ I2]. rewrite <- E in I2. destruct HP as (C & _ & _).
  rewrite Forall_forall in C. apply (C (nth (cof u) (q_cliques part) [])); auto. now apply nth_In.
Qed.
Lemma get_warr v : v < nv -> get warr v = inject_Z (weight v).
Proof.
  intros Hv. unfold get, LagModel.warr. rewrite app_nth1 by (rewrite map_length, seq_length; lia).
  rewrite (nth_indep _ 0%Q (inject_Z (weight 0))) by (rewrite map_length, seq_length; lia). rewrite (map_nth (fun v => inject_Z (weight v))), seq_nth by lia. reflexivity.
Qed.

(** an independent set among the vertices of S *)
Variables (S : N) (T : list nat).
Hypothesis HT : indep_set nv es T.
Hypothesis HS : forall v, In v T -> bmem S v = true.
Lemma T_nd : NoDup T.
Proof.
  destruct HT as [H _]. clear HT HS. induction H as [|a l H IH F]; constructor; auto. intros K. rewrite Forall_forall in F. specialize (F a K). lia.
Qed.
Lemma T_lt v : In v T -> v < nv.
Proof. intros H. destruct HT as (_ & F & _). rewrite Forall_forall in F. auto. Qed.
Lemma T_cof : NoDup (map cof T).
Proof.
  pose proof T_nd as ND. pose proof T_lt as L. destruct HT as (_ & _ & I). clear HT HS. induction T as [|v l IH]; cbn; constructor.
  - intros K. apply in_map_iff in K as (u & E & Hu). inversion ND; subst. assert (Ne : v <> u) by (intros ->; auto).
    apply (I v u); cbn; auto. apply same_clique; auto; apply L; cbn; auto.
  - inversion ND; subst. apply IH; auto.
    + intros u Hu. apply L. now right.
    + intros a b Ha Hb. apply I; now right.
Qed.
(** any per-clique bounds *)
Lemma by_cliques (w : list Q) (f : nat -> Q) : (forall v, In v T -> (get w v <= f (cof v))%Q) -> (forall i, i < nc -> (0 <= f i)%Q) ->
  (sumq (get w) T <= sumq f (seq 0 nc))%Q.
Proof.
  intros H NN. eapply Qle_trans; [apply (sumq_le _ (fun v => f (cof v)) T H)|]. rewrite <- (sumq_map cof f T). apply sumq_sub.
  - apply T_cof.
  - intros i Hi. apply in_map_iff in Hi as (v & <- & Hv). apply in_seq. pose proof (proj1 (cof_spec v (T_lt v Hv))). lia.
  - intros i Hi. apply in_seq in Hi. apply NN. lia.
Qed.
Lemma cliqueSum_ge w : (sumq (get w) T <= cliqueSum nv part w S)%Q.
Proof.
  unfold cliqueSum. rewrite qsum_sumq, sumq_seq.
  set (step := fun a v => upd a (cof v) (qmax (get a (cof v)) (get w v))).
  assert (G : forall l a, (forall v, In v l -> v < nv) -> length a = nc -> let r := fold_left step l a in
    length r = nc /\ (forall i, (get a i <= get r i)%Q) /\ forall v, In v l -> (get w v <= get r (cof v))%Q).
  { induction l as [|v l IH]; intros a B L; cbn [fold_left]; [csplit; auto; [intros; lra|intros v []]|].
    destruct (IH (step a v)) as (L1 & M1 & B1); [intros; apply B; now right|unfold step; now rewrite upd_len|].
    assert (Q : forall i, (get a i <= get (step a v) i)%Q).
    { intros i. unfold step. rewrite get_upd by (rewrite L; apply cof_spec, B; now left). destruct (i =? cof v) eqn:E; [|lra].
      apply Nat.eqb_eq in E. subst i. apply qmax_ge. }
    csplit; auto.
    - intros i. eapply Qle_trans; [apply Q|apply M1].
    - intros u [<-|Hu]; [|auto]. eapply Qle_trans; [|apply M1]. unfold step. rewrite get_upd by (rewrite L; apply cof_spec, B; now left).
      rewrite Nat.eqb_refl. apply qmax_ge. }
  destruct (G (blist nv S) (repeat 0%Q nc)) as (L & M & B); [intros v Hv; apply in_blist in Hv; lia|apply repeat_length|].
  rewrite L. apply by_cliques.
  - intros v Hv. apply B. apply in_blist. split; [now apply T_lt|now apply HS].
  - intros i Hi. specialize (M i). unfold get in M at 1. rewrite nth_repeat in M. exact M.
Qed.
Lemma total_sumq : (inject_Z (total weight T) == sumq (get warr) T)%Q.
Proof.
  pose proof T_lt as L. clear HT HS. induction T as [|v l IH]; cbn [total sumq]; [reflexivity|]. rewrite inject_Z_plus, IH by (intros; apply L; now right).
  rewrite get_warr by (apply L; now left). reflexivity.
Qed.
Lemma cliqueBound_ge : (total weight T <= cliqueBound nv part weight S)%Z.
Proof. apply floor_ge. rewrite total_sumq. apply cliqueSum_ge. Qed.

(** lowering both ends of an edge by l lowers the weight of T by at most l *)
Lemma lower_ge w e l : adjacent es (fst e) (snd e) -> fst e <> snd e -> (0 <= l)%Q -> (sumq (get w) T <= sumq (get (lower w e l)) T + l)%Q.
Proof.
  intros A Ne L0. destruct e as [i j]. cbn [fst snd] in *.
  set (h := fun k v => if v =? k then l else 0%Q).
  assert (P : forall v, (get w v <= get (lower w (i, j) l) v + (h i v + h j v))%Q).
  { intros v. unfold lower, h. cbn [fst snd].
    set (w1 := upd w i (Qred (get w i - l))).
    assert (G1 : (get w v <= get w1 v + (if (v =? i)%nat then l else 0))%Q).
    { unfold w1. destruct (Nat.lt_ge_cases i (length w)) as [Li|Li].
      - rewrite get_upd by auto. destruct (Nat.eqb_spec v i) as [->|]; [rewrite Qred_correct|]; lra.
      - rewrite get_upd_over by auto. destruct (v =? i)%nat; lra. }
    assert (G2 : (get w1 v <= get (upd w1 j (Qred (get w1 j - l))) v + (if (v =? j)%nat then l else 0))%Q).
    { destruct (Nat.lt_ge_cases j (length w1)) as [Li|Li].
      - rewrite get_upd by auto. destruct (Nat.eqb_spec v j) as [->|]; [rewrite Qred_correct|]; lra.
      - rewrite get_upd_over by auto. destruct (v =? j)%nat; lra. }
    lra. }
  assert (Hh : forall k, (sumq (h k) T <= l)%Q /\ (~ In k T -> (sumq (h k) T == 0)%Q)).
  { intros k. generalize T_nd. clear HT HS. induction T as [|v r IH]; intros ND; cbn [sumq]; [split; [lra|reflexivity]|]. inversion ND; subst.
    destruct (IH H2) as [I1 I2]. unfold h at 1 3. split.
    - destruct (Nat.eqb_spec v k) as [->|]; [rewrite (I2 H1)|]; lra.
    - intros K. destruct (Nat.eqb_spec v k) as [->|]; [exfalso; apply K; now left|]. rewrite I2 by (intros F; apply K; now right). lra. }
  assert (Hs : (sumq (fun v => (h i v + h j v)%Q) T <= l)%Q).
  { rewrite sumq_plus. destruct (in_dec Nat.eq_dec i T) as [Hi|Hi].
    - destruct (in_dec Nat.eq_dec j T) as [Hj|Hj].
      + exfalso. destruct HT as (_ & _ & I). now apply (I i j).
      + rewrite (proj2 (Hh j) Hj). pose proof (proj1 (Hh i)). lra.
    - rewrite (proj2 (Hh i) Hi). pose proof (proj1 (Hh j)). lra. }
  pose proof (sumq_le _ _ T (fun v _ => P v)) as K. rewrite sumq_plus in K. lra.
Qed.

(** multipliers that can occur: nonnegative, one per edge *)
Definition lam_ok (lam : pairmap) : Prop := Forall (fun x => adjacent es (fst (fst x)) (snd (fst x)) /\ fst (fst x) <> snd (fst x) /\ (0 <= snd x)%Q) lam.
Definition edges_ok (edges : list (nat * nat)) : Prop := Forall (fun e => adjacent es (fst e) (snd e) /\ fst e <> snd e) edges.
Lemma lagValue_ge lam : lam_ok lam -> (inject_Z (total weight T) <= lagValue nv part weight lam S)%Q.
Proof.
  intros H. unfold lagValue.
  set (step := fun x (el : (nat * nat) * Q) => if bmem S (fst (fst el)) && bmem S (snd (fst el)) then (lower (fst x) (fst el) (snd el), Qred (snd x + snd el)%Q) else x).
  assert (G : forall l x, lam_ok l -> (sumq (get (fst x)) T + snd x <= sumq (get (fst (fold_left step l x))) T + snd (fold_left step l x))%Q).
  { induction l as [|el l IH]; intros x Hl; cbn [fold_left]; [lra|]. inversion Hl as [|? ? (A1 & A2 & A3) Hl']; subst.
    eapply Qle_trans; [|apply IH; auto]. unfold step. destruct (bmem S (fst (fst el)) && bmem S (snd (fst el))); [|lra]. cbn [fst snd].
    rewrite Qred_correct. pose proof (lower_ge (fst x) (fst el) (snd el) A1 A2 A3). lra. }
  specialize (G lam (warr, 0%Q) H). cbn [fst snd] in G. rewrite total_sumq. pose proof (cliqueSum_ge (fst (fold_left step lam (warr, 0%Q)))). lra.
Qed.
Lemma lagBound_ge lam : lam_ok lam -> (total weight T <= lagBound nv part weight lam S)%Z.
Proof. intros H. apply floor_margin. pose proof (lagValue_ge lam H). unfold eps. lra. Qed.

(** *** the dual *)
Lemma edgeSet_ok : edges_ok (edgeSet nv es part S).
Proof.
  apply Forall_forall. intros e He. unfold edgeSet in He. apply filter_In in He as [_ He]. apply existsb_exists in He as (x & Hx & E).
  unfold eqp in E. apply andb_true_iff in E as [E1 E2]. apply Nat.eqb_eq in E1, E2. unfold edge_inserts in Hx.
  apply in_flat_map in Hx as (ic & _ & Hx). apply in_flat_map in Hx as (i & _ & Hx). destruct (bmem S i); [|destruct Hx].
  apply in_map_iff in Hx as (j & <- & Hj). apply filter_In in Hj as [Hj B]. cbn [fst snd] in E1, E2. rewrite E1, E2. split.
  - apply (nb_in es). exact Hj.
  - apply andb_true_iff in B as [_ B]. apply Nat.ltb_lt in B. lia.
Qed.
Lemma lget_nonneg lam e : lam_ok lam -> (0 <= lget lam e)%Q.
Proof.
  intros H. unfold lget. destruct (find (fun x => eqp (fst x) e) lam) as [x|] eqn:F; [|lra]. apply find_some in F as [F _].
  unfold lam_ok in H. rewrite Forall_forall in H. apply (H x F).
Qed.
Lemma lset_ok lam e l : lam_ok lam -> adjacent es (fst e) (snd e) -> fst e <> snd e -> (0 <= l)%Q -> lam_ok (lset lam e l).
Proof. intros H A B C. constructor; [auto|]. apply Forall_forall. intros x Hx. apply filter_In in Hx as [Hx _]. unfold lam_ok in H. rewrite Forall_forall in H. auto. Qed.
Lemma lerase_ok lam e : lam_ok lam -> lam_ok (lerase lam e).
Proof. intros H. apply Forall_forall. intros x Hx. apply filter_In in Hx as [Hx _]. unfold lam_ok in H. rewrite Forall_forall in H. auto. Qed.
Lemma update_ok lam x alpha edges : edges_ok edges -> lam_ok lam -> lam_ok (fst (updateMultipliers lam x alpha edges)).
Proof.
  unfold updateMultipliers. intros E H. change lam with (fst (lam, true)) in H. revert H. generalize (lam, true) as r.
  induction E as [|e edges [A B] E IH]; intros r H; cbn [fold_left]; auto. apply IH. cbn [fst].
  set (l := qmax 0 (Qred (lget (fst r) e + alpha * inject_Z (xat x (fst e) + xat x (snd e) - 1)))).
  destruct (Qeq_bool l 0); [now apply lerase_ok|]. apply lset_ok; auto. apply qmax_ge.
Qed.
Lemma best_of_ge w c : (0 <= fst (best_of w S c))%Q /\ forall v, In v c -> bmem S v = true -> (get w v <= fst (best_of w S c))%Q.
Proof.
  unfold best_of. set (step := fun (b : Q * option nat) v => if bmem S v && negb (Qle_bool (get w v) (fst b)) then (get w v, Some v) else b).
  assert (G : forall l b, (fst b <= fst (fold_left step l b))%Q /\ forall v, In v l -> bmem S v = true -> (get w v <= fst (fold_left step l b))%Q).
  { induction l as [|u l IH]; intros b; cbn [fold_left]; [split; [lra|intros v []]|]. destruct (IH (step b u)) as [I1 I2].
    assert (Q : (fst b <= fst (step b u))%Q /\ (bmem S u = true -> (get w u <= fst (step b u))%Q)).
    { unfold step. destruct (bmem S u); cbn [andb]; [|split; [lra|discriminate]]. destruct (Qle_bool (get w u) (fst b)) eqn:E; cbn [negb fst].
      - apply Qle_bool_iff in E. split; auto. lra.
      - assert (~ (get w u <= fst b)%Q) by (rewrite <- Qle_bool_iff; congruence). split; [lra|intros; lra]. }
    destruct Q as [Q1 Q2]. split; [lra|]. intros v [<-|Hv] B; [specialize (Q2 B); lra|auto]. }
  exact (G c (0%Q, None)).
Qed.
Lemma solveClique_ge w : (sumq (get w) T <= fst (solveClique nv part w S))%Q.
Proof.
  unfold solveClique. set (step := fun (r : Q * list Z) (c : list nat) => let b := best_of w S c in (Qred (fst r + fst b)%Q, match snd b with Some v => upd (snd r) v 1%Z | None => snd r end)).
  assert (G : forall l r, (fst (fold_left step l r) == fst r + sumq (fun c => fst (best_of w S c)) l)%Q).
  { induction l as [|c l IH]; intros r; cbn [fold_left sumq]; [lra|]. rewrite IH. unfold step at 1. cbn [fst]. rewrite Qred_correct. lra. }
  rewrite G. cbn [fst].
  assert (E : (sumq (fun c => fst (best_of w S c)) (q_cliques part) == sumq (fun i => fst (best_of w S (nth i (q_cliques part) []))) (seq 0 nc))%Q).
  { unfold LagModel.nc. generalize (q_cliques part) as cs. induction cs as [|c cs IH] using rev_ind; [reflexivity|]. rewrite app_length. cbn [length]. rewrite Nat.add_1_r, seq_S, !sumq_app. cbn [sumq].
    rewrite IH. rewrite Nat.add_0_l, app_nth2, Nat.sub_diag by lia. cbn [nth].
    assert (K : (sumq (fun i => fst (best_of w S (nth i (cs ++ [c]) []))) (seq 0 (length cs)) == sumq (fun i => fst (best_of w S (nth i cs []))) (seq 0 (length cs)))%Q).
    { apply sumq_eq. intros i Hi. apply in_seq in Hi. rewrite app_nth1 by lia. reflexivity. }
    rewrite K. lra. }
  rewrite E. assert (K := by_cliques w (fun i => fst (best_of w S (nth i (q_cliques part) [])))). cbn beta in K.
  enough ((sumq (get w) T <= sumq (fun i : nat => fst (best_of w S (nth i (q_cliques part) []))) (seq 0 nc))%Q) by lra. apply K.
  - intros v Hv. apply best_of_ge; [apply cof_spec; now apply T_lt|now apply HS].
  - intros i _. apply best_of_ge.
Qed.
Lemma round_ge lam edges : edges_ok edges -> lam_ok lam -> (inject_Z (total weight T) <= fst (solveClique nv part (lagWeights nv weight lam edges) S) + lamSum lam edges)%Q.
Proof.
  intros E H. unfold lagWeights, lamSum. rewrite qsum_sumq, sumq_map.
  assert (G : forall l w, edges_ok l -> (sumq (get w) T <= sumq (get (fold_left (fun w e => lower w e (lget lam e)) l w)) T + sumq (lget lam) l)%Q).
  { induction l as [|e l IH]; intros w Hl; cbn [fold_left sumq]; [lra|]. inversion Hl as [|? ? [A1 A2] Hl']; subst.
    specialize (IH (lower w e (lget lam e)) Hl'). pose proof (lower_ge w e (lget lam e) A1 A2 (lget_nonneg lam e H)). lra. }
  specialize (G edges warr E). rewrite total_sumq. change (sumq (fun x => lget lam x) edges) with (sumq (lget lam) edges). pose proof (solveClique_ge (fold_left (fun w e => lower w e (lget lam e)) edges warr)). lra.
Qed.
Definition ge_total (d : option Q) : Prop := match d with Some q => (inject_Z (total weight T) <= q)%Q | None => True end.
Lemma dual_loop_ok edges maxIter alpha0 : edges_ok edges -> forall rounds first lam dual unch, lam_ok lam -> ge_total dual -> 
  let r := dual_loop nv part weight rounds first maxIter alpha0 edges S lam dual unch in
  lam_ok (snd r) /\ ge_total (fst r) /\ (first = true \/ dual <> None -> 1 <= rounds \/ dual <> None -> fst r <> None).
Proof.
  intros E. induction rounds as [|rounds IH]; intros first lam dual unch H D; cbn [dual_loop].
  - csplit; auto. intros _ [F|F]; [lia|auto].
  - destruct (solveClique nv part (lagWeights nv weight lam edges) S) as [p0 x] eqn:Es.
    set (p := Qred (p0 + lamSum lam edges)).
    assert (Hp : (inject_Z (total weight T) <= p)%Q). { unfold p. rewrite Qred_correct. pose proof (round_ge lam edges E H) as K. rewrite Es in K. exact K. }
    set (dual1 := if first then Some (match dual with Some q => qmin q p | None => p end) else dual).
    set (low := fun d => Some (match d with Some q => qmin q p | None => p end)).
    assert (Lo : forall d, ge_total d -> ge_total (low d)). { intros [q|] Hd; cbn; auto. now apply qmin_ge. }
    assert (D1 : ge_total dual1) by (unfold dual1; destruct first; [exact (Lo _ D)|auto]).
    assert (D2 : first = true \/ dual <> None -> dual1 <> None). { unfold dual1. intros [->|F]; [discriminate|]. destruct first; [discriminate|auto]. }
    destruct (gradient x edges =? 0); [csplit; cbn; auto|].
    destruct (updateMultipliers lam x (alpha0 / inject_Z (Z.of_nat (gradient x edges))) edges) as [lam1 ok] eqn:Eu.
    assert (H1 : lam_ok lam1) by (pose proof (update_ok lam x (alpha0 / inject_Z (Z.of_nat (gradient x edges)))%Q edges E H) as K; rewrite Eu in K; exact K).
    destruct ok; [split; [exact H1|]; split; [exact (Lo _ D1)|intros _ _; discriminate]|].
    destruct (match dual1 with Some q => negb (Qle_bool q p) | None => true end).
    + destruct (IH false lam1 (Some p) 0 H1 Hp) as (I1 & I2 & I3). split; [exact I1|]; split; [exact I2|]. intros _ _. apply I3; right; discriminate.
    + destruct (maxIter <? 10 * (unch + 1)); [csplit; cbn; auto|].
      destruct (IH false lam1 dual1 (unch + 1) H1 D1) as (I1 & I2 & I3). split; [exact I1|]; split; [exact I2|]. intros F _. apply I3; right; auto.
Qed.
Lemma start_ok (reOpt : bool) (lam : pairmap) : lam_ok lam -> lam_ok (if reOpt then lam else
  fold_left (fun l e => lset l e (Qred ((1 # 100) * (inject_Z (Z.of_nat nc) / inject_Z (Z.of_nat (length (edgeSet nv es part S))))))) (edgeSet nv es part S) lam).
Proof.
  intros H. destruct reOpt; auto. set (k := Qred ((1 # 100) * (inject_Z (Z.of_nat nc) / inject_Z (Z.of_nat (length (edgeSet nv es part S)))))).
  assert (K : (0 <= k)%Q).
  { unfold k. rewrite Qred_correct. apply Qmult_le_0_compat; [lra|]. unfold Qdiv. apply Qmult_le_0_compat; [|apply Qinv_le_0_compat]; change 0%Q with (inject_Z 0); rewrite <- Zle_Qle; lia. }
  clearbody k. pose proof edgeSet_ok as E. revert lam H. induction E as [|e l [A B] E IH]; intros lam H; cbn [fold_left]; auto. apply IH. now apply lset_ok.
Qed.
Lemma dual_ok maxIter alpha0 lam reOpt : lam_ok lam -> lam_ok (snd (lagrangianDual nv es part weight maxIter alpha0 lam reOpt S)) /\
  (1 <= maxIter -> exists z, fst (lagrangianDual nv es part weight maxIter alpha0 lam reOpt S) = Some z /\ (total weight T <= z)%Z).
Proof.
  intros H. unfold lagrangianDual. pose proof (start_ok reOpt lam H) as H0.
  set (lam0 := if reOpt then lam else fold_left _ _ lam) in *.
  destruct (dual_loop_ok _ maxIter alpha0 edgeSet_ok maxIter true lam0 None 0 H0 Logic.I) as (A & B & C).
  destruct (dual_loop nv part weight maxIter true maxIter alpha0 (edgeSet nv es part S) S lam0 None 0) as [d lam1]. cbn [fst snd] in *. split; auto.
  intros M. destruct d as [q|]; [|exfalso; apply C; auto]. exists (Qfloor (q + eps)). split; auto. apply floor_margin. cbn in B. unfold eps. lra.
Qed.
End Bounds.
