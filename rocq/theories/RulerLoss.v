(** gruler.cpp: a relaxed diagram that loses every solution, because the equality of the code ignores the distances of merged states. *)
From Verif Require Import Base DDModel DDSpec DDFrame DDExamples DDRestricted DDRelaxedEnd SearchModel SearchProofs SearchEx TspModel RulerModel RulerSpec RulerProofs RulerEnd RulerTop RulerSearch.
Local Open Scope Z_scope.

(** the diagram the search compiles for the node reached by the marks xs (src/search.cpp:109), with the primal bound at its start *)
Definition gr_node (xs : list Z) : node ruler := mkNode (fold_left ru_next xs ru_init) [] [] xs (last xs 0) 0 0 true.
(** its relaxed diagram at width w, ordered as in DDRelaxedEnd's example (src/search.cpp:109, src/dd.cpp:684-741) *)
Definition gr_relaxed (n L : Z) (eqb : ruler -> ruler -> bool) (w : nat) (xs : list Z) : res (dd ruler) :=
  rx_compute (gr_base n L OPT eqb) (exSrt (gr_base n L OPT eqb)) 20 (initFrom (gr_base n L OPT eqb) (dd_empty (gr_base n L OPT eqb) true) (gr_node xs)) 2147483647 w.
Lemma bound_inv (r : res (dd ruler)) v : (do d <- r ; do t <- trg_node d ; Ok (n_bound t)) = Ok v -> exists d t, r = Ok d /\ trg_node d = Ok t /\ n_bound t = v.
Proof. intros H. apply bind_ok in H as (d & H1 & H). apply bind_ok in H as (t & H2 & [= H]). eauto. Qed.
Lemma loss : exists d t, rx_compute (gr_base 6 16 OPT ruler_eqb) (exSrt (gr_base 6 16 OPT ruler_eqb)) 20
    (initFrom (gr_base 6 16 OPT ruler_eqb) (dd_empty (gr_base 6 16 OPT ruler_eqb) true) (mkNode (fold_left ru_next [2] ru_init) [] [] [2] (last [2] 0) 0 0 true)) 2147483647 25 = Ok d /\ trg_node d = Ok t /\ n_bound t = 2147483647.
Proof. apply bound_inv. vm_compute. reflexivity. Qed.
Lemma loss_path : path (gr_base 6 16 OPT ruler_eqb) ru_init [2] 2 (n_state (gr_node [2])).
Proof.
  change 2 with (p_cost (gr_base 6 16 OPT ruler_eqb) ru_init 2 + 0) at 2. eapply path_cons; [apply (live_target 6); reflexivity| | |constructor].
  - vm_compute. tauto.
  - reflexivity.
Qed.
Lemma loss_ruler : ruler_of 6 ([2] ++ [7; 13; 16; 17]).
Proof. split; [|reflexivity]. apply golombb_ok; [apply incb_ok|]; reflexivity. Qed.

(** with the repaired equality this cannot happen *)
Lemma path_split {St} (P : prob St) : forall xs s ys v t, path P s (xs ++ ys) v t -> exists u a c, path P s xs a u /\ path P u ys c t /\ v = a + c.
Proof.
  induction xs as [|l xs IH]; intros s ys v t H; cbn [app] in H; [exists s, 0, v; csplit; auto; constructor|].
  inversion H as [|? ? s' ? v' ? N Hl S H']; subst. apply IH in H' as (u & a & c & H1 & H2 & ->). exists u, (p_cost P s l + a), c. csplit; auto; [|lia].
  eapply path_cons; eauto.
Qed.
Lemma path_det {St} (P : prob St) xs : forall s v t v' t', path P s xs v t -> path P s xs v' t' -> v = v' /\ t = t'.
Proof.
  induction xs as [|l xs IH]; intros s v t v' t' H H'; inversion H; inversion H'; subst; auto.
  match goal with A : p_stf P s l = Some ?x, B : p_stf P s l = Some ?y |- _ => rewrite A in B; injection B as <- end.
  match goal with A : path P ?x xs ?a t, B : path P ?x xs ?c t' |- _ => destruct (IH _ _ _ _ _ A B) as [-> ->]; auto end.
Qed.
Lemma repaired_bound n L opt b w srt dfuel d d' xs v s : 2 <= n -> opt_valid opt n -> 0 <= L + 1 < 2147483647 -> (forall d l, Permutation (srt d l) l) -> (Z.to_nat n + 1 < dfuel)%nat ->
  path (gr_base n L opt ruler_eqb2) ru_init xs v s -> s <> ru_target n ->
  rx_compute (gr_base n L opt ruler_eqb2) srt dfuel (initFrom (gr_base n L opt ruler_eqb2) d (mkNode s [] [] xs v 0 0 true)) b w = Ok d' ->
  exists t, trg_node d' = Ok t /\ forall ys, ruler_of n (xs ++ ys) -> rlen (xs ++ ys) <= L + 1 -> rlen (xs ++ ys) < b -> n_bound t <= rlen (xs ++ ys).
Proof.
  intros Hn Ho HL Hs Hf Hp Ns E. set (P := gr_base n L opt ruler_eqb2) in *.
  pose proof (gr_valid n opt (ru_ub n L opt 2147483647)) as VM. fold (gr_base n L opt ruler_eqb2) in VM. fold P in VM.
  assert (Is : rl_inv n s). { assert (Ii : rl_inv n ru_init) by (left; change (1 <= 1 < n); lia). eapply (path_closed P); [exact (vm_closed _ _ _ _ VM)|exact Ii|exact Hp]. }
  pose proof (gr_range n opt Hn (ru_ub n L opt 2147483647) (L + 1) HL (ru_ub_le n L opt 2147483647 Ho) ruler_eqb2) as Rg0.
  assert (Rg : in_range P s v). { intros ls u t H. exact (Rg0 (xs ++ ls) (v + u) t (path_app _ _ _ _ _ _ _ _ Hp H)). }
  pose proof (started_from P d (mkNode s [] [] xs v 0 0 true)) as S0.
  destruct (relaxed_dual_bound P (rl_inv n) rrank (Z.to_nat n) VM s v xs Ns Is Rg srt Hs dfuel _ b w d' S0 ltac:(lia) E) as (t & Et & _ & DB).
  exists t. split; auto. intros ys R B1 B2.
  assert (H : path P ru_init (xs ++ ys) (rlen (xs ++ ys)) (ru_target n)). { apply gr_sol; auto. unfold short. csplit; auto. lia. }
  apply path_split in H as (u & a & c & H1 & H2 & Ev). destruct (path_det _ _ _ _ _ _ _ H1 Hp) as [-> ->].
  rewrite Ev in *. apply DB; auto. exists c. split; auto. exists ys; auto.
Qed.
Lemma repaired_path : path (gr_base 5 10 OPT ruler_eqb2) ru_init [2] 2 (n_state (gr_node [2])).
Proof.
  change 2 with (p_cost (gr_base 5 10 OPT ruler_eqb2) ru_init 2 + 0) at 2. eapply path_cons; [apply (live_target 5); reflexivity|vm_compute; tauto|reflexivity|constructor].
Qed.
