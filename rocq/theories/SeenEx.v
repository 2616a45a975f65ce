(** Concrete runs for PropSeen.v. *)
From Coq Require Import Sorted.
From Verif Require Import Base DDModel DDSpec DDFrame DDExact DDWide DDExamples DDRestricted DDRestricted2 DDRelaxedEnd TabModel SearchModel SearchProofs SearchEx SearchDyn SearchSeen SearchCut
  TspModel TspProofs MispModel MispSpec MispProofs MispInst MispEnd ColorModel ColorSpec ColorProofs ColorTop ColorEnd ColorCut.

(** misp4.cpp, a graph with ten vertices, width 2: a node is refused because its state was seen, with a bound as good *)
Definition g10 : list (nat * nat) := [(0,2); (0,4); (1,3); (1,4); (1,6); (1,7); (1,9); (2,3); (3,7); (4,9); (5,6); (5,7); (5,8); (5,9); (6,9); (7,9)].
Notation P10 := (misp4p 10 g10 one).
Notation run10 := (search P10 (exSrt P10) 20 nolim 100 2 None).
Lemma P10_refl a : p_eqb P10 a a = true.
Proof. exact (proj2 (misp4_eqb_eq a a) eq_refl). Qed.
Lemma P10_setting : setting P10 (dinv P10 (live4 10)) q_n 9 (exSrt P10) 20 2.
Proof. apply (dec_setting _ _ _ _ _ _ _ _ (dec4 10 g10 one ltac:(lia)) (exSrt P10) 20 2); [apply one_nonneg|apply exSrt_perm|lia|lia]. Qed.
Lemma misp4_fan top es weight p0 w : 2 <= w -> fan_le (misp4p top es weight) (fun _ => p_labels (misp4p top es weight)) p0 w.
Proof. intros H b s _ _ _. exact H. Qed.
Lemma run10_obs : exists s, run10 = Ok (s, Emptied) /\ b_primal (s_b s) = 5%Z /\ s_seen s = 1 /\ length (s_hist s) = 4 /\ hist_ok P10 s /\ seen_ok P10 s.
Proof.
  assert (E : (do (s, e) <- run10 ; Ok (b_primal (s_b s), s_seen s, length (s_hist s), forallb (fun x => direct_okb P10 (fst x) (snd x)) (s_hist s) && seen_okb P10 s, match e with Emptied => true | _ => false end))
    = Ok (5%Z, 1, 4, true, true)) by (vm_compute; reflexivity).
  destruct run10 as [[s e]|]; [|discriminate]. cbn [bind] in E. injection E as E1 E2 E3 E4 E5. exists s. apply andb_true_iff in E4 as [E4 E6].
  csplit; auto; [destruct e; auto; discriminate|exact (hist_okb_ok P10 s P10_refl E4)|exact (seen_okb_ok P10 s P10_refl E6)].
Qed.
Lemma seen_kept {St} (P : prob St) s : seen_ok P s -> kept_best P s.
Proof. intros H d p cs i A B C D. exact (proj2 (H d p cs i A B C D)). Qed.
Lemma P10_worst V : solution P10 (p_init P10) 0 V -> be P10 (initialWorst P10) V.
Proof.
  intros (v & (ls & Hp) & ->). destruct (misp4_represents 10 g10 one ltac:(lia)) as [H _]. destruct (H ls v Hp) as (_ & _ & (A & B & _) & ->).
  assert (L : forall S, StronglySorted lt S -> Forall (fun v => v < 10) S -> (total one S <= 10)%Z).
  { intros S HS HF. assert (E : total one S = Z.of_nat (length S)) by (clear; induction S as [|x S IH]; cbn [total length]; unfold one in *; lia).
    rewrite E. assert (length S <= length (seq 0 10)); [|rewrite seq_length in *; lia]. apply NoDup_incl_length.
    - clear - HS. induction HS as [|x S HS IH F]; constructor; auto. intros Hx. rewrite Forall_forall in F. specialize (F x Hx). lia.
    - intros x Hx. rewrite Forall_forall in HF. apply in_seq. specialize (HF x Hx). lia. }
  specialize (L _ A B). unfold be, val, initialWorst, intMax. cbn [p_min misp4p]. lia.
Qed.
(** the colouring programs with as much width as vertices *)
Definition g5w : list (nat * nat) := [(3,4); (1,4); (1,3)]%nat.
Lemma g5w_run : exists s, crun (c2_prob 5 4 (c3_adj g5w)) 5 = Ok (s, Emptied) /\ b_primal (s_b s) = 3%Z /\ s_ttl s = 3 /\ hist_ok (c2_prob 5 4 (c3_adj g5w) None) s.
Proof.
  destruct (so (c2_prob 5 4 (c3_adj g5w) None) (crun (c2_prob 5 4 (c3_adj g5w)) 5)) as [o|] eqn:E; [|vm_compute in E; discriminate].
  destruct (so_inv _ _ o (pr_refl 5 g5w 4 _ (coloring3 5 g5w 4 eq_refl)) E) as (s & H & H1 & _ & _ & H4 & _ & _ & _ & _ & H6 & _ & H7).
  vm_compute in E. injection E as <-. exists s. csplit; auto.
Qed.
(** a run in which a cut set contains the root of its diagram *)
Lemma root_run : exists s, search (tabP t_root) (exSrt (tabP t_root)) 20 nolim 100 1 None = Ok (s, Emptied) /\ s_w s = 2 /\ length (s_hist s) = 1.
Proof.
  assert (E : (do (s, e) <- search (tabP t_root) (exSrt (tabP t_root)) 20 nolim 100 1 None ; Ok (s_w s, length (s_hist s), match e with Emptied => true | _ => false end)) = Ok (2, 1, true)) by (vm_compute; reflexivity).
  destruct (search _ _ _ _ _ _ _) as [[s e]|]; [|discriminate]. cbn [bind] in E. injection E as E1 E2 E3. exists s. csplit; auto. destruct e; auto; discriminate.
Qed.
