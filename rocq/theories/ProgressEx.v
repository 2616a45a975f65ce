(** Concrete runs for C86: what the progress lines show and what they do not. *)
From Verif Require Import Base DDModel DDSpec TabModel DDExamples SearchModel SearchProofs SearchEx DDFrame DDRelaxedEnd ProgressModel ProgressProofs.
From Coq Require Import QArith Sorted.
Local Open Scope nat_scope.

Definition always (k : nat) : bool := true.
Definition never (k : nat) : bool := false.
Definition lines_of {St} (r : res (@sst St * ending * list pline)) : res (list pline) := do (_, ls) <- r ; Ok ls.
Lemma with_lines {St} (P : prob St) late w ls s e :
  run_ P w None nolim = Ok (s, e) -> lines_of (searchP P (exSrt P) 20 nolim late 100 w None) = Ok ls ->
  searchP P (exSrt P) 20 nolim late 100 w None = Ok (s, e, ls).
Proof.
  intros E L. pose proof (searchP_eq P (exSrt P) 20 nolim late 100 w None) as Q.
  change (search P (exSrt P) 20 nolim 100 w None) with (run_ P w None nolim) in Q. rewrite E in Q.
  unfold lines_of in L. destruct (searchP P (exSrt P) 20 nolim late 100 w None) as [[[s1 e1] l1]|]; cbn [bind] in Q, L; [|discriminate].
  injection Q as -> ->. injection L as ->. reflexivity.
Qed.
Lemma good_lines : exists s, searchP goodP (exSrt goodP) 20 nolim always 100 2 None =
    Ok (s, Emptied, [mkPL 0 None 2147483647 Dash; mkPL 1 (Some 9%Z) 11 (Pct (200 # 11))]) /\ b_primal (s_b s) = 9%Z /\ s_seen s = 0 /\ hist_ok goodP s.
Proof.
  destruct good_run as (s & E & A & _ & _ & _ & B & _ & C). exists s. csplit; auto. apply with_lines; [exact E|]. vm_compute. reflexivity.
Qed.
(** the last improvement (from 11 to 9) is made in the last node: no line ever shows it *)
Lemma good_lines_never : exists s, searchP goodP (exSrt goodP) 20 nolim never 100 2 None =
    Ok (s, Emptied, [mkPL 1 (Some 9%Z) 11 (Pct (200 # 11))]) /\ b_primal (s_b s) = 9%Z.
Proof.
  destruct good_run as (s & E & A & _). exists s. csplit; auto. apply with_lines; [exact E|]. vm_compute. reflexivity.
Qed.
(** a valid model whose local bound at the root (9) is better than what the relaxed diagram gives (1) *)
Definition t_dn := mkTab [rw 0 0 1 1; rw 0 1 2 1; rw 1 0 3 3; rw 1 1 4 3; rw 2 0 5 1; rw 3 0 7 7; rw 4 0 7 5; rw 5 0 7 10; rw 6 0 7 2] 7 [0; 1; 1; 2; 2; 2; 2; 0]
  (flat_map (fun a => map (fun b => (a, b, 6)) [3; 4; 5; 6]) [3; 4; 5; 6]) (Some [9; 0; 0; 0; 0; 0; 0; 0]%Z) None true.
Lemma dn_setting : setting (tabP t_dn) (inTab t_dn) (tabRank t_dn) 3 (exSrt (tabP t_dn)) 20 2.
Proof.
  constructor; [apply tab_valid; vm_compute; reflexivity|discriminate|unfold inTab; cbn; lia|apply tab_range; vm_compute; reflexivity|apply exSrt_perm|lia|lia].
Qed.
Lemma dn_lines : lines_of (searchP (tabP t_dn) (exSrt (tabP t_dn)) 20 nolim always 100 2 None) =
  Ok [mkPL 0 (Some 9%Z) 2147483647 (Pct (214748363800 # 2147483647)); mkPL 1 (Some 1%Z) 11 (Pct (1000 # 11))].
Proof. vm_compute. reflexivity. Qed.
Lemma dn_ex : exists late n1 n2 p1 p2 g1 g2,
  (do (_, ls) <- searchP (tabP t_dn) (exSrt (tabP t_dn)) 20 nolim late 100 2 None ; Ok ls) = Ok [mkPL n1 (Some 9%Z) p1 g1; mkPL n2 (Some 1%Z) p2 g2].
Proof.
  exists always, 0, 1, 2147483647%Z, 11%Z, (Pct (214748363800 # 2147483647)), (Pct (1000 # 11)). vm_compute. reflexivity.
Qed.
