(** Property C86: the progress lines of branch and bound (src/search.cpp:77-91). *)
From Verif Require Import Base DDModel DDSpec DDFrame DDRelaxedEnd DDExamples TabModel SearchModel SearchProofs SearchEx ProgressModel ProgressProofs ProgressEx.
From Coq Require Import QArith Sorted.
Local Open Scope nat_scope.

(** ** printing does not influence the search *)
Theorem C86_search_unchanged : forall St (P : prob St) srt dfuel lim late fuel mxw user,
  (do (r, _) <- searchP P srt dfuel lim late fuel mxw user ; Ok r) = search P srt dfuel lim fuel mxw user.
Proof. exact @searchP_eq. Qed.
Print Assumptions C86_search_unchanged.

(** ** the columns: each primal shown is the starting bound or the cost of a solution better than it; from line to line the node count does not
    decrease and the primal does not get worse; the final primal is at least as good as every primal shown *)
Theorem C86_columns : forall St (P : prob St) I rank N srt dfuel mxw, setting P I rank N srt dfuel mxw -> forall lim late user,
  let p0 := match user with Some p => p | None => sentinel P end in be P p0 (sentinel P) ->
  forall fuel s e ls, searchP P srt dfuel lim late fuel mxw user = Ok (s, e, ls) ->
  (forall l, In l ls -> (pl_primal l = p0 \/ solution P (p_init P) 0 (pl_primal l) /\ bt P (pl_primal l) p0) /\
                        be P (b_primal (s_b s)) (pl_primal l) /\ pl_n l <= s_nNode s) /\
  StronglySorted (fun a b => pl_n a <= pl_n b /\ be P (pl_primal b) (pl_primal a)) ls.
Proof.
  intros St P I rank N srt dfuel mxw SE lim late user p0 Hp fuel s e ls E.
  destruct (lines_facts P I rank N srt dfuel mxw SE lim late user Hp fuel s e ls E) as (A & B & C & _).
  rewrite Forall_forall in A, C. split; [intros l Hl; exact (conj (A l Hl) (C l Hl))|exact B].
Qed.
Print Assumptions C86_columns.

(** ** lines not forced by the clock show strictly improving primals *)
Theorem C86_strict : forall St (P : prob St) I rank N srt dfuel mxw, setting P I rank N srt dfuel mxw -> forall lim late user,
  let p0 := match user with Some p => p | None => sentinel P end in be P p0 (sentinel P) ->
  forall fuel s e ls, searchP P srt dfuel lim late fuel mxw user = Ok (s, e, ls) -> (forall k, late k = false) ->
  StronglySorted (fun a b => bt P (pl_primal b) (pl_primal a)) ls /\ forall l, In l ls -> bt P (pl_primal l) p0.
Proof.
  intros St P I rank N srt dfuel mxw SE lim late user p0 Hp fuel s e ls E NL.
  destruct (lines_strict P I rank N srt dfuel mxw SE lim late user Hp fuel s e ls E NL) as (A & B).
  rewrite Forall_forall in B. auto.
Qed.
Print Assumptions C86_strict.

(** ** the clock only adds lines: without it the result is the same and the lines are some of those with it, in the same order *)
Theorem C86_clock_adds : forall St (P : prob St) srt dfuel lim late fuel mxw user s e ls,
  searchP P srt dfuel lim late fuel mxw user = Ok (s, e, ls) ->
  exists ls0, searchP P srt dfuel lim (fun _ => false) fuel mxw user = Ok (s, e, ls0) /\ sub ls0 ls.
Proof. intros St P srt dfuel lim late fuel mxw user s e ls. exact (bb_loopP_sub P srt dfuel lim late fuel mxw 0 false _ s e ls). Qed.
Print Assumptions C86_clock_adds.
(** ** if every node takes longer than five seconds there is a line for every node taken from the queue *)
Theorem C86_line_per_node : forall St (P : prob St) srt dfuel lim late fuel mxw user s e ls, (forall k, late k = true) ->
  searchP P srt dfuel lim late fuel mxw user = Ok (s, e, ls) -> length ls = s_ttl s.
Proof.
  intros St P srt dfuel lim late fuel mxw user s e ls LT E. apply (bb_loopP_all P srt dfuel lim late LT) in E. unfold bb_start in E. cbn in E. now rewrite Nat.add_0_r in E.
Qed.
Print Assumptions C86_line_per_node.

(** ** the dual column: no solution is better than both the primal and the dual of a line *)
Theorem C86_dual_column : forall St (P : prob St) I rank N srt dfuel mxw, setting P I rank N srt dfuel mxw -> valid_qdom P I ->
  (forall V, solution P (p_init P) 0 V -> be P (initialWorst P) V) -> forall lim late user,
  be P (match user with Some p => p | None => sentinel P end) (sentinel P) ->
  forall fuel s e ls, searchP P srt dfuel lim late fuel mxw user = Ok (s, e, ls) -> s_seen s = 0 -> hist_ok P s ->
  forall V l, solution P (p_init P) 0 V -> In l ls ->
  be P (pl_primal l) V \/ be P (match pl_dual l with Some d => d | None => initialWorst P end) V.
Proof.
  intros St P I rank N srt dfuel mxw SE QD HW lim late user Hp fuel s e ls E Es HH V l SV Hl.
  destruct (lines_facts P I rank N srt dfuel mxw SE lim late user Hp fuel s e ls E) as (_ & _ & _ & D).
  specialize (D QD HW Es HH V SV). rewrite Forall_forall in D. specialize (D l Hl). unfold line_bounds in D. destruct (pl_dual l); auto.
Qed.
Print Assumptions C86_dual_column.

(** ** the gap column, for positive primals: a gap of g per cent means that the primal is within g per cent of every value between it and the dual *)
Theorem C86_gap_min : forall p d V g, (0 < p)%Z -> gap_of p d = Pct g -> (d <= V <= p)%Z -> (inject_Z (p - V) <= g / 100 * inject_Z p)%Q.
Proof. exact gap_min. Qed.
Print Assumptions C86_gap_min.
Theorem C86_gap_max : forall p d V g, (0 < p)%Z -> gap_of p d = Pct g -> (p <= V <= d)%Z -> (inject_Z (V - p) <= g / 100 * inject_Z p)%Q.
Proof. exact gap_max. Qed.
Print Assumptions C86_gap_max.
(** finding: the difference is made positive but the divisor is not, so with a negative primal the gap is printed as a negative number, however
    large it is (the test against 100 never applies) *)
Theorem C86_gap_negative : forall p d, (p < 0)%Z -> exists g, gap_of p d = Pct g /\ (g <= 0)%Q /\ (d <> p -> (g < 0)%Q).
Proof. exact gap_negative. Qed.
Print Assumptions C86_gap_negative.

(** ** what the lines do not show *)
(** full claim: the best solution found appears in the primal column of some line.  False: an improvement made by an exact relaxed diagram leaves
    the flag down, and one made in the last node has no extraction after it *)
Theorem C86_final_shown_refuted : exists (P : prob nat) I rank N, setting P I rank N (exSrt P) 20 2 /\ exists late s ls,
  searchP P (exSrt P) 20 nolim late 100 2 None = Ok (s, Emptied, ls) /\ ls <> [] /\ (forall k, late k = true) /\
  forall l, In l ls -> pl_primal l <> b_primal (s_b s).
Proof.
  exists goodP, (inTab t_good), (tabRank t_good), 3. split; [apply good_setting; reflexivity|].
  destruct good_lines as (s & E & A & _). exists always, s. eexists. split; [exact E|]. split; [discriminate|]. split; [reflexivity|].
  rewrite A. intros l [<-|[<-|[]]]; discriminate.
Qed.
Print Assumptions C86_final_shown_refuted.
(** full claim: from line to line the dual does not get worse.  False: the bound of a node of the cut set is not combined with that of its parent *)
Theorem C86_dual_monotone_refuted : exists (P : prob nat) I rank N, setting P I rank N (exSrt P) 20 2 /\ p_min P = true /\ exists late n1 n2 p1 p2 g1 g2,
  (do (_, ls) <- searchP P (exSrt P) 20 nolim late 100 2 None ; Ok ls) = Ok [mkPL n1 (Some 9%Z) p1 g1; mkPL n2 (Some 1%Z) p2 g2].
Proof.
  exists (tabP t_dn), (inTab t_dn), (tabRank t_dn), 3. split; [exact dn_setting|]. split; [reflexivity|]. exact dn_ex.
Qed.
Print Assumptions C86_dual_monotone_refuted.

(** ** a run with two lines meets the hypotheses of C86_columns and C86_dual_column; one with a line, those of C86_strict *)
Example C86_nontrivial : setting goodP (inTab t_good) (tabRank t_good) 3 (exSrt goodP) 20 2 /\ valid_qdom goodP (inTab t_good) /\
  (forall V, solution goodP (p_init goodP) 0 V -> be goodP (initialWorst goodP) V) /\ be goodP (sentinel goodP) (sentinel goodP) /\
  (exists s, searchP goodP (exSrt goodP) 20 nolim always 100 2 None = Ok (s, Emptied, [mkPL 0 None 2147483647 Dash; mkPL 1 (Some 9%Z) 11 (Pct (200 # 11))]) /\
    s_seen s = 0 /\ hist_ok goodP s) /\
  (exists s, searchP goodP (exSrt goodP) 20 nolim never 100 2 None = Ok (s, Emptied, [mkPL 1 (Some 9%Z) 11 (Pct (200 # 11))])) /\ (forall k, never k = false) /\
  (0 < 11)%Z /\ gap_of 11 9 = Pct (200 # 11) /\ gap_of (-9) (-11) = Pct (-200 # 9).
Proof.
  csplit; try reflexivity.
  - now apply good_setting.
  - intros f Hf. discriminate.
  - exact good_worst.
  - destruct good_lines as (s & E & _ & A & B). exists s. auto.
  - destruct good_lines_never as (s & E & _). exists s. exact E.
Qed.
