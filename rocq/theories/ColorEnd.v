(** The four colouring programs, and concrete runs (for PropDyn.v and PropColor.v). *)
From Verif Require Import Base DDModel DDSpec DDFrame DDExact DDWide DDExamples DDRestricted DDRestricted2 DDRelaxedEnd SearchModel SearchProofs SearchEx SearchDyn
  TspModel TspProofs MispModel MispSpec MispProofs ColorModel ColorSpec ColorProofs ColorTop.

(** the problems of coloring.cpp, coloringtoy.cpp, coloring2.cpp and coloring3.cpp; the last two keep the colours in unsigned short *)
Inductive program (K : nat) (es : list (nat * nat)) (UB : nat) : forall St, (option Z -> prob St) -> Prop :=
| coloring1 : program K es UB color (co_prob K es UB)
| coloringtoy : program K es UB color (ct_prob K es UB)
| coloring2 : (Z.of_nat UB < 65536)%Z -> program K es UB color2 (c2_prob K UB (adjs es))
| coloring3 : (Z.of_nat UB < 65536)%Z -> program K es UB color2 (c2_prob K UB (c3_adj es)).
Arguments program K es UB {St} PP.
(** the search of these programs: the labels are those of the current primal bound *)
Definition csearch {St} (PP : option Z -> prob St) := searchD (PP None) (fun b => p_labels (PP (Some b))).

Lemma program_family K es UB {St} (PP : option Z -> prob St) : 1 <= K -> program K es UB PP ->
  exists rep live vtx sup, family K es UB PP rep live vtx sup.
Proof.
  intros HK [| |H|H].
  - do 4 eexists. apply (co_family K es UB HK).
  - do 4 eexists. apply (ct_family K es UB HK).
  - do 4 eexists. apply (c2_family K es UB (adjs es) HK H). apply c2_adj.
  - do 4 eexists. apply (c2_family K es UB (c3_adj es) HK H). apply c3_adj_spec.
Qed.

Section End.
Variables (K : nat) (es : list (nat * nat)) (UB : nat).
Hypothesis G : simple_graph K es.
Hypothesis HK : 1 <= K.
Hypothesis HU : (Z.of_nat UB < 2147483647)%Z.
Context {St : Type} (PP : option Z -> prob St).
Hypothesis PR : program K es UB PP.
Ltac fam := destruct (program_family K es UB PP HK PR) as (rep & live & vtx & sup & F).

Lemma pr_dyn p0 : (1 <= p0)%Z -> exists I rank, dyn_ok (PP None) (fun b => p_labels (PP (Some b))) p0 I rank K /\
  forall srt dfuel mxw, (forall d l, Permutation (srt d l) l) -> K + 1 < dfuel -> (N.of_nat mxw < 4294967296)%N -> setting (PP None) I rank K srt dfuel mxw.
Proof.
  intros A. fam. exists (linv (PP None) live), vtx. split; [now apply (fam_dyn K es UB G HK PP rep live vtx sup F)|].
  intros srt dfuel mxw. apply (fam_setting K es UB HK HU PP rep live vtx sup F).
Qed.
Lemma pr_solutions b ls v : pos b -> (path (PP b) (p_init (PP b)) ls v (p_target (PP b)) <-> first_use ls v /\ colouring K es ls /\ (v <= Z.of_nat UB)%Z /\ within b v).
Proof. fam. now apply (fam_solutions K es UB G HK PP rep live vtx sup F). Qed.
Lemma pr_rename b (c : list Z) k : pos b -> colouring K es c -> uses c k -> k <= UB -> within b (Z.of_nat k) ->
  exists ls, path (PP b) (p_init (PP b)) ls (Z.of_nat k) (p_target (PP b)).
Proof. fam. now apply (fam_rename K es UB G HK PP rep live vtx sup F). Qed.
Lemma pr_exact b fuel primal : pos b -> S UB ^ K + 1 <= fuel -> (exists (c : list Z) k, colouring K es c /\ uses c k /\ k <= UB /\ within b (Z.of_nat k)) ->
  exists d n, ex_compute (PP b) fuel (initDefault (PP b) (dd_empty (PP b) true)) primal = Ok d /\ trg_node d = Ok n /\
    colouring K es (n_lab n) /\ uses (n_lab n) (Z.to_nat (n_bound n)) /\ forall (c : list Z) k, colouring K es c -> uses c k -> (n_bound n <= Z.of_nat k)%Z.
Proof. fam. now apply (fam_exact K es UB G HK HU PP rep live vtx sup F). Qed.
(** relaxed diagrams: the bound is below the number of colours of every colouring within the limits *)
Lemma pr_relaxed b srt fuel primal w : pos b -> (forall d l, Permutation (srt d l) l) -> K + 1 < fuel ->
  exists d n, run (PP b) srt fuel (SRelaxed w) primal = Ok d /\ trg_node d = Ok n /\
    forall (c : list Z) k, colouring K es c -> uses c k -> k <= UB -> within b (Z.of_nat k) -> (Z.of_nat k < primal)%Z -> (n_bound n <= Z.of_nat k)%Z.
Proof.
  intros Pb Hs Hf. fam. pose proof (fa_ext _ _ _ _ _ _ _ _ F b Pb) as X. pose proof (fa_shape _ _ _ _ _ _ _ _ F b Pb) as H.
  pose proof (sh_model K _ live vtx sup H) as VM. pose proof (xt_init _ _ _ _ _ _ X) as R. pose proof (proj1 (xt_rep _ _ _ _ _ _ X _ _ _ R)) as Nt.
  assert (Ii : linv (PP b) live (p_init (PP b))) by (left; eapply (fa_live _ _ _ _ _ _ _ _ F); eauto).
  pose proof (xt_range _ _ _ _ _ _ X HK HU) as Rg. pose proof (started_default (PP b) true) as S0.
  assert (F1 : K + 1 < fuel + vtx (p_init (PP b))) by lia.
  destruct (relaxed_terminates (PP b) _ _ _ VM _ _ _ Nt Ii Rg srt Hs fuel _ primal w S0 F1) as (d & E).
  destruct (relaxed_dual_bound (PP b) _ _ _ VM _ _ _ Nt Ii Rg srt Hs fuel _ primal w d S0 F1 E) as (n & En & _ & D).
  exists d, n. csplit; auto. intros c k C U L W Lp. destruct (pr_rename b c k Pb C U L W) as (ls & Hp).
  assert (B : be (PP b) (n_bound n) (Z.of_nat k)).
  { apply D; [exists (Z.of_nat k); split; [exists ls; auto|lia]|]. unfold bt, val. rewrite (xt_min _ _ _ _ _ _ X). lia. }
  unfold be, val in B. rewrite (xt_min _ _ _ _ _ _ X) in B. lia.
Qed.

Section Search.
Variables (srt : dd St -> list nat -> list nat) (dfuel mxw : nat) (lim : nat -> bool).
Hypothesis Hsrt : forall d l, Permutation (srt d l) l.
Hypothesis Hfuel : K + 1 < dfuel.
Hypothesis Hmxw : (N.of_nat mxw < 4294967296)%N.
Lemma pr_found fuel s e : csearch PP srt dfuel lim fuel mxw None = Ok (s, e) ->
  (b_primal (s_b s) <> 2147483647%Z -> colouring K es (b_inc (s_b s)) /\ uses (b_inc (s_b s)) (Z.to_nat (b_primal (s_b s))) /\ (0 <= b_primal (s_b s) <= Z.of_nat UB)%Z) /\
  forall ls, In ls (b_log (s_b s)) -> colouring K es ls /\ co_check es ls = Ok true.
Proof.
  intros E. fam. destruct (fam_search_found K es UB G HK HU PP rep live vtx sup F srt dfuel mxw lim Hsrt Hfuel Hmxw fuel s e E) as [A B]. split; auto.
  intros ls Hl. pose proof (B ls Hl). split; auto. now apply (check_ok K).
Qed.
Lemma pr_optimal fuel s : csearch PP srt dfuel lim fuel mxw None = Ok (s, Emptied) -> s_seen s = 0 -> hist_ok (PP None) s ->
  forall (c : list Z) k, colouring K es c -> uses c k -> k <= UB -> (b_primal (s_b s) <= Z.of_nat k)%Z.
Proof. fam. now apply (fam_search_optimal K es UB G HK HU PP rep live vtx sup F). Qed.
Lemma pr_wide fuel : lim 0 = false -> narrow (PP None) (p_init (PP None)) mxw -> 1 <= fuel ->
  exists s, csearch PP srt dfuel lim fuel mxw None = Ok (s, Emptied) /\ s_ttl s = 1 /\
    forall (c : list Z) k, colouring K es c -> uses c k -> k <= UB -> (b_primal (s_b s) <= Z.of_nat k)%Z.
Proof. fam. now apply (fam_search_wide K es UB G HK HU PP rep live vtx sup F). Qed.
Lemma pr_total fuel : S UB ^ K + 1 <= fuel -> exists s e, csearch PP srt dfuel lim fuel mxw None = Ok (s, e).
Proof. fam. now apply (fam_search_total K es UB G HK HU PP rep live vtx sup F). Qed.
End Search.
End End.

(** ** concrete runs *)
Definition crun {St} (PP : option Z -> prob St) w := csearch PP (exSrt (PP None)) 40 nolim 400 w None.
Lemma color_refl a : color_eqb a a = true.
Proof.
  destruct a as [s l v]. unfold color_eqb. cbn [co_s co_last co_vtx]. rewrite Z.eqb_refl, Nat.eqb_refl. cbn. induction s as [|x s IH]; cbn; auto. now rewrite N.eqb_refl.
Qed.
Lemma color2_refl a : color2_eqb a a = true.
Proof.
  destruct a as [s l v]. unfold color2_eqb. cbn [c2_s c2_last c2_vtx]. rewrite Z.eqb_refl, Nat.eqb_refl. cbn. induction s as [|x s IH]; cbn; auto. now rewrite Nat.eqb_refl.
Qed.
Lemma pr_refl K es UB {St} (PP : option Z -> prob St) : program K es UB PP -> forall a, p_eqb (PP None) a a = true.
Proof. intros []; intros a; [apply color_refl|apply color_refl|apply color2_refl|apply color2_refl]. Qed.
(** a graph where all of them branch and still end with the optimum *)
Definition g8 : list (nat * nat) := [(3,7); (3,6); (3,5); (2,6); (2,4)]%nat.
(** bipartite graphs where the searches stop at 3 colours *)
Definition g5 : list (nat * nat) := [(2,3); (1,3); (0,1)]%nat.
Definition g6 : list (nat * nat) := [(3,4); (2,3); (1,4); (0,1)]%nat.
(** what the runs on them give, for each program *)
Definition c_obs p inc lg ttl seen cuts := mkObs p inc lg ttl seen 0 0 false cuts true true None.
Lemma crun_inv {St} K es UB (PP : option Z -> prob St) w p inc lg ttl seen cuts : program K es UB PP ->
  so (PP None) (crun PP w) = Ok (c_obs p inc lg ttl seen cuts) ->
  exists s, crun PP w = Ok (s, Emptied) /\ b_primal (s_b s) = p /\ b_inc (s_b s) = inc /\ b_log (s_b s) = lg /\ s_ttl s = ttl /\ s_seen s = seen /\
    length (s_hist s) = cuts /\ hist_ok (PP None) s.
Proof.
  intros PR E. destruct (so_inv (PP None) (crun PP w) _ (pr_refl K es UB PP PR) E) as (s & H & H1 & H2 & H3 & H4 & H5 & _ & _ & _ & H6 & _ & H7).
  exists s. csplit; auto.
Qed.
Lemma g8_run {St} (PP : option Z -> prob St) : program 8 g8 8 PP -> exists s, crun PP 2 = Ok (s, Emptied) /\ b_primal (s_b s) = 2%Z /\ b_inc (s_b s) = [1; 2; 2; 2; 1; 1; 1; 1]%Z /\
  s_ttl s = 5 /\ s_seen s = 0 /\ length (s_hist s) = 3 /\ hist_ok (PP None) s.
Proof.
  intros PR. destruct (crun_inv 8 g8 8 PP 2 2 [1; 2; 2; 2; 1; 1; 1; 1]%Z [[1; 2; 2; 2; 1; 1; 1; 1]; [1; 1; 1; 2; 2; 3; 3; 1]]%Z 5 0 3 PR) as (s & A1 & A2 & A3 & A4 & A5 & A6 & A7 & A8);
    [destruct PR; vm_compute; reflexivity|exists s; csplit; auto].
Qed.
Lemma g5_run {St} (PP : option Z -> prob St) : program 5 g5 5 PP -> exists s, crun PP 1 = Ok (s, Emptied) /\ b_primal (s_b s) = 3%Z /\ s_seen s = 1 /\ hist_ok (PP None) s.
Proof.
  intros PR. destruct (crun_inv 5 g5 5 PP 1 3 [1; 2; 1; 3; 1]%Z [[1; 2; 1; 3; 1]]%Z 2 1 2 PR) as (s & A1 & A2 & A3 & A4 & A5 & A6 & A7 & A8);
    [destruct PR; vm_compute; reflexivity|exists s; csplit; auto].
Qed.
Lemma g6_run {St} (PP : option Z -> prob St) : program 6 g6 6 PP -> exists s, crun PP 2 = Ok (s, Emptied) /\ b_primal (s_b s) = 3%Z /\ s_seen s = 1 /\ hist_ok (PP None) s.
Proof.
  intros PR. destruct (crun_inv 6 g6 6 PP 2 3 [1; 2; 2; 3; 1; 1]%Z [[1; 2; 2; 3; 1; 1]]%Z 2 1 2 PR) as (s & A1 & A2 & A3 & A4 & A5 & A6 & A7 & A8);
    [destruct PR; vm_compute; reflexivity|exists s; csplit; auto].
Qed.
(** an edge from a vertex to itself *)
Lemma loop_run {St} (PP : option Z -> prob St) : program 2 [(0, 0)] 2 PP -> exists s, crun PP 2 = Ok (s, Emptied) /\ b_inc (s_b s) = [1; 1]%Z /\ b_primal (s_b s) = 1%Z.
Proof.
  intros PR. destruct (so_inv (PP None) (crun PP 2) (mkObs 1 [1; 1] [[1; 1]] 1 0 0 0 false 0 false true None)%Z (pr_refl _ _ _ PP PR)) as (s & H & H1 & H2 & _);
    [destruct PR; vm_compute; reflexivity|exists s; csplit; auto].
Qed.

(** executable tests of the specification, for examples *)
Definition graphb K (es : list (nat * nat)) : bool := forallb (fun e => (fst e <? K) && (snd e <? K) && negb (fst e =? snd e)) es.
Lemma graphb_ok K es : graphb K es = true -> simple_graph K es.
Proof. intros H x y Hxy. unfold graphb in H. rewrite forallb_forall in H. specialize (H _ Hxy). cbn [fst snd] in H. lia. Qed.
Definition colb K es (c : list Z) : bool := (length c =? K) && forallb (fun e => match nth_error c (fst e), nth_error c (snd e) with Some u, Some v => negb (u =? v)%Z | _, _ => true end) es.
Lemma colb_ok K es c : colb K es c = true -> colouring K es c.
Proof.
  intros H. unfold colb in H. apply andb_true_iff in H as [L H]. split; [lia|]. intros x y Hxy u Hx Hy. rewrite forallb_forall in H. specialize (H _ Hxy). cbn [fst snd] in H.
  rewrite Hx, Hy, Z.eqb_refl in H. discriminate.
Qed.
Lemma uses_nodup (c : list Z) : uses c (length (nodup Z.eq_dec c)).
Proof. exists (nodup Z.eq_dec c). csplit; auto; [apply NoDup_nodup|]. intros x. apply nodup_In. Qed.
Lemma g8_graph : simple_graph 8 g8.
Proof. apply graphb_ok. vm_compute. reflexivity. Qed.
Lemma g8_two : colouring 8 g8 [1; 2; 2; 2; 1; 1; 1; 1]%Z /\ uses [1; 2; 2; 2; 1; 1; 1; 1]%Z 2.
Proof. split; [apply colb_ok; vm_compute; reflexivity|exact (uses_nodup [1; 2; 2; 2; 1; 1; 1; 1]%Z)]. Qed.
Lemma g5_graph : simple_graph 5 g5.
Proof. apply graphb_ok. vm_compute. reflexivity. Qed.
Lemma g5_two : colouring 5 g5 [1; 2; 2; 1; 1]%Z /\ uses [1; 2; 2; 1; 1]%Z 2.
Proof. split; [apply colb_ok; vm_compute; reflexivity|exact (uses_nodup [1; 2; 2; 1; 1]%Z)]. Qed.
Lemma g6_graph : simple_graph 6 g6.
Proof. apply graphb_ok. vm_compute. reflexivity. Qed.
Lemma g6_two : colouring 6 g6 [1; 2; 1; 2; 1; 1]%Z /\ uses [1; 2; 1; 2; 1; 1]%Z 2.
Proof. split; [apply colb_ok; vm_compute; reflexivity|exact (uses_nodup [1; 2; 1; 2; 1; 1]%Z)]. Qed.
(** the cycle of length five *)
Definition c5 : list (nat * nat) := [(0, 1); (1, 2); (2, 3); (3, 4); (4, 0)]%nat.
(** coloringtoy.cpp on its own graph, with its own width 4 *)
Lemma ct_run : exists s, crun (ct_prob 5 ct_es 5) 4 = Ok (s, Emptied) /\ b_primal (s_b s) = 3%Z /\ b_inc (s_b s) = [1; 1; 2; 2; 3]%Z /\ s_ttl s = 1.
Proof.
  destruct (so_inv (ct_prob 5 ct_es 5 None) (crun (ct_prob 5 ct_es 5) 4) (mkObs 3 [1; 1; 2; 2; 3] [[1; 1; 2; 2; 3]] 1 0 0 0 false 1 false true None)%Z (pr_refl _ _ _ _ (coloringtoy 5 ct_es 5))) as (s & H & H1 & H2 & _ & H3 & _);
    [vm_compute; reflexivity|exists s; csplit; auto].
Qed.
Lemma ct_three (c : list Z) k : colouring 5 ct_es c -> uses c k -> 3 <= k.
Proof.
  intros [L C] (cs & ND & <- & M). destruct c as [|a [|b [|e [|f [|g [|]]]]]]; try discriminate. change 3 with (length [b; e; g]). apply NoDup_incl_length.
  - assert (b <> e) by (intros <-; apply (C 1 2) with b; cbn; auto). assert (b <> g) by (intros <-; apply (C 1 4) with b; cbn; auto 7).
    assert (e <> g) by (intros <-; apply (C 2 4) with e; cbn; auto 7). repeat (constructor; [cbn; intuition|]). constructor.
  - intros x Hx. apply M. cbn in *. tauto.
Qed.
