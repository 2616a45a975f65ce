(** The MISP examples: search, checkers and counterexamples. *)
From Verif Require Import Base DDModel DDSpec DDFrame DDRestricted DDExact DDExamples SearchModel SearchProofs SearchEx TspModel TspProofs MispModel MispSpec MispProofs MispInst MispFirst.
From Coq Require Import NArith Nnat Sorting.Sorted Permutation.

(** how the solutions of a vertex-by-vertex model represent independent sets: [vertex ls] are the vertices the labels ls decide about *)
Definition represents {St} (P : prob St) (top : nat) (es : list (nat * nat)) (weight : nat -> Z) (vertex : list Z -> list nat) : Prop :=
  (forall ls v, path P (p_init P) ls v (p_target P) ->
     StronglySorted lt (vertex ls) /\ length (vertex ls) = length ls /\ indep_set top es (picks (vertex ls) ls) /\ v = total weight (picks (vertex ls) ls)) /\
  (forall S, indep_set top es S -> exists ls, path P (p_init P) ls (total weight S) (p_target P) /\ picks (vertex ls) ls = S /\
     forall ls' v', path P (p_init P) ls' v' (p_target P) -> picks (vertex ls') ls' = S -> ls' = ls).
(** what a run of branch and bound reports: independent sets, the last one of the reported weight *)
Definition reports {St} (P : prob St) (top : nat) (es : list (nat * nat)) (weight : nat -> Z) (vertex : list Z -> list nat) (s : @sst St) : Prop :=
  (forall lab, In lab (b_log (s_b s)) -> indep_set top es (picks (vertex lab) lab)) /\
  (b_primal (s_b s) <> sentinel P -> indep_set top es (picks (vertex (b_inc (s_b s))) (b_inc (s_b s))) /\
     b_primal (s_b s) = total weight (picks (vertex (b_inc (s_b s))) (b_inc (s_b s)))).

Section Gen.
Variables (top : nat) (es : list (nat * nat)) (weight : nat -> Z).
Context {St : Type}.
Variables (P : prob St) (sel : St -> N) (cur rank : St -> nat) (live : St -> Prop).
Hypothesis DC : decision top es weight P sel cur rank live.
Notation vtx := (fun ls => trace P cur (p_init P) ls).
Lemma dec_represents : represents P top es weight vtx.
Proof.
  split.
  - intros ls v H. exact (dec_solution _ _ _ _ _ _ _ _ DC ls v H).
  - intros S HS. exact (dec_every _ _ _ _ _ _ _ _ DC S HS).
Qed.
Lemma dec_search (L : list St) srt dfuel mxw lim fuel : (forall v, v < top -> (0 <= weight v)%Z) -> (forall dd l, Permutation (srt dd l) l) -> top < dfuel ->
  (N.of_nat mxw < 4294967296)%N -> (forall s, live s -> In s L) -> length L <= fuel ->
  exists s e, search P srt dfuel lim fuel mxw None = Ok (s, e) /\ reports P top es weight vtx s.
Proof.
  intros W PS DF MW HL F. pose proof (dec_setting _ _ _ _ _ _ _ _ DC srt dfuel mxw W PS DF MW) as SE.
  assert (B0 : be P (sentinel P) (sentinel P)) by (unfold be; lia).
  destruct (search_total P _ _ _ srt dfuel mxw SE lim None B0 L) with (fuel := fuel) as (s & e & E); auto.
  { intros x Nt (ls & v & H). apply HL. assert (Q : dinv P live x); [|destruct Q as [?| ->]; auto; congruence].
    eapply path_closed; [apply (dec_closed _ _ _ _ _ _ _ _ DC)| |exact H]. left. apply (dc_init _ _ _ _ _ _ _ _ DC). }
  exists s, e. split; auto. destruct (search_genuine P _ _ _ srt dfuel mxw SE lim None B0 fuel s e E) as [G1 G2]. split.
  - intros lab Hl. destruct (G2 lab Hl) as (v & (ls & w & -> & _ & H) & _). destruct dec_represents as [D _]. now destruct (D _ _ H) as (_ & _ & ? & _).
  - intros N. destruct (G1 N) as (ls & w & E1 & E2 & H). cbn in E1, E2. rewrite E1, E2. destruct dec_represents as [D _]. now destruct (D _ _ H) as (_ & _ & ? & ?).
Qed.
End Gen.

Section End_.
Variables (top : nat) (es : list (nat * nat)) (weight : nat -> Z).
Hypothesis Ht : 1 <= top.
Lemma live3_2 s : live3 top s -> In s (m_states top (p_target (misp3 top es weight))).
Proof.
  intros (A & B & C & D). right. apply in_map_iff. exists (m_sel s, m_n s, m_l s). split; [now destruct s|]. specialize (B _ A) as Q.
  apply in_prod; [apply in_prod|].
  - apply in_masks. intros u Hu. specialize (B u Hu). lia.
  - apply in_seq. lia.
  - apply in_map_iff. exists (Z.to_nat (m_l s + 1)). split; [lia|]. apply in_seq. lia.
Qed.
Lemma live5_2 s : live5 top s -> In s (m_states top (p_target (misp5 top es weight))).
Proof.
  intros ((v & A) & B & C). right. apply in_map_iff. exists (m_sel s, m_n s, m_l s). split; [now destruct s|]. specialize (B _ A) as Q.
  apply in_prod; [apply in_prod|].
  - apply in_masks. intros u Hu. specialize (B u Hu). lia.
  - apply in_seq. lia.
  - apply in_map_iff. exists (Z.to_nat (m_l s + 1)). split; [lia|]. apply in_seq. lia.
Qed.
Definition m4_states : list misp4 := map (fun x => mkM4 (fst x) (snd x)) (list_prod (TspProofs.masks top) (seq 0 top)).
Lemma live4_in s : live4 top s -> In s m4_states.
Proof.
  intros ((v & A) & B). apply in_map_iff. exists (q_sel s, q_n s). split; [now destruct s|]. specialize (B _ A) as Q.
  apply in_prod; [|apply in_seq; lia]. apply in_masks. intros u Hu. specialize (B u Hu). lia.
Qed.
Lemma m4_states_length : length m4_states = 2 ^ top * top.
Proof. unfold m4_states. now rewrite map_length, prod_length, masks_length, seq_length. Qed.

(** replacing the trace by plain numbering *)
Lemma represents_ext {St} (P : prob St) f g : (forall ls v, path P (p_init P) ls v (p_target P) -> f ls = g ls) -> represents P top es weight f -> represents P top es weight g.
Proof.
  intros E [A B]. split.
  - intros ls v H. rewrite <- (E ls v H). auto.
  - intros S HS. destruct (B S HS) as (ls & H & H1 & H2). exists ls. rewrite <- (E _ _ H). csplit; auto. intros ls' v' H'. rewrite <- (E _ _ H'). apply (H2 ls' v' H').
Qed.
Lemma misp4_represents : represents (misp4p top es weight) top es weight (fun ls => seq 0 (length ls)).
Proof.
  eapply represents_ext; [|apply (dec_represents _ _ _ _ _ _ _ _ (dec4 top es weight Ht))]. intros ls v H. cbn beta.
  rewrite (trace4 top es weight Ht ls _ v H); [reflexivity|]. apply (dc_init _ _ _ _ _ _ _ _ (dec4 top es weight Ht)).
Qed.
Lemma misp5_represents : represents (misp5 top es weight) top es weight (fun ls => seq 0 (length ls)).
Proof.
  eapply represents_ext; [|apply (dec_represents _ _ _ _ _ _ _ _ (dec5 top es weight Ht))]. intros ls v H. cbn beta.
  rewrite (trace5 top es weight Ht ls _ v H); [reflexivity|]. apply (dc_init _ _ _ _ _ _ _ _ (dec5 top es weight Ht)).
Qed.
(** the vertices decided in misp2.cpp and misp3.cpp *)
Definition vertices2 (ls : list Z) : list nat := trace (misp2 top es weight) (cur2 top) (p_init (misp2 top es weight)) ls.
Definition vertices3 (ls : list Z) : list nat := trace (misp3 top es weight) cur3 (p_init (misp3 top es weight)) ls.
Lemma misp2_represents : represents (misp2 top es weight) top es weight vertices2.
Proof. apply (dec_represents _ _ _ _ _ _ _ _ (dec2 top es weight Ht)). Qed.
Lemma misp3_represents : represents (misp3 top es weight) top es weight vertices3.
Proof. apply (dec_represents _ _ _ _ _ _ _ _ (dec3 top es weight Ht)). Qed.

Lemma misp_represent : (exists vertex, represents (misp2 top es weight) top es weight vertex) /\ (exists vertex, represents (misp3 top es weight) top es weight vertex) /\
  represents (misp4p top es weight) top es weight (fun ls => seq 0 (length ls)) /\ represents (misp5 top es weight) top es weight (fun ls => seq 0 (length ls)).
Proof.
  csplit.
  - exists vertices2. apply misp2_represents.
  - exists vertices3. apply misp3_represents.
  - apply misp4_represents.
  - apply misp5_represents.
Qed.

Definition nonneg : Prop := forall v, v < top -> (0 <= weight v)%Z.
Lemma misp_valid : nonneg ->
  valid_model (misp1 top es weight) (inv1 top es weight) m_n (top - 1) /\
  valid_model (misp2 top es weight) (dinv (misp2 top es weight) (live2 top)) m_n (top - 1) /\
  valid_model (misp3 top es weight) (dinv (misp3 top es weight) (live3 top)) m_n (top - 1) /\
  valid_model (misp4p top es weight) (dinv (misp4p top es weight) (live4 top)) q_n (top - 1) /\
  valid_model (misp5 top es weight) (dinv (misp5 top es weight) (live5 top)) m_n (top - 1).
Proof.
  intros W. csplit.
  - apply m1_valid; auto.
  - apply (dec_valid _ _ _ _ _ _ _ _ (dec2 top es weight Ht)). auto.
  - apply (dec_valid _ _ _ _ _ _ _ _ (dec3 top es weight Ht)). auto.
  - apply (dec_valid _ _ _ _ _ _ _ _ (dec4 top es weight Ht)). auto.
  - apply (dec_valid _ _ _ _ _ _ _ _ (dec5 top es weight Ht)). auto.
Qed.
(** misp2.cpp has no local bound, so its closures are valid whatever the weights *)
Lemma misp2_valid : valid_model (misp2 top es weight) (dinv (misp2 top es weight) (live2 top)) m_n (top - 1).
Proof. apply (dec_valid _ _ _ _ _ _ _ _ (dec2 top es weight Ht)). auto. Qed.

Lemma misp_searches srt2 srt3 srt4 srt5 dfuel mxw lim fuel : nonneg ->
  (forall dd l, Permutation (srt2 dd l) l) -> (forall dd l, Permutation (srt3 dd l) l) -> (forall dd l, Permutation (srt4 dd l) l) -> (forall dd l, Permutation (srt5 dd l) l) ->
  top < dfuel -> (N.of_nat mxw < 4294967296)%N -> 2 ^ top * (top + 1) * (top + 1) + 1 <= fuel ->
  (exists vertex s e, search (misp2 top es weight) srt2 dfuel lim fuel mxw None = Ok (s, e) /\ represents (misp2 top es weight) top es weight vertex /\ reports (misp2 top es weight) top es weight vertex s) /\
  (exists vertex s e, search (misp3 top es weight) srt3 dfuel lim fuel mxw None = Ok (s, e) /\ represents (misp3 top es weight) top es weight vertex /\ reports (misp3 top es weight) top es weight vertex s) /\
  (exists vertex s e, search (misp4p top es weight) srt4 dfuel lim fuel mxw None = Ok (s, e) /\ represents (misp4p top es weight) top es weight vertex /\ reports (misp4p top es weight) top es weight vertex s) /\
  (exists vertex s e, search (misp5 top es weight) srt5 dfuel lim fuel mxw None = Ok (s, e) /\ represents (misp5 top es weight) top es weight vertex /\ reports (misp5 top es weight) top es weight vertex s).
Proof.
  intros W P2 P3 P4 P5 DF MW F.
  assert (F4 : length m4_states <= fuel) by (rewrite m4_states_length; nia).
  csplit.
  - destruct (dec_search _ _ _ _ _ _ _ _ (dec2 top es weight Ht) (m_states top (p_target (misp2 top es weight))) srt2 dfuel mxw lim fuel) as (s & e & E & R); auto.
    { intros x Hx. now apply (in_m_states top weight Ht). } { now rewrite m_states_length. }
    do 3 eexists. csplit; [exact E|apply (dec_represents _ _ _ _ _ _ _ _ (dec2 top es weight Ht))|exact R].
  - destruct (dec_search _ _ _ _ _ _ _ _ (dec3 top es weight Ht) (m_states top (p_target (misp3 top es weight))) srt3 dfuel mxw lim fuel) as (s & e & E & R); auto.
    { intros x Hx. now apply live3_2. } { now rewrite m_states_length. }
    do 3 eexists. csplit; [exact E|apply (dec_represents _ _ _ _ _ _ _ _ (dec3 top es weight Ht))|exact R].
  - destruct (dec_search _ _ _ _ _ _ _ _ (dec4 top es weight Ht) m4_states srt4 dfuel mxw lim fuel) as (s & e & E & R); auto.
    { intros x Hx. now apply live4_in. }
    do 3 eexists. csplit; [exact E|apply (dec_represents _ _ _ _ _ _ _ _ (dec4 top es weight Ht))|exact R].
  - destruct (dec_search _ _ _ _ _ _ _ _ (dec5 top es weight Ht) (m_states top (p_target (misp5 top es weight))) srt5 dfuel mxw lim fuel) as (s & e & E & R); auto.
    { intros x Hx. now apply live5_2. } { now rewrite m_states_length. }
    do 3 eexists. csplit; [exact E|apply (dec_represents _ _ _ _ _ _ _ _ (dec5 top es weight Ht))|exact R].
Qed.

(** misp.cpp *)
Lemma misp1_search srt dfuel mxw lim fuel : nonneg -> (forall dd l, Permutation (srt dd l) l) -> top < dfuel ->
  (N.of_nat mxw < 4294967296)%N -> 2 ^ top * (top + 1) * (top + 1) + 1 <= fuel ->
  exists s e, search (misp1 top es weight) srt dfuel lim fuel mxw None = Ok (s, e) /\
    (forall lab, In lab (b_log (s_b s)) -> exists S, indep_set top es S /\ lab = map Z.of_nat S) /\
    (b_primal (s_b s) <> sentinel (misp1 top es weight) -> exists S, indep_set top es S /\ b_inc (s_b s) = map Z.of_nat S /\ b_primal (s_b s) = total weight S).
Proof.
  intros W PS DF MW F. set (P := misp1 top es weight) in *. destruct (m1_init_live top es weight Ht) as [Hi _].
  assert (SE : setting P (inv1 top es weight) m_n (top - 1) srt dfuel mxw).
  { constructor; auto; try lia.
    - now apply m1_valid.
    - now apply (live1_ne top es weight).
    - now left.
    - intros ls v s H. pose proof (m1_nonneg top es weight Ht W _ _ _ _ H (or_introl Hi)). unfold bt, val, sentinel. cbn. lia. }
  assert (B0 : be P (sentinel P) (sentinel P)) by (unfold be; lia).
  destruct (search_total P _ _ _ srt dfuel mxw SE lim None B0 (m_states top (p_target P))) with (fuel := fuel) as (s & e & E); auto.
  { intros x Nt (ls & v & H). assert (Q : inv1 top es weight x) by (eapply path_closed; [apply m1_closed; auto|left; exact Hi|exact H]).
    apply (in_m_states top weight Ht). exact (inv1_live top es weight x Q Nt). }
  { now rewrite m_states_length. }
  exists s, e. split; auto. destruct (search_genuine P _ _ _ srt dfuel mxw SE lim None B0 fuel s e E) as [G1 G2]. split.
  - intros lab Hl. destruct (G2 lab Hl) as (v & (ls & w & -> & _ & H) & _). apply m1_solutions in H as (S & I1 & _ & -> & _); eauto.
  - intros N. destruct (G1 N) as (ls & w & E1 & E2 & H). cbn in E1, E2. apply m1_solutions in H as (S & I1 & _ & -> & ->); auto. exists S. csplit; auto.
Qed.

(** the checkers of misp4.cpp and misp5.cpp accept what a search can report *)
Lemma checkers_accept : (forall a b, In (a, b) es -> a <> b) ->
  (forall ls v, path (misp4p top es weight) (p_init (misp4p top es weight)) ls v (p_target (misp4p top es weight)) -> checker es ls = true) /\
  (forall ls v, path (misp5 top es weight) (p_init (misp5 top es weight)) ls v (p_target (misp5 top es weight)) -> checker es ls = true).
Proof.
  intros NL. split; intros ls v H.
  - destruct misp4_represents as [R _]. destruct (R ls v H) as (_ & _ & (_ & _ & I) & _). now apply (checker_accepts top es weight Ht).
  - destruct misp5_represents as [R _]. destruct (R ls v H) as (_ & _ & (_ & _ & I) & _). now apply (checker_accepts top es weight Ht).
Qed.
End End_.

(** ** concrete graphs, all weights 1 (as in the examples) *)
Definition one (v : nat) : Z := 1%Z.
Definition adjb (es : list (nat * nat)) (i j : nat) : bool := existsb (fun e => ((fst e =? i) && (snd e =? j)) || ((fst e =? j) && (snd e =? i))) es.
Fixpoint sortedb (l : list nat) : bool := match l with [] => true | a :: r => forallb (fun b => a <? b) r && sortedb r end.
Definition indepb (top : nat) (es : list (nat * nat)) (S : list nat) : bool :=
  sortedb S && forallb (fun v => v <? top) S && forallb (fun i => forallb (fun j => (i =? j) || negb (adjb es i j)) S) S.
Lemma sortedb_ok l : sortedb l = true -> StronglySorted lt l.
Proof.
  induction l as [|a l IH]; cbn; [intros _; constructor|]. rewrite andb_true_iff, forallb_forall. intros [A B]. constructor; auto.
  apply Forall_forall. intros b Hb. apply Nat.ltb_lt. exact (A b Hb).
Qed.
Lemma indepb_ok top es S : indepb top es S = true -> indep_set top es S.
Proof.
  unfold indepb. rewrite !andb_true_iff, !forallb_forall. intros [[A B] C]. split; [now apply sortedb_ok|]. split.
  - apply Forall_forall. intros v Hv. apply Nat.ltb_lt. auto.
  - intros i j Hi Hj N Adj. specialize (C i Hi). rewrite forallb_forall in C. specialize (C j Hj). apply orb_true_iff in C as [C|C].
    + apply Nat.eqb_eq in C. congruence.
    + apply negb_true_iff in C. apply badj_spec in Adj. unfold adjb in C. congruence.
Qed.
Lemma one_nonneg top : nonneg top one.
Proof. intros v _. unfold one. lia. Qed.

(** search misses the best set *)
Definition misses {St} (P : prob St) (es : list (nat * nat)) (top w : nat) (got best : Z) (seen : nat) : Prop :=
  exists s, search P (exSrt P) 20 nolim 100 w None = Ok (s, Emptied) /\ b_primal (s_b s) = got /\ s_seen s = seen /\
    exists S, indep_set top es S /\ total one S = best.
Definition g1 : list (nat * nat) := [(0, 4); (0, 5); (1, 5); (2, 4)].
Definition g2 : list (nat * nat) := [(0, 1); (0, 2); (3, 4)].
Definition g3 : list (nat * nat) := [(0, 1); (0, 3); (1, 2); (2, 4)].
Definition g4 : list (nat * nat) := [(0, 1); (0, 2); (2, 5); (2, 6); (3, 5); (4, 6)].
Definition g5 : list (nat * nat) := [(0, 2); (1, 2); (2, 3)].
Ltac miss P w S := 
  let o := fresh "o" in let E := fresh "E" in let s := fresh "s" in
  destruct (so P (run_ P w None nolim)) as [o|] eqn:E; [|vm_compute in E; discriminate];
  destruct (so_inv P _ o (fun a => proj2 (misp_eqb_eq a a) eq_refl) E) as (s & H & H1 & H2 & H3 & H4 & H5 & _);
  vm_compute in E; injection E as <-; exists s; csplit; [exact H|exact H1|exact H5|exists S; split; [apply indepb_ok; reflexivity|reflexivity]].
Ltac miss4 P w S := 
  let o := fresh "o" in let E := fresh "E" in let s := fresh "s" in
  destruct (so P (run_ P w None nolim)) as [o|] eqn:E; [|vm_compute in E; discriminate];
  destruct (so_inv P _ o (fun a => proj2 (misp4_eqb_eq a a) eq_refl) E) as (s & H & H1 & H2 & H3 & H4 & H5 & _);
  vm_compute in E; injection E as <-; exists s; csplit; [exact H|exact H1|exact H5|exists S; split; [apply indepb_ok; reflexivity|reflexivity]].
Lemma misp_misses : misses (misp1 6 g1 one) g1 6 2 3 4 0 /\ misses (misp2 6 g2 one) g2 6 2 3 4 0 /\ misses (misp3 5 g3 one) g3 5 2 2 3 0 /\
  misses (misp4p 7 g4 one) g4 7 2 3 4 0 /\ misses (misp5 7 g4 one) g4 7 2 3 4 0 /\ misses (misp4p 4 g5 one) g5 4 1 1 3 1.
Proof.
  csplit.
  - miss (misp1 6 g1 one) 2 [0; 1; 2; 3].
  - miss (misp2 6 g2 one) 2 [1; 2; 3; 5].
  - miss (misp3 5 g3 one) 2 [1; 3; 4].
  - miss4 (misp4p 7 g4 one) 2 [1; 2; 3; 4].
  - miss (misp5 7 g4 one) 2 [1; 2; 3; 4].
  - miss4 (misp4p 4 g5 one) 1 [0; 1; 3].
Qed.

(** misp.cpp does not represent every independent set: with three isolated vertices {0} is not a solution *)
Lemma misp1_not_all : indep_set 3 [] [0] /\ ~ exists ls v, path (misp1 3 [] one) (p_init (misp1 3 [] one)) ls v (p_target (misp1 3 [] one)) /\ ls = [0%Z].
Proof.
  split; [now apply indepb_ok|]. intros (ls & v & H & ->). apply m1_solutions in H as (S & _ & RM & E & _); [|lia].
  destruct S as [|a [|b S]]; try discriminate. cbn in E. injection E as E. assert (a = 0) by lia. subst a.
  destruct (RM 2) as (i & _ & [[]|[]]); [lia|]. intros i [<-|[]]. lia.
Qed.
(** and with negative weights its optimum is not the maximum weight of an independent set *)
Lemma misp1_negative : indep_set 1 [] [] /\ total (fun _ => (-1)%Z) [] = 0%Z /\
  forall ls v, path (misp1 1 [] (fun _ => (-1)%Z)) (p_init (misp1 1 [] (fun _ => (-1)%Z))) ls v (p_target (misp1 1 [] (fun _ => (-1)%Z))) -> v = (-1)%Z.
Proof.
  split; [now apply indepb_ok|]. split; [reflexivity|]. intros ls v H. apply m1_solutions in H as (S & (S1 & S2 & _) & RM & _ & ->); [|lia].
  destruct S as [|a S].
  - destruct (RM 0) as (i & [] & _); [lia|intros i []].
  - destruct S as [|b S]; [reflexivity|]. inversion S1 as [|? ? _ Q]; subst. inversion Q; subst. inversion S2 as [|? ? Q1 Q2]; subst. inversion Q2; subst. lia.
Qed.
(** nor is the local bound of misp3, misp4 and misp5 valid with negative weights *)
Definition negw (v : nat) : Z := if v =? 0 then (-5)%Z else 1%Z.
Lemma negative_local : ~ valid_local (misp3 2 [] negw) (dinv (misp3 2 [] negw) (live3 2)) /\ ~ valid_local (misp4p 2 [] negw) (dinv (misp4p 2 [] negw) (live4 2)) /\
  ~ valid_local (misp5 2 [] negw) (dinv (misp5 2 [] negw) (live5 2)).
Proof.
  csplit.
  - intros V. specialize (V _ (m3_init 2) false 1%Z eq_refl (or_introl (proj1 (dc_init _ _ _ _ _ _ _ _ (dec3 2 [] negw (le_S _ _ (le_n 1))))))).
    enough (compl (misp3 2 [] negw) (m3_init 2) 1). { apply V in H. unfold be, val in H. vm_compute in H. now apply H. }
    exists [0; 1]%Z. apply walk_path; [intros; apply misp_eqb_eq|reflexivity].
  - intros V. specialize (V _ (m4_init 2) false 1%Z eq_refl (or_introl (proj1 (dc_init _ _ _ _ _ _ _ _ (dec4 2 [] negw (le_S _ _ (le_n 1))))))).
    enough (compl (misp4p 2 [] negw) (m4_init 2) 1). { apply V in H. unfold be, val in H. vm_compute in H. now apply H. }
    exists [0; 1]%Z. apply walk_path; [intros; apply misp4_eqb_eq|reflexivity].
  - intros V. specialize (V _ (m5_init 2) false 1%Z eq_refl (or_introl (proj1 (dc_init _ _ _ _ _ _ _ _ (dec5 2 [] negw (le_S _ _ (le_n 1))))))).
    enough (compl (misp5 2 [] negw) (m5_init 2) 1). { apply V in H. unfold be, val in H. vm_compute in H. now apply H. }
    exists [0; 1]%Z. apply walk_path; [intros; apply misp_eqb_eq|reflexivity].
Qed.

(** the checkers of misp.cpp, misp2.cpp and misp3.cpp read labels as flags of vertices 0, 1, ..., which they are not *)
Lemma checkers_reject :
  (exists ls v, path (misp1 4 [(0, 1)] one) (p_init (misp1 4 [(0, 1)] one)) ls v (p_target (misp1 4 [(0, 1)] one)) /\ checker [(0, 1)] ls = false) /\
  (exists ls v, path (misp2 3 [(0, 1)] one) (p_init (misp2 3 [(0, 1)] one)) ls v (p_target (misp2 3 [(0, 1)] one)) /\ checker [(0, 1)] ls = false) /\
  (exists ls v, path (misp3 3 [(0, 1)] one) (p_init (misp3 3 [(0, 1)] one)) ls v (p_target (misp3 3 [(0, 1)] one)) /\ checker [(0, 1)] ls = false).
Proof.
  csplit.
  - exists [1; 2; 3]%Z, 3%Z. split; [|reflexivity]. apply walk_path; [intros; apply misp_eqb_eq|reflexivity].
  - exists [1; 1]%Z, 2%Z. split; [|reflexivity]. apply walk_path; [intros; apply misp_eqb_eq|reflexivity].
  - exists [1; 1]%Z, 2%Z. split; [|reflexivity]. apply walk_path; [intros; apply misp_eqb_eq|reflexivity].
Qed.
(** the sum in misp5's checker reads past the end of a solution that stops before the last vertex *)
Lemma m5_sum_overrun : exists ls v, path (misp5 2 [(0, 1)] one) (p_init (misp5 2 [(0, 1)] one)) ls v (p_target (misp5 2 [(0, 1)] one)) /\
  checker [(0, 1)] ls = true /\ m5_sum 2 one ls = Err UB.
Proof. exists [1]%Z, 1%Z. split; [|split; reflexivity]. apply walk_path; [intros; apply misp_eqb_eq|reflexivity]. Qed.
Lemma m5_sum_ok top w ls : m5_sum top w ls = Err UB <-> length ls < top.
Proof.
  unfold m5_sum. assert (G : forall k i t, m5_ttl w k i ls t = Err UB <-> length ls < i + k /\ 0 < k).
  { induction k as [|k IH]; intros i t; cbn; [split; [discriminate|lia]|]. destruct (nth_error ls i) eqn:E.
    - rewrite IH. assert (i < length ls) by (apply nth_error_Some; congruence). split; intros; [lia|]. destruct H0. split; lia.
    - apply nth_error_None in E. split; auto. intros _. lia. }
  rewrite G. lia.
Qed.
