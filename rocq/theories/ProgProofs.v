(** Whole programs: what they report about their instance file. *)
From Coq Require Import Ascii Sorting.Sorted.
From Verif Require Import Base DDModel DDSpec DDFrame DDRestricted DDExact DDWide SearchModel SearchProofs TspModel TspProofs MispModel MispSpec MispProofs MispInst MispFirst MispEnd
  KnapModel KnapProofs KnapEnd ReadModel ReadSpec ReadProofs ReadRun ProgModel ProgSpec.

(** a width that no layer exceeds: the number of states *)
Lemma narrow_of_list {St} (P : prob St) L w : (forall s, s <> p_target P -> (exists ls v, path P (p_init P) ls v s) -> In s L) -> length L <= w -> narrow P (p_init P) w.
Proof.
  intros HL Hw k l ND H. etransitivity; [|exact Hw]. apply NoDup_incl_length; auto. intros x Hx. destruct (H x Hx) as (Nt & ls & v & Hp & _). apply HL; eauto.
Qed.

(** ** independent sets of the file *)
Section Sets.
Variables (nv : Z) (ls : list dline).
Hypothesis Hnv : (1 <= nv)%Z.
Hypothesis He : Forall (fun e => 1 <= fst e <= nv /\ 1 <= snd e <= nv)%Z (edges1 ls).
Notation top := (Z.to_nat nv).
Notation es := (map idx_edge (edges0 ls)).
Definition number (v : nat) : Z := (Z.of_nat v + 1)%Z.
Lemma in_edges0 a b : In (a, b) es <-> exists x y, In (x, y) (edges1 ls) /\ a = Z.to_nat (x - 1) /\ b = Z.to_nat (y - 1).
Proof.
  unfold edges0. rewrite map_map, in_map_iff. split.
  - intros ([x y] & E & H). injection E as <- <-. exists x, y. auto.
  - intros (x & y & H & -> & ->). exists (x, y). auto.
Qed.
Lemma set_numbers S : indep_set top es S -> dimacs_set nv ls (map number S).
Proof.
  intros (A & B & C). rewrite Forall_forall in B, He. split; [|split].
  - apply FinFun.Injective_map_NoDup; [intros x y; unfold number; lia|]. clear - A. induction A as [|a l A IH F]; constructor; auto. intros H.
    rewrite Forall_forall in F. specialize (F a H). lia.
  - intros v H. apply in_map_iff in H as (u & <- & H). specialize (B u H). unfold number. lia.
  - intros a b H N Ha Hb. apply in_map_iff in Ha as (i & <- & Hi). apply in_map_iff in Hb as (j & <- & Hj). unfold number in *.
    apply (C i j Hi Hj); [lia|]. left. apply in_edges0. exists (Z.of_nat i + 1)%Z, (Z.of_nat j + 1)%Z. split; [exact H|]. lia.
Qed.
Lemma sorted_set S : dimacs_set nv ls S -> exists S', indep_set top es S' /\ length S' = length S.
Proof.
  intros (A & B & C). exists (filter (fun v => if in_dec Z.eq_dec (number v) S then true else false) (seq 0 top)). rewrite Forall_forall in He.
  assert (M : forall v, In v (filter (fun v => if in_dec Z.eq_dec (number v) S then true else false) (seq 0 top)) <-> v < top /\ In (number v) S).
  { intros v. rewrite filter_In, in_seq. destruct (in_dec Z.eq_dec (number v) S); split; intros [H1 H2]; try discriminate; try contradiction; split; auto; lia. }
  split; [split; [|split]|].
  - assert (F : forall l (f : nat -> bool), StronglySorted lt l -> StronglySorted lt (filter f l)).
    { intros l f H. induction H as [|a l H IH F]; cbn; [constructor|]. destruct (f a); auto. constructor; auto. apply Forall_forall. intros x Hx. apply filter_In in Hx as [Hx _].
      rewrite Forall_forall in F. auto. }
    apply F. clear. generalize 0. induction top as [|n IH]; intros k; cbn; [constructor|]. constructor; auto. apply Forall_forall. intros x Hx. apply in_seq in Hx. lia.
  - apply Forall_forall. intros v Hv. now apply M in Hv.
  - intros i j Hi Hj N Adj. apply M in Hi as [Ti Hi], Hj as [Tj Hj].
    destruct Adj as [Adj|Adj]; apply in_edges0 in Adj as (x & y & H & E1 & E2); specialize (He _ H) as [B1 B2]; cbn [fst snd] in B1, B2; unfold number in Hi, Hj.
    + apply (C x y H); [lia|replace x with (Z.of_nat i + 1)%Z by lia; auto|replace y with (Z.of_nat j + 1)%Z by lia; auto].
    + apply (C x y H); [lia|replace x with (Z.of_nat j + 1)%Z by lia; auto|replace y with (Z.of_nat i + 1)%Z by lia; auto].
  - set (F := filter _ _) in *. assert (P : Permutation (map number F) S).
    { apply NoDup_Permutation; auto.
      - apply FinFun.Injective_map_NoDup; [intros x y; unfold number; lia|]. apply NoDup_filter, seq_NoDup.
      - intros x. rewrite in_map_iff. split.
        + intros (v & <- & H). now apply M in H.
        + intros H. exists (Z.to_nat (x - 1)). specialize (B x H). unfold number. split; [lia|]. apply M. split; [lia|]. unfold number. now replace (Z.of_nat (Z.to_nat (x - 1)) + 1)%Z with x by lia. }
    apply Permutation_length in P. now rewrite map_length in P.
Qed.
Lemma total_one S : total (fun _ => 1%Z) S = Z.of_nat (length S).
Proof. induction S as [|v S IH]; cbn [total length]; lia. Qed.
Lemma sorted_le n S : StronglySorted lt S -> Forall (fun v => v < n) S -> length S <= n.
Proof.
  intros A B. replace n with (length (seq 0 n)) by apply seq_length. apply NoDup_incl_length.
  - clear B. induction A as [|a l A IH F]; constructor; auto. intros H. rewrite Forall_forall in F. specialize (F a H). lia.
  - intros x Hx. rewrite Forall_forall in B. specialize (B x Hx). apply in_seq. lia.
Qed.
End Sets.

(** ** the MISP programs *)
Inductive mprogram : forall St, (nat -> list (nat * nat) -> (nat -> Z) -> prob St) -> Prop :=
| mp_1 : mprogram misp misp1 | mp_2 : mprogram misp misp2 | mp_3 : mprogram misp misp3 | mp_4 : mprogram misp4 misp4p | mp_5 : mprogram misp misp5.
Arguments mprogram {St} prog.
Notation ones := (fun _ : nat => 1%Z).
Lemma mp_facts {St} (prog : nat -> list (nat * nat) -> (nat -> Z) -> prob St) top es : mprogram prog -> 1 <= top -> let P := prog top es ones in
  exists I rank L, (forall srt dfuel mxw, (forall dd l, Permutation (srt dd l) l) -> top < dfuel -> (N.of_nat mxw < 4294967296)%N -> setting P I rank (top - 1) srt dfuel mxw) /\
    (forall s, s <> p_target P -> (exists ls v, path P (p_init P) ls v s) -> In s L) /\ length L <= 2 ^ top * (top + 1) * (top + 1) + 1 /\ p_min P = false /\
    (forall ls v, path P (p_init P) ls v (p_target P) -> exists S, indep_set top es S /\ v = Z.of_nat (length S)) /\
    (forall S, indep_set top es S -> exists ls v, path P (p_init P) ls v (p_target P) /\ (Z.of_nat (length S) <= v)%Z).
Proof.
  intros MP Ht P. assert (W : forall v, v < top -> (0 <= 1)%Z) by (intros; lia).
  assert (DEC : forall St' (Q : prob St') sel cur rank live (DC : decision top es ones Q sel cur rank live) L, (forall s, live s -> In s L) -> length L <= 2 ^ top * (top + 1) * (top + 1) + 1 ->
    exists I rank L, (forall srt dfuel mxw, (forall dd l, Permutation (srt dd l) l) -> top < dfuel -> (N.of_nat mxw < 4294967296)%N -> setting Q I rank (top - 1) srt dfuel mxw) /\
    (forall s, s <> p_target Q -> (exists ls v, path Q (p_init Q) ls v s) -> In s L) /\ length L <= 2 ^ top * (top + 1) * (top + 1) + 1 /\ p_min Q = false /\
    (forall ls v, path Q (p_init Q) ls v (p_target Q) -> exists S, indep_set top es S /\ v = Z.of_nat (length S)) /\
    (forall S, indep_set top es S -> exists ls v, path Q (p_init Q) ls v (p_target Q) /\ (Z.of_nat (length S) <= v)%Z)).
  { intros St' Q sel cur rank live DC L HL LL. exists (dinv Q live), rank, L. csplit; auto.
    - intros srt dfuel mxw. apply (dec_setting _ _ _ _ _ _ _ _ DC); auto.
    - intros x Nt (ls & v & H). apply HL. assert (K : dinv Q live x); [|destruct K as [?| ->]; auto; congruence].
      eapply path_closed; [apply (dec_closed _ _ _ _ _ _ _ _ DC)| |exact H]. left. apply (dc_init _ _ _ _ _ _ _ _ DC).
    - apply (dc_min _ _ _ _ _ _ _ _ DC).
    - intros ls v H. destruct (dec_represents _ _ _ _ _ _ _ _ DC) as [R _]. destruct (R ls v H) as (_ & _ & A & ->). eexists. split; [exact A|]. apply total_one.
    - intros S HS. destruct (dec_represents _ _ _ _ _ _ _ _ DC) as [_ R]. destruct (R S HS) as (ls & H & _). exists ls, (total ones S). split; auto. rewrite total_one. lia. }
  destruct MP.
  - destruct (m1_init_live top es ones Ht) as [Hi _]. exists (inv1 top es ones), m_n, (m_states top (p_target P)).
    assert (LM : length (m_states top (p_target P)) <= 2 ^ top * (top + 1) * (top + 1) + 1) by (rewrite (m_states_length top ones Ht); apply le_n). csplit; auto.
    + intros srt dfuel mxw PS DF MW. constructor; auto; try lia.
      * apply m1_valid; auto.
      * apply (live1_ne top es ones); auto.
      * now left.
      * intros ls v s H. pose proof (m1_nonneg top es ones Ht W _ _ _ _ H (or_introl Hi)). unfold bt, DDSpec.val, sentinel. cbn. lia.
    + intros x Nt (ls & v & H). assert (Q : inv1 top es ones x) by (eapply path_closed; [apply m1_closed; auto|left; exact Hi|exact H]).
      apply (in_m_states top ones Ht). exact (inv1_live top es ones x Q Nt).
    + intros ls v H. apply m1_solutions in H as (S & I1 & _ & -> & ->); auto. exists S. split; auto. apply total_one.
    + intros S HS. destruct (m1_optimum top es ones Ht W S HS) as (ls & v & H & L). exists ls, v. split; auto. now rewrite total_one in L.
  - eapply (DEC _ _ _ _ _ _ (dec2 top es ones Ht) (m_states top (p_target (misp2 top es ones)))); [intros x Hx; now apply (in_m_states top ones Ht)|rewrite (m_states_length top ones Ht); apply le_n].
  - eapply (DEC _ _ _ _ _ _ (dec3 top es ones Ht) (m_states top (p_target (misp3 top es ones)))); [intros x Hx; apply (live3_2 top es ones); auto|rewrite (m_states_length top ones Ht); apply le_n].
  - eapply (DEC _ _ _ _ _ _ (dec4 top es ones Ht) (m4_states top)); [intros x Hx; apply (live4_in top ones); auto|rewrite m4_states_length; nia].
  - eapply (DEC _ _ _ _ _ _ (dec5 top es ones Ht) (m_states top (p_target (misp5 top es ones)))); [intros x Hx; apply (live5_2 top es ones); auto|rewrite (m_states_length top ones Ht); apply le_n].
Qed.

Section Misp.
Variables (ls : list dline) (t : list ascii) (nv ne : Z).
Hypothesis HF : dimacs ls t.
Hypothesis HP : problems ls = [(nv, ne)].
Hypothesis Hnv : (1 <= nv < 2147483647)%Z.
Hypothesis Hne : (ne <= 2147483647)%Z.
Hypothesis He : Forall (fun e => 1 <= fst e <= nv /\ 1 <= snd e <= nv)%Z (edges1 ls).
Notation top := (Z.to_nat nv).
Context {St : Type} (prog : nat -> list (nat * nat) -> (nat -> Z) -> prob St).
Hypothesis MP : mprogram prog.
Variables (srt : dd St -> list nat -> list nat) (dfuel w : nat) (lim : nat -> bool).
Hypothesis Hsrt : forall dd l, Permutation (srt dd l) l.
Hypothesis Hdf : top < dfuel.
Hypothesis Hw : (N.of_nat w < 4294967296)%N.
Lemma misp_reads fuel : main_misp srt dfuel lim fuel w prog (Some t) = search (prog top (map idx_edge (edges0 ls)) ones) srt dfuel lim fuel w None.
Proof.
  destruct (readMisp_ok ls t nv ne HF HP (proj2 Hnv) Hne He) as (i & E & E1 & _ & E2 & _). unfold main_misp. rewrite E. cbn [bind]. rewrite E1, E2.
  now replace (nv <? 1)%Z with false by lia.
Qed.
(** the program ends; what it reports is the size of a set *)
Lemma misp_ends fuel : 2 ^ top * (top + 1) * (top + 1) + 1 <= fuel -> exists s e, main_misp srt dfuel lim fuel w prog (Some t) = Ok (s, e).
Proof.
  intros F. rewrite misp_reads. destruct (mp_facts prog top (map idx_edge (edges0 ls)) MP ltac:(lia)) as (I & rank & L & SE & HL & LL & _).
  apply (search_total _ _ _ _ srt dfuel w (SE srt dfuel w Hsrt Hdf Hw) lim None (be_refl _ _) L); auto. lia.
Qed.
Lemma misp_found fuel s e : main_misp srt dfuel lim fuel w prog (Some t) = Ok (s, e) -> b_primal (s_b s) <> (-2147483647)%Z ->
  exists S, dimacs_set nv ls S /\ b_primal (s_b s) = Z.of_nat (length S).
Proof.
  rewrite misp_reads. intros E N. destruct (mp_facts prog top (map idx_edge (edges0 ls)) MP ltac:(lia)) as (I & rank & L & SE & _ & _ & Mn & Snd & _).
  destruct (search_genuine _ _ _ _ srt dfuel w (SE srt dfuel w Hsrt Hdf Hw) lim None (be_refl _ _) fuel s e E) as [G _].
  destruct G as (ls' & v & _ & -> & H); [unfold sentinel; now rewrite Mn|]. destruct (Snd _ _ H) as (S & HS & ->). exists (map number S). rewrite map_length. split; [|lia].
  apply set_numbers; auto. lia.
Qed.
(** with a width that no layer exceeds, it is a largest one *)
Lemma misp_best fuel : lim 0 = false -> 1 <= fuel -> 2 ^ top * (top + 1) * (top + 1) + 1 <= w ->
  exists s S, main_misp srt dfuel lim fuel w prog (Some t) = Ok (s, Emptied) /\ dimacs_set nv ls S /\ b_primal (s_b s) = Z.of_nat (length S) /\
    forall S', dimacs_set nv ls S' -> length S' <= length S.
Proof.
  intros L0 F Wd. destruct (mp_facts prog top (map idx_edge (edges0 ls)) MP ltac:(lia)) as (I & rank & L & SE & HL & LL & Mn & Snd & Cmp).
  destruct (search_narrow _ _ _ _ srt dfuel w (SE srt dfuel w Hsrt Hdf Hw) lim None (be_refl _ _) fuel L0) as (s & E & _ & O & _); auto.
  { eapply narrow_of_list; [exact HL|lia]. }
  { intros V (v & (ls' & H) & ->). destruct (Snd _ _ H) as (S & (S1 & S2 & _) & ->). unfold be, DDSpec.val, initialWorst. rewrite Mn.
    pose proof (sorted_le _ _ S1 S2). unfold intMax. lia. }
  assert (Best : forall S, dimacs_set nv ls S -> (Z.of_nat (length S) <= b_primal (s_b s))%Z).
  { intros S HS. destruct (sorted_set nv ls (proj1 Hnv) He S HS) as (S' & HS' & <-). destruct (Cmp S' HS') as (ls' & v & H & Lv).
    specialize (O (0 + v)%Z). unfold be, DDSpec.val in O. rewrite Mn in O. specialize (O (ex_intro _ v (conj (ex_intro _ ls' H) eq_refl))). lia. }
  assert (E' : main_misp srt dfuel lim fuel w prog (Some t) = Ok (s, Emptied)) by now rewrite misp_reads.
  assert (Q : (0 <= b_primal (s_b s))%Z) by (apply (Best []); split; [constructor|]; split; [intros v []|intros a b _ _ []]).
  destruct (misp_found fuel s Emptied E') as (S & HS & ES); [lia|]. exists s, S. csplit; auto. intros S' HS'. specialize (Best S' HS'). lia.
Qed.
End Misp.
