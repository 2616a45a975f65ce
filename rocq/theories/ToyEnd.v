(** The toy examples: searches, their built-in instances, counterexamples for their merges. *)
From Verif Require Import Base DDModel DDSpec DDFrame DDMerge DDRestricted DDExact DDWide DDExamples DDRelaxedEnd SearchModel SearchProofs SearchEx TspModel TspSpec TspProofs MispModel MispSpec MispProofs ColorModel TourModel TourEnd ToyModel ToySpec ToyProofs ToyTwo ToyFoo.
From Coq Require Import NArith Nnat Permutation Sorting.Sorted.

(** ** the number of states per depth, by enumeration *)
Section Layers.
Context {St : Type} (P : prob St).
Hypothesis HE : forall a b, p_eqb P a b = true <-> a = b.
Definition ins (x : St) (l : list St) : list St := if existsb (p_eqb P x) l then l else x :: l.
Definition succs (s : St) : list St :=
  flat_map (fun l => match p_stf P s l with Some t => if p_eqb P t (p_target P) then [] else [t] | None => [] end) (p_labels P s).
Fixpoint layer (k : nat) : list St :=
  match k with 0 => if p_eqb P (p_init P) (p_target P) then [] else [p_init P] | S j => fold_right ins [] (flat_map succs (layer j)) end.
Lemma in_ins l : forall y, In y (fold_right ins [] l) <-> In y l.
Proof.
  induction l as [|a l IH]; intros y; cbn [fold_right]; [tauto|]. unfold ins at 1. destruct (existsb (p_eqb P a) (fold_right ins [] l)) eqn:E.
  - apply existsb_exists in E as (z & Hz & Ez). apply HE in Ez. subst z. rewrite IH in *. cbn. intuition (subst; auto).
  - cbn [In]. rewrite IH. tauto.
Qed.
Lemma in_succs s l t : In l (p_labels P s) -> p_stf P s l = Some t -> t <> p_target P -> In t (succs s).
Proof.
  intros HL HS N. unfold succs. apply in_flat_map. exists l. split; auto. rewrite HS. destruct (p_eqb P t (p_target P)) eqn:E; [apply HE in E; contradiction|now left].
Qed.
Lemma path_layer k : forall j s ls v t, path P s ls v t -> t <> p_target P -> In s (layer j) -> length ls = k -> In t (layer (k + j)).
Proof.
  induction k as [|k IH]; intros j s ls v t H N Hs L.
  - destruct ls; [|discriminate]. inversion H; subst. exact Hs.
  - destruct ls as [|l ls]; [discriminate|]. inversion H as [|s0 l0 s1 ls0 v0 t0 HN HL HS HP]; subst. replace (S k + j) with (k + S j) by lia.
    eapply IH; [exact HP|exact N| |cbn in L; lia]. cbn [layer]. rewrite in_ins. apply in_flat_map. exists s. split; auto. eapply in_succs; eauto.
    intros ->. apply path_target in HP as (_ & _ & E). contradiction.
Qed.
Lemma layer_nil K : layer K = [] -> forall j, layer (j + K) = [].
Proof. intros H. induction j as [|j IH]; auto. cbn [plus layer]. now rewrite IH. Qed.
Lemma narrow_by_layers K w : p_init P <> p_target P -> layer K = [] -> forallb (fun k => length (layer k) <=? w) (seq 0 K) = true -> narrow P (p_init P) w.
Proof.
  intros Ni E F k l ND H. transitivity (length (layer k)).
  - apply NoDup_incl_length; auto. intros x Hx. apply H in Hx as (Nt & ls & v & Hp & L). replace k with (k + 0) by lia. eapply path_layer; eauto.
    cbn [layer]. destruct (p_eqb P (p_init P) (p_target P)) eqn:Q; [apply HE in Q; contradiction|now left].
  - destruct (Nat.lt_ge_cases k K) as [L|L].
    + rewrite forallb_forall in F. apply Nat.leb_le, F, in_seq. lia.
    + replace k with ((k - K) + K) by lia. rewrite layer_nil; auto. cbn. lia.
Qed.
End Layers.

(** ** tsptoy.cpp: searches *)
Section Y.
Variables (n : nat) (d : nat -> nat -> Z).
Hypothesis Hn : 1 <= n.
Notation P := (toy_prob n d).
Variables (srt : dd tsp -> list nat -> list nat) (dfuel mxw : nat) (lim : nat -> bool).
Hypothesis FT : fits (S n) d.
Hypothesis Hsrt : forall dd l, Permutation (srt dd l) l.
Hypothesis Hfuel : n < dfuel.
Hypothesis Hmxw : (N.of_nat mxw < 4294967296)%N.
Hypothesis Low : forall l, tour1 n l -> (- 2147483647 <= walk d 1 l)%Z.
Lemma y_worst V : solution P (p_init P) 0 V -> be P (initialWorst P) V.
Proof.
  intros (v & (ls & H) & ->). apply y_solutions in H as (l & T & _ & ->); auto. unfold be, val, initialWorst. cbn [toy_prob p_min]. apply Low in T.
  unfold intMax. lia.
Qed.
Lemma y_opt b : (forall V, solution P (p_init P) 0 V -> be P b V) -> forall l, tour1 n l -> (b <= walk d 1 l)%Z.
Proof.
  intros H l T. assert (Q : solution P (p_init P) 0 (walk d 1 l)).
  { exists (walk d 1 l). split; [|lia]. exists (map Z.of_nat l). apply y_solutions; eauto. }
  apply H in Q. unfold be, val in Q. cbn [toy_prob p_min] in Q. lia.
Qed.
Lemma y_search_optimal fuel s : search P srt dfuel lim fuel mxw None = Ok (s, Emptied) -> s_seen s = 0 -> hist_ok P s ->
  forall l, tour1 n l -> (b_primal (s_b s) <= walk d 1 l)%Z.
Proof.
  intros E Es HH. assert (B0 : be P (sentinel P) (sentinel P)) by (unfold be; lia). apply y_opt.
  apply (search_optimal P (y_inv n) t_h (n - 1) srt dfuel mxw (y_setting n d Hn srt dfuel mxw FT Hsrt Hfuel Hmxw) lim None B0 fuel s Emptied E); auto.
  - intros sdom a b [=].
  - apply y_worst.
Qed.
Lemma y_search_wide fuel : lim 0 = false -> narrow P (p_init P) mxw -> 1 <= fuel ->
  exists s, search P srt dfuel lim fuel mxw None = Ok (s, Emptied) /\ s_ttl s = 1 /\ forall l, tour1 n l -> (b_primal (s_b s) <= walk d 1 l)%Z.
Proof.
  intros L0 Nw F. assert (B0 : be P (sentinel P) (sentinel P)) by (unfold be; lia).
  destruct (search_narrow P (y_inv n) t_h (n - 1) srt dfuel mxw (y_setting n d Hn srt dfuel mxw FT Hsrt Hfuel Hmxw) lim None B0 fuel L0 Nw y_worst F) as (s & E & T & O & _).
  exists s. csplit; auto. now apply y_opt.
Qed.
End Y.

(** ** tsptoy.cpp on its instance *)
Notation toyP := (toy_prob 6 toy_d).
Lemma toy_fits : fits 7 toy_d.
Proof. apply (mdist_fits 7 _ 100); [lia|lia|entries]. Qed.
Lemma toy_low l a : (0 <= walk toy_d a l)%Z.
Proof. apply (mdist_walk _ 100); [lia|entries]. Qed.
Lemma toy_narrow w : 30 <= w -> narrow toyP (p_init toyP) w.
Proof.
  intros H. assert (Q : narrow toyP (p_init toyP) 30) by (apply (narrow_by_layers toyP tsp_eqb_eq 7); [discriminate|vm_compute; reflexivity|vm_compute; reflexivity]).
  intros k l ND Hl. specialize (Q k l ND Hl). lia.
Qed.
Lemma tour1_94 : tour1 6 [5; 4; 6; 2; 3; 1] /\ walk toy_d 1 [5; 4; 6; 2; 3; 1] = 94%Z.
Proof.
  split; [|reflexivity]. exists [5; 4; 6; 2; 3]. csplit; auto.
  - repeat (constructor; [cbn; lia|]). constructor.
  - intros c. cbn. lia.
Qed.
Lemma toy_shortest l : tour1 6 l -> (94 <= walk toy_d 1 l)%Z.
Proof.
  intros T. assert (H : path toyP (p_init toyP) (map Z.of_nat l) (walk toy_d 1 l) (p_target toyP)) by (apply y_solutions; [lia|eauto]).
  assert (L : length (map Z.of_nat l) <= 6).
  { apply y_paths with (k := 5) in H; [|lia|apply y_init_live; lia|reflexivity]. destruct H as (t & -> & Lt & _). rewrite map_length, app_length, Lt. cbn. lia. }
  apply (sols_complete toyP tsp_eqb_eq 6) in H; auto. assert (F : forallb (fun x => 94 <=? snd x)%Z (sols toyP 6 (p_init toyP)) = true) by (vm_compute; reflexivity).
  rewrite forallb_forall in F. apply F in H. cbn [snd] in H. lia.
Qed.

(** ** tsptoy2.cpp: its merge is not a relaxation *)
Notation toy2P := (toy2_prob 6 toy_d).
(** 1-3-2 and 1-4-2 are merged into a state that still has to visit 3 and 4: every completion of it is longer than one of 1-3-2 *)
Lemma toy2_merge_bad : exists a b m v, path toy2P (p_init toy2P) [3; 2]%Z 50 a /\ path toy2P (p_init toy2P) [4; 2]%Z 45 b /\ p_smf toy2P a b = Some m /\
  compl toy2P a v /\ (exists v', compl toy2P m v') /\ forall v', compl toy2P m v' -> (v + 100 <= v')%Z.
Proof.
  exists (mkToy2 12 2), (mkToy2 20 2), (mkToy2 4 2), 44%Z. csplit.
  - apply (walk_path toy2P toy2_eqb_eq). vm_compute. reflexivity.
  - apply (walk_path toy2P toy2_eqb_eq). vm_compute. reflexivity.
  - reflexivity.
  - exists [6; 4; 5; 1]%Z. apply (walk_path toy2P toy2_eqb_eq). vm_compute. reflexivity.
  - eexists. exists [3; 6; 4; 5; 1]%Z. apply (walk_path toy2P toy2_eqb_eq). vm_compute. reflexivity.
  - intros v' (ls & H). assert (L : length ls <= 5).
    { apply z_paths with (k := 4) in H; [|lia| |reflexivity].
      - destruct H as (t & -> & Lt & _). rewrite map_length, app_length, Lt. cbn. lia.
      - assert (Q : path toy2P (p_init toy2P) [2]%Z 10 (mkToy2 4 2)) by (apply (walk_path toy2P toy2_eqb_eq); vm_compute; reflexivity).
        inversion Q as [|s0 l0 s1 ls0 v0 t0 HN HL HS HP]; subst. inversion HP; subst.
        destruct (proj1 (z_cases 6 toy_d ltac:(lia) _ _ _ (z_init_live 6 toy_d)) (conj HL HS)) as [(_ & ? & _)|(_ & c & Ec & C1 & C2 & C3 & ->)]; [discriminate|].
        apply z_step; auto. apply z_init_live. }
    apply (sols_complete toy2P toy2_eqb_eq 5) in H; auto. assert (F : forallb (fun x => 144 <=? snd x)%Z (sols toy2P 5 (mkToy2 4 2)) = true) by (vm_compute; reflexivity).
    rewrite forallb_forall in F. apply F in H. cbn [snd] in H. lia.
Qed.
(** the initial state counts as the target *)
Lemma toy2_eqs_init n d : p_eqs (toy2_prob n d) (p_init (toy2_prob n d)) = true /\ (1 <= n -> p_init (toy2_prob n d) <> p_target (toy2_prob n d)).
Proof. split; [reflexivity|]. intros H. apply (z_live_ne n d H), z_init_live. Qed.

(** ** foo.cpp: its merge is not a relaxation *)
(** three isolated vertices: after 1 remain {2,3}, after 2 remains {3}; merged into {3} *)
Lemma foo_merge_bad : exists P a b m v, P = foo_prob 3 [] (fun _ => 1%Z) /\ path P (p_init P) [1]%Z 1 a /\ path P (p_init P) [2]%Z 1 b /\ p_smf P a b = Some m /\
  compl P a v /\ forall v', compl P m v' -> (v' < v)%Z.
Proof.
  set (P := foo_prob 3 [] (fun _ => 1%Z)). exists P, 12%N, 8%N, 8%N, 2%Z. csplit; auto.
  - apply (walk_path P N.eqb_eq). vm_compute. reflexivity.
  - apply (walk_path P N.eqb_eq). vm_compute. reflexivity.
  - exists [2; 3]%Z. apply (walk_path P N.eqb_eq). vm_compute. reflexivity.
  - intros v' (ls & H). assert (Hi : f_inv 3 8).
    { intros c Hc. destruct (Nat.lt_ge_cases c 5) as [L|L].
      - do 5 (destruct c as [|c]; [vm_compute in Hc; try discriminate; lia|]). lia.
      - unfold bmem in Hc. rewrite N.bits_above_log2 in Hc; [discriminate|]. change (N.log2 8) with 3%N. lia. }
    assert (L : length ls <= 2).
    { destruct (f_sound 3 [] (fun _ => 1%Z) ltac:(lia) ls 8%N v' H Hi) as (S' & (A & B & _) & _ & C).
      assert (Q : length S' <= 1). { change 1 with (length [3]). apply NoDup_incl_length.
        - clear - A. induction A as [|x l A IH F]; constructor; auto. intros Q. rewrite Forall_forall in F. apply F in Q. lia.
        - intros x Hx. apply B in Hx. specialize (Hi x Hx). destruct x as [|[|[|[|x]]]]; try (vm_compute in Hx; discriminate); [now left|lia]. }
      destruct C as [[-> _]|[-> _]]; rewrite ?app_length, map_length; cbn; lia. }
    apply (sols_complete P N.eqb_eq 2) in H; auto. assert (F : forallb (fun x => snd x <? 2)%Z (sols P 2 8%N) = true) by (vm_compute; reflexivity).
    rewrite forallb_forall in F. apply F in H. cbn [snd] in H. lia.
Qed.
(** foo.cpp on its own instance *)
Notation fooP := (foo_prob 5 foo_es foo_w).
Lemma foo_fits : f_fits 5 foo_es foo_w.
Proof.
  intros S' (_ & F & _). enough (0 <= total foo_w S')%Z by lia. clear F. induction S' as [|v r IH]; cbn [total]; [lia|].
  assert (0 <= foo_w v)%Z; [|lia]. unfold foo_w. do 6 (destruct v as [|v]; [cbn; lia|]). destruct v; cbn; lia.
Qed.
Lemma foo_best : indep1 5 foo_es [2; 5] /\ total foo_w [2; 5] = 11%Z.
Proof.
  split; [|reflexivity]. split; [|split].
  - repeat (constructor; auto).
  - repeat (constructor; [lia|]). constructor.
  - intros i j Hi Hj N A. cbn in Hi, Hj. unfold adjacent, foo_es in A. cbn in A.
    repeat match goal with H : _ \/ _ |- _ => destruct H | H : False |- _ => destruct H | H : (_, _) = (_, _) |- _ => injection H; clear H; intros; subst end; try lia; congruence.
Qed.
