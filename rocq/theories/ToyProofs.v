(** tsptoy.cpp: its closures are valid and its solutions are the tours (as TspProofs.v for tsp.cpp). *)
From Verif Require Import Base DDModel DDSpec DDFrame DDRestricted DDExact DDWide SearchModel SearchProofs TspModel TspSpec TspProofs MispModel ColorModel ToyModel ToySpec.
From Coq Require Import NArith Nnat.

Lemma bmem_C n c : bmem (y_C n) c = (1 <=? c) && (c <=? n).
Proof. unfold y_C. rewrite bmem_del, bmem_full. destruct (Nat.eqb_spec 0 c), (Nat.ltb_spec c (S n)), (Nat.leb_spec 1 c), (Nat.leb_spec c n); cbn; auto; lia. Qed.

Section T.
Variables (n : nat) (d : nat -> nat -> Z).
Hypothesis Hn : 1 <= n.
Notation P := (toy_prob n d).

(** reachable states and their merges *)
Definition y_live (s : tsp) : Prop :=
  t_h s < n /\ 1 <= t_e s <= n /\ (forall c, bmem (t_s s) c = true -> 2 <= c /\ c <= n) /\ (t_e s <> 1 -> bmem (t_s s) (t_e s) = true).
Definition y_inv (s : tsp) : Prop := y_live s \/ s = y_target n.

Lemma y_split s : y_inv s -> s <> p_target P -> y_live s.
Proof. cbn. intros [?|?]; tauto. Qed.
Lemma y_live_ne s : y_live s -> s <> p_target P.
Proof. intros [H _] ->. cbn in H. lia. Qed.

Lemma y_labels s l : y_live s -> (In l (p_labels P s) <->
  (t_h s = n - 1 /\ l = 1%Z) \/ (t_h s < n - 1 /\ exists c, l = Z.of_nat c /\ 2 <= c /\ c <= n /\ bmem (t_s s) c = false)).
Proof.
  intros (L1 & L2 & L3 & L4). cbn [toy_prob p_labels]. unfold y_lgf. destruct (Z.leb_spec (Z.of_nat n - 1) (Z.of_nat (t_h s))).
  - cbn. split; [intros [<-|[]]; left; lia|]. intros [[_ ->]|[? _]]; [auto|lia].
  - rewrite in_map_iff. split.
    + intros (c & <- & Hc). apply in_blist in Hc as [Hc1 Hc2]. right. split; [lia|]. exists c.
      rewrite !bmem_del, bmem_diff in Hc2. rewrite !andb_true_iff, !negb_true_iff in Hc2. destruct Hc2 as [[[Q0 Q1] Q2] Q3].
      apply Nat.eqb_neq in Q2, Q3. rewrite bmem_C in Q0. csplit; auto; lia.
    + intros [[? _]|[_ (c & -> & C1 & C2 & C3)]]; [lia|]. exists c. split; auto. apply in_blist. split; [lia|].
      rewrite !bmem_del, bmem_diff, bmem_C, C3. rewrite !andb_true_iff, !negb_true_iff, !Nat.leb_le, !Nat.eqb_neq. csplit; auto; try lia.
      intros E. assert (t_e s <> 1) as N by lia. specialize (L4 N). congruence.
Qed.

Lemma y_step s c : y_live s -> 2 <= c -> c <= n -> t_h s < n - 1 -> y_live (mkTsp (badd (t_s s) c) c (S (t_h s))).
Proof.
  intros (L1 & L2 & L3 & L4) C1 C2 C3. unfold y_live. cbn [t_s t_e t_h]. csplit; auto; try lia.
  - intros x. rewrite bmem_add. destruct (Nat.eqb_spec c x) as [<-|N]; cbn; auto.
  - intros _. rewrite bmem_add, Nat.eqb_refl. auto.
Qed.

Lemma y_stf_cases s l s' : y_live s -> In l (p_labels P s) -> p_stf P s l = Some s' ->
  (t_h s = n - 1 /\ l = 1%Z /\ s' = p_target P) \/
  (t_h s < n - 1 /\ exists c, l = Z.of_nat c /\ 2 <= c /\ c <= n /\ bmem (t_s s) c = false /\ s' = mkTsp (badd (t_s s) c) c (S (t_h s))).
Proof.
  intros L Hl E. apply y_labels in Hl; auto. cbn [toy_prob p_stf] in E. unfold y_stf in E.
  destruct Hl as [[H ->]|[H (c & -> & C1 & C2 & C3)]].
  - left. cbn in E. injection E as <-. auto.
  - right. split; auto. destruct (Z.eqb_spec (Z.of_nat c) 1) as [E1|_]; [lia|]. rewrite Nat2Z.id in E. injection E as <-. exists c. auto.
Qed.
Lemma y_stf_last s : p_stf P s 1 = Some (p_target P).
Proof. reflexivity. Qed.
Lemma y_stf_city s c : 2 <= c -> p_stf P s (Z.of_nat c) = Some (mkTsp (badd (t_s s) c) c (S (t_h s))).
Proof. intros H. cbn [toy_prob p_stf]. unfold y_stf. destruct (Z.eqb_spec (Z.of_nat c) 1); [lia|]. now rewrite Nat2Z.id. Qed.

Lemma y_closed : closed P y_inv.
Proof.
  constructor.
  - intros a b _ _. apply tsp_eqb_eq.
  - intros s Hs. cbn [toy_prob p_eqs p_target]. unfold y_eqs. rewrite andb_true_iff, !Nat.eqb_eq. split.
    + intros [_ E]. destruct Hs as [(L & _)|?]; auto. lia.
    + intros ->. auto.
  - now right.
  - intros s l s' Hs Nt Hl E. apply y_split in Hs; auto.
    destruct (y_stf_cases s l s' Hs Hl E) as [(_ & _ & ->)|(H & c & _ & C1 & C2 & _ & ->)]; [now right|left]. now apply y_step.
Qed.
Lemma y_layered : layered P y_inv t_h.
Proof.
  intros s l s' Hs Nt Hl E Nt'. apply y_split in Hs; auto.
  destruct (y_stf_cases s l s' Hs Hl E) as [(_ & _ & ->)|(H & c & _ & C1 & C2 & _ & ->)]; [congruence|auto].
Qed.
Lemma y_depth : depth_le P y_inv t_h (n - 1).
Proof. intros s Hs Nt. apply y_split in Hs; auto. destruct Hs. lia. Qed.
Lemma y_acyclic : acyclic P y_inv t_h.
Proof.
  intros s l s' Hs Nt Hl E. apply y_split in Hs; auto. pose proof Hs as (L & _).
  destruct (y_stf_cases s l s' Hs Hl E) as [(_ & _ & ->)|(H & c & _ & C1 & C2 & _ & ->)]; cbn; lia.
Qed.

(** fewer visited cities, the same continuations *)
Lemma y_mono : forall ls s v, path P s ls v (p_target P) -> y_live s -> forall s', y_live s' -> t_e s' = t_e s -> t_h s' = t_h s ->
  (forall c, bmem (t_s s') c = true -> bmem (t_s s) c = true) -> path P s' ls v (p_target P).
Proof.
  induction ls as [|l ls IH]; intros s v H Hs s' Hs' E1 E2 Sub; inversion H as [|s0 l0 s1 ls0 v0 t0 HN HL HS HP]; subst.
  - exfalso. exact (y_live_ne _ Hs eq_refl).
  - assert (EC : p_cost P s l = p_cost P s' l) by (cbn [toy_prob p_cost]; unfold y_scf; now rewrite E1). rewrite EC.
    destruct (y_stf_cases s l s1 Hs HL HS) as [(T1 & -> & ->)|(T1 & c & -> & C1 & C2 & C3 & ->)].
    + eapply path_cons; [now apply y_live_ne| |apply y_stf_last|exact HP]. apply y_labels; auto. left. split; auto. lia.
    + assert (C3' : bmem (t_s s') c = false) by (destruct (bmem (t_s s') c) eqn:B; auto; apply Sub in B; congruence).
      eapply path_cons; [now apply y_live_ne| |apply y_stf_city; auto|].
      * apply y_labels; auto. right. split; [lia|]. exists c. auto.
      * eapply IH; [exact HP|now apply y_step|apply y_step; auto; lia|auto|cbn; lia|].
        cbn [t_s]. intros x. rewrite !bmem_add. destruct (c =? x); cbn; auto.
Qed.

Lemma y_merge_live a b m : y_live a -> y_live b -> p_smf P a b = Some m ->
  y_live m /\ t_e a = t_e b /\ t_h a = t_h b /\ m = mkTsp (N.land (t_s a) (t_s b)) (t_e a) (t_h a).
Proof.
  intros Ha Hb E. cbn [toy_prob p_smf] in E. unfold y_smf in E. destruct (Nat.eqb_spec (t_e a) (t_e b)) as [E1|]; [|discriminate].
  destruct (Nat.eqb_spec (t_h a) (t_h b)) as [E2|]; [|discriminate]. cbn [andb] in E. destruct (near7 _ _); [|discriminate]. injection E as <-. csplit; auto.
  destruct Ha as (A1 & A2 & A3 & A4), Hb as (B1 & B2 & B3 & B4). unfold y_live. cbn [t_s t_e t_h]. split; [auto|split; [auto|split]].
  - intros c. rewrite bmem_and, andb_true_iff. intros [? _]. auto.
  - intros N. rewrite bmem_and, A4 by auto. rewrite E1. apply B4. congruence.
Qed.
Lemma y_merge_layered : merge_layered P y_inv t_h.
Proof.
  intros a b m Ha Hb Na Nb R M. apply y_split in Ha, Hb; auto. destruct (y_merge_live a b m Ha Hb M) as (L & _ & _ & ->).
  csplit; auto. { now left. } now apply y_live_ne.
Qed.
Lemma y_valid_merge : valid_merge P y_inv t_h.
Proof.
  intros a b m Ha Hb Na Nb R M. apply y_split in Ha, Hb; auto. destruct (y_merge_live a b m Ha Hb M) as (L & E1 & E2 & ->).
  split; intros v [ls H]; exists v; (split; [|apply be_refl]); exists ls.
  - eapply y_mono; [exact H|auto|auto|auto|auto|]. cbn. intros c. rewrite bmem_and, andb_true_iff. tauto.
  - eapply y_mono; [exact H|auto|auto|auto|auto|]. cbn. intros c. rewrite bmem_and, andb_true_iff. tauto.
Qed.

Lemma y_valid : valid_model P y_inv t_h (n - 1).
Proof.
  constructor.
  - apply y_closed.
  - apply y_layered.
  - apply y_depth.
  - apply y_merge_layered.
  - apply y_valid_merge.
  - intros sdom a b [=].
  - intros sdom a s l [=].
  - intros local s ctx v [=].
Qed.

(** continuations of a live state *)
Lemma y_paths : forall k s ls v, y_live s -> n - 1 - t_h s = k ->
  (path P s ls v (p_target P) <-> exists t, ls = map Z.of_nat (t ++ [1]) /\ length t = k /\ NoDup t /\
     (forall c, In c t -> 2 <= c /\ c <= n /\ bmem (t_s s) c = false) /\ v = walk d (t_e s) (t ++ [1])).
Proof.
  induction k as [|k IH]; intros s ls v Hs Ek; split.
  - intros H. inversion H as [|s0 l0 s1 ls0 v0 t0 HN HL HS HP]; subst; [now apply y_live_ne in Hs|].
    destruct (y_stf_cases s l0 s1 Hs HL HS) as [(T1 & -> & ->)|(T1 & _)]; [|lia].
    apply path_target in HP as (-> & -> & _). exists []. csplit; auto; [constructor|intros c []].
  - intros (t & -> & Ht & _ & _ & ->). destruct t; [|discriminate]. cbn [app map walk].
    change (d (t_e s) 1) with (p_cost P s (Z.of_nat 1)). eapply path_cons; [now apply y_live_ne| |apply y_stf_last|constructor].
    apply y_labels; auto. left. destruct Hs. split; auto. lia.
  - intros H. inversion H as [|s0 l0 s1 ls0 v0 t0 HN HL HS HP]; subst; [now apply y_live_ne in Hs|].
    destruct (y_stf_cases s l0 s1 Hs HL HS) as [(T1 & _)|(T1 & c & -> & C1 & C2 & C3 & ->)]; [lia|].
    assert (L1 : y_live (mkTsp (badd (t_s s) c) c (S (t_h s)))) by (apply y_step; auto).
    apply IH in HP; [|auto|cbn; lia]. destruct HP as (t & -> & Ht & ND & A & ->). cbn [t_s t_e] in *. exists (c :: t). csplit.
    + reflexivity.
    + cbn. lia.
    + constructor; auto. intros Q. apply A in Q as (_ & _ & Q). rewrite bmem_add, Nat.eqb_refl in Q. discriminate.
    + intros x [<-|Hx]; auto. apply A in Hx as (X1 & X2 & X3). rewrite bmem_add in X3. apply orb_false_iff in X3. tauto.
    + cbn [app walk toy_prob p_cost]. unfold y_scf. now rewrite Nat2Z.id.
  - intros (t & -> & Ht & ND & A & ->). destruct t as [|c t]; [discriminate|]. cbn [app map walk].
    destruct (A c (or_introl eq_refl)) as (C1 & C2 & C3). inversion ND as [|? ? N1 N2]; subst.
    replace (d (t_e s) c) with (p_cost P s (Z.of_nat c)) by (cbn [toy_prob p_cost]; unfold y_scf; now rewrite Nat2Z.id).
    eapply path_cons; [now apply y_live_ne| |apply y_stf_city; auto|].
    + apply y_labels; auto. right. split; [lia|]. exists c. auto.
    + apply IH; [apply y_step; auto; lia|cbn; lia|]. exists t. cbn [t_s t_e]. cbn in Ht. csplit; auto; try lia.
      intros x Hx. destruct (A x (or_intror Hx)) as (X1 & X2 & X3). csplit; auto. rewrite bmem_add, X3.
      destruct (Nat.eqb_spec c x); subst; [contradiction|auto].
Qed.

Lemma y_init_live : y_live (p_init P).
Proof. unfold y_live. cbn [toy_prob p_init y_init t_s t_e t_h]. csplit; try lia; intros c; rewrite bmem_0; discriminate. Qed.

(** the solutions are the tours *)
Lemma y_solutions ls v : path P (p_init P) ls v (p_target P) <-> exists l, tour1 n l /\ ls = map Z.of_nat l /\ v = walk d 1 l.
Proof.
  rewrite (y_paths (n - 1)); [|apply y_init_live|cbn; lia]. cbn [toy_prob p_init y_init t_s t_e].
  assert (OT : NoDup (seq 2 (n - 1)) /\ forall c, In c (seq 2 (n - 1)) <-> 2 <= c /\ c <= n).
  { split; [apply seq_NoDup|]. intros c. cbn [In]. rewrite in_seq. lia. }
  destruct OT as [O1 O2]. split.
  - intros (t & -> & Ht & ND & A & ->). exists (t ++ [1]). csplit; auto. exists t. csplit; auto. intros c. split.
    + intros Hc. apply A in Hc. tauto.
    + intros Hc. assert (incl (seq 2 (n - 1)) t) as IC; [|apply IC, O2; auto].
      apply NoDup_length_incl; auto.
      * cbn [length]. rewrite seq_length. lia.
      * intros x Hx. apply O2. apply A in Hx. tauto.
  - intros (l & (t & -> & ND & A) & -> & ->). exists t. csplit; auto.
    + assert (L1 : length t <= length (seq 2 (n - 1))) by (apply NoDup_incl_length; auto; intros x Hx; apply O2, A; auto).
      assert (L2 : length (seq 2 (n - 1)) <= length t) by (apply NoDup_incl_length; auto; intros x Hx; apply A, O2; auto).
      cbn [length] in *. rewrite seq_length in *. lia.
    + intros c Hc. apply A in Hc. rewrite bmem_0. tauto.
Qed.
Lemma tour1_exists : exists l, tour1 n l.
Proof.
  exists ((seq 2 (n - 1)) ++ [1]). exists (seq 2 (n - 1)). csplit; auto.
  - apply seq_NoDup.
  - intros c. rewrite in_seq. lia.
Qed.

(** all distances read are inside the matrix *)
Lemma y_indices s l : y_inv s -> s <> p_target P -> In l (p_labels P s) -> 1 <= t_e s <= n /\ (1 <= l <= Z.of_nat n)%Z.
Proof.
  intros Hs Nt Hl. apply y_split in Hs; auto. apply y_labels in Hl; auto. split; [exact (proj1 (proj2 Hs))|].
  destruct Hl as [[_ ->]|(_ & c & -> & ? & ? & _)]; lia.
Qed.

(** ** the exact diagram *)
Definition y_states : list tsp :=
  y_target n :: map (fun x => mkTsp (fst (fst x)) (snd (fst x)) (snd x)) (list_prod (list_prod (masks (S n)) (seq 0 (S n))) (seq 0 n)).
Lemma in_y_states s : y_inv s -> In s y_states.
Proof.
  intros [(L1 & L2 & L3 & L4)| ->]; [right|now left]. apply in_map_iff. exists (t_s s, t_e s, t_h s). split; [now destruct s|].
  apply in_prod; [apply in_prod|]; [|apply in_seq; lia|apply in_seq; lia]. apply in_masks. intros v Hv. apply L3 in Hv. lia.
Qed.
Lemma prodlen {A B} (a : list A) (b : list B) : length (list_prod a b) = length a * length b.
Proof. apply prod_length. Qed.

Lemma y_walk s ls v t : path P s ls v t -> y_inv s -> exists l, v = walk d (t_e s) l /\ Forall (fun c => c < S n) l /\
  (s <> p_target P -> length l <= n - t_h s) /\ (s = p_target P -> l = []).
Proof.
  intros H. induction H as [s|s l s' ls v t N L HS H IH]; intros Is.
  - exists []. csplit; auto. intros. cbn. lia.
  - assert (Is' : y_inv s') by (eapply (cl_step _ _ y_closed); eauto). destruct (IH Is') as (w & -> & F & L1 & L2).
    pose proof (y_indices s l Is N L) as [_ IX]. pose proof (y_split s Is N) as LV.
    exists (Z.to_nat l :: w). csplit.
    + cbn [walk toy_prob p_cost]. unfold y_scf. f_equal. f_equal.
      destruct (y_stf_cases s l s' LV L HS) as [(T1 & -> & ->)|(T1 & c & -> & C1 & C2 & C3 & ->)]; cbn; auto. now rewrite Nat2Z.id.
    + constructor; auto. lia.
    + intros _. destruct (y_stf_cases s l s' LV L HS) as [(T1 & -> & ->)|(T1 & c & -> & C1 & C2 & C3 & ->)].
      * rewrite L2 by auto. cbn. lia.
      * assert (L3 : length w <= n - S (t_h s)). { apply L1. apply y_live_ne. now apply y_step. } cbn [length]. lia.
    + intros ->. congruence.
Qed.
Lemma y_range : fits (S n) d -> in_range P (p_init P) 0.
Proof.
  intros FT ls v s H. destruct (y_walk _ _ _ _ H (or_introl y_init_live)) as (l & -> & F1 & F2 & _).
  unfold bt, val, sentinel. cbn [toy_prob p_min]. apply FT; auto; [cbn; lia|]. assert (L := F2 (y_live_ne _ y_init_live)). cbn in L. lia.
Qed.
Lemma y_exact fuel primal : fits (S n) d -> 2 ^ S n * S n * n + 1 <= fuel ->
  exists dd x l, ex_compute P fuel (initDefault P (dd_empty P true)) primal = Ok dd /\ trg_node dd = Ok x /\
    tour1 n l /\ n_lab x = map Z.of_nat l /\ n_bound x = walk d 1 l /\ (forall l', tour1 n l' -> (n_bound x <= walk d 1 l')%Z).
Proof.
  intros FT F. destruct (exact_best P y_inv t_h y_states fuel primal) as (dd & x & E & T & HS & B).
  - apply y_closed.
  - reflexivity.
  - apply y_acyclic.
  - left. apply y_init_live.
  - apply y_live_ne, y_init_live.
  - now apply y_range.
  - intros s Hs _. now apply in_y_states.
  - apply in_y_states. now right.
  - unfold y_states. cbn [length]. rewrite map_length, !prodlen, masks_length, !seq_length. lia.
  - destruct tour1_exists as [l Hl]. exists (map Z.of_nat l), (walk d 1 l). apply y_solutions. eauto.
  - apply y_solutions in HS as (l & T1 & T2 & T3). exists dd, x, l. csplit; auto. intros l' Hl'.
    specialize (B (map Z.of_nat l') (walk d 1 l')). unfold be, val in B. cbn [toy_prob p_min] in B. apply B. apply y_solutions. eauto.
Qed.

(** ** branch and bound *)
Lemma y_setting srt dfuel mxw : fits (S n) d -> (forall dd l, Permutation (srt dd l) l) -> n < dfuel -> (N.of_nat mxw < 4294967296)%N ->
  setting P y_inv t_h (n - 1) srt dfuel mxw.
Proof.
  intros FT PS DF MW. constructor; auto; try lia.
  - apply y_valid.
  - apply y_live_ne, y_init_live.
  - left. apply y_init_live.
  - apply y_range; auto.
Qed.
Lemma y_search srt dfuel mxw lim fuel : fits (S n) d -> (forall dd l, Permutation (srt dd l) l) -> n < dfuel -> (N.of_nat mxw < 4294967296)%N ->
  2 ^ S n * S n * n + 1 <= fuel ->
  exists s e, search P srt dfuel lim fuel mxw None = Ok (s, e) /\
    (forall lab, In lab (b_log (s_b s)) -> exists l, tour1 n l /\ lab = map Z.of_nat l) /\
    (b_primal (s_b s) <> 2147483647%Z -> exists l, tour1 n l /\ b_inc (s_b s) = map Z.of_nat l /\ b_primal (s_b s) = walk d 1 l).
Proof.
  intros FT PS DF MW F. pose proof (y_setting srt dfuel mxw FT PS DF MW) as SE.
  assert (B0 : be P (sentinel P) (sentinel P)) by (unfold be; lia).
  destruct (search_total P y_inv t_h (n - 1) srt dfuel mxw SE lim None B0 y_states) with (fuel := fuel) as (s & e & E).
  { intros x _ (ls & v & H). apply in_y_states. eapply path_closed; [apply y_closed|left; apply y_init_live|exact H]. }
  { unfold y_states. cbn [length]. rewrite map_length, !prodlen, masks_length, !seq_length. lia. }
  exists s, e. split; auto. destruct (search_genuine P y_inv t_h (n - 1) srt dfuel mxw SE lim None B0 fuel s e E) as [G1 G2]. split.
  - intros lab Hl. destruct (G2 lab Hl) as (v & (ls & w & -> & _ & H) & _). apply y_solutions in H as (l & T & -> & _). eauto.
  - intros N. destruct (G1 N) as (ls & w & E1 & E2 & H). apply y_solutions in H as (l & T & E3 & E4).
    exists l. csplit; auto; [now rewrite E1, E3|now rewrite E2, E4].
Qed.
End T.
