(** Whole programs with double arithmetic (C83): the same as ProgModel.v, with the search of RoundModel.v. *)
From Coq Require Import Ascii.
From Verif Require Import Base DDModel DDSpec DDFrame SearchModel SearchProofs KnapModel KnapProofs TspModel TspProofs MispModel MispProofs ReadModel ReadSpec ReadProofs ReadRun ReadEx ProgModel ProgSpec ProgProofs ProgKnap ProgTsp
  SearchDyn ColorModel ColorSpec ColorProofs ColorTop ColorEnd ProgColor RoundModel RoundSearch RoundDyn RoundEx.

Section Run.
Context {St : Type} (srt : dd St -> list nat -> list nat) (dfuel : nat) (lim : nat -> bool) (fuel w : nat).
(** misp.cpp:108-208, as main_misp *)
Definition main_mispF (prog : nat -> list (nat * nat) -> (nat -> Z) -> prob St) (file : option text) : res (@sst St * ending) :=
  do i <- readMisp file ;
  if (in_nv i <? 1)%Z then Err Unmodelled
  else searchF dbl_add (prog (Z.to_nat (in_nv i)) (map idx_edge (in_edges i)) (fun _ => 1%Z)) srt dfuel lim fuel w None.
(** coloring.cpp:153-260, as main_color *)
Definition main_colorF (prog : nat -> list (nat * nat) -> nat -> option Z -> prob St) (file : option text) : res (@sst St * ending) :=
  do r <- readPy (-1) file ;
  let '(i, ub) := r in
  if (in_nv i <? 1)%Z then Err Unmodelled
  else
    let K := Z.to_nat (in_nv i) in
    let UB := if (ub <? 0)%Z then K else Z.to_nat ub in
    let PP := prog K (map idx_edge (in_edges i)) UB in
    searchDF dbl_add (PP None) (fun b => p_labels (PP (Some b))) srt dfuel lim fuel w None.
(** tsp.cpp:97-148, as main_tsp *)
Definition main_tspF (prog : nat -> (nat -> nat -> Z) -> prob St) (rfuel : nat) (file : option text) : res (@sst St * ending) :=
  do i <- readTsp rfuel file ;
  let n := Z.to_nat (t_nv i) in searchF dbl_add (prog n (cell n (t_d i))) srt dfuel lim fuel w None.
End Run.
(** knapsack.cpp:68-133, as main_knap *)
Definition main_knapF (srt : dd sks -> list nat -> list nat) (dfuel : nat) (lim : nat -> bool) (fuel w : nat) (file : option text) : res (@sst sks * ending) :=
  do i <- readKnap file ;
  do ni <- val (k_I i) ; do capa <- val (k_capa i) ;
  if (Z.of_nat (length (k_items i)) <? ni)%Z then Err UB
  else if (ni <? 1)%Z then Err Unmodelled
  else searchF dbl_add (knapsack (map snd (k_items i)) (map fst (k_items i)) capa) srt dfuel lim fuel w None.

Lemma filter_len {A} (f : A -> bool) l : length (filter f l) <= length l.
Proof. induction l as [|x l IH]; cbn; auto. destruct (f x); cbn; lia. Qed.
(** ** misp *)
Lemma wsum_one l : wsum (fun _ => 1%Z) l = Z.of_nat (length l).
Proof. induction l as [|x l IH]; cbn [wsum fold_right length] in *; auto. unfold wsum in IH. rewrite IH. lia. Qed.
Lemma blist_le top s : length (blist top s) <= top.
Proof. unfold blist. pose proof (filter_len (bmem s) (seq 0 top)) as H. now rewrite seq_length in H. Qed.
Lemma misp_sized {St} (prog : nat -> list (nat * nat) -> (nat -> Z) -> prob St) top es I : mprogram prog -> (Z.of_nat top <= 2147483647)%Z ->
  sized (prog top es (fun _ => 1%Z)) I (top - 1) 2147483647 1 (2 ^ 53).
Proof.
  intros MP Ht. pose proof (blist_le top) as B. constructor; try lia.
  - intros s l _ _ H. destruct MP; cbn in H |- *.
    + unfold m1_scf. destruct (l =? _)%Z; lia.
    + unfold m2_scf. intuition (subst; cbn; lia).
    + unfold m3_scf. intuition (subst; cbn; lia).
    + unfold m4_scf. intuition (subst; cbn; lia).
    + unfold m5_scf. intuition (subst; cbn; lia).
  - intros loc s x E _. destruct MP; cbn in E; try discriminate; injection E as <-.
    + unfold m3_local. rewrite wsum_one. pose proof (filter_len (fun v => (m_l s <=? Z.of_nat v)%Z) (blist top (m_sel s))). specialize (B (m_sel s)). lia.
    + unfold m4_local. rewrite wsum_one. specialize (B (q_sel s)). lia.
    + unfold m5_local. rewrite wsum_one. specialize (B (m_sel s)). lia.
Qed.
Lemma misp_double ls t nv ne : dimacs ls t -> problems ls = [(nv, ne)] -> (1 <= nv < 2147483647)%Z -> (ne <= 2147483647)%Z ->
  Forall (fun e => 1 <= fst e <= nv /\ 1 <= snd e <= nv)%Z (edges1 ls) ->
  forall St (prog : nat -> list (nat * nat) -> (nat -> Z) -> prob St), mprogram prog ->
  forall srt dfuel w lim, (forall dd l, Permutation (srt dd l) l) -> Z.to_nat nv < dfuel -> (N.of_nat w < 4294967296)%N ->
  forall fuel, main_mispF srt dfuel lim fuel w prog (Some t) = main_misp srt dfuel lim fuel w prog (Some t).
Proof.
  intros HF HP Hnv Hne He St prog MP srt dfuel w lim Hs Hd Hw fuel.
  destruct (readMisp_ok ls t nv ne HF HP (proj2 Hnv) Hne He) as (i & E & E1 & _ & E2 & _). unfold main_mispF, main_misp. rewrite E. cbn [bind]. rewrite E1, E2.
  replace (nv <? 1)%Z with false by lia.
  destruct (mp_facts prog (Z.to_nat nv) (map idx_edge (edges0 ls)) MP ltac:(lia)) as (I & rank & L & SE & _).
  apply (double_search _ I rank (Z.to_nat nv - 1) 2147483647 1); [apply SE; auto|apply misp_sized; auto; lia|apply be_refl].
Qed.
(** ** tsp *)
Lemma tsp_double n hi ds rfuel t : tsp_file n ds rfuel t -> (2 <= n)%Z -> cells_ok n hi ds -> (n <= 18446744073709551615)%Z ->
  forall srt dfuel w lim, (forall dd l, Permutation (srt dd l) l) -> Z.to_nat n < dfuel -> (N.of_nat w < 4294967296)%N ->
  forall fuel, main_tspF srt dfuel lim fuel w tsp_prob rfuel (Some t) = main_tsp srt dfuel lim fuel w tsp_prob rfuel (Some t).
Proof.
  intros HF Hn HC Hsz srt dfuel w lim Hs Hd Hw fuel. unfold main_tspF, main_tsp. rewrite (read_matrix n hi ds rfuel t HF Hn HC Hsz). cbn [bind t_nv t_d].
  pose proof HC as (L & F & H). assert (H0 : (0 <= hi)%Z). { destruct (cells_le n hi ds HC ltac:(lia) 0 0); lia. }
  apply (double_search _ (tsp_inv (Z.to_nat n)) t_h (Z.to_nat n - 1) 2147483647 hi); [| |apply be_refl].
  - apply tsp_setting; auto; [lia|]. apply (cells_fits n hi ds HC). lia.
  - constructor; try lia; [|discriminate|nia].
    intros s l _ _ _. cbn. unfold tsp_scf, cell. destruct (nth_in_or_default (t_e s * Z.to_nat n + Z.to_nat l) ds 0%Z) as [Q| ->]; [|lia].
    rewrite Forall_forall in F. specialize (F _ Q). lia.
Qed.
(** ** knapsack *)
Lemma ints_range zs r : ints zs r -> forall z, In z zs -> (-2147483648 <= z <= 2147483647)%Z.
Proof. induction 1 as [|s t z zs r W I H IH]; intros x Hx; [easy|]. destruct Hx as [<-|Hx]; auto. apply I. Qed.
Lemma knap_double capa items t tail : ints (knap_nums capa items) (nl :: t) -> no_digit tail -> items <> [] -> (0 <= capa)%Z ->
  Forall (fun i => 0 <= fst i /\ 0 <= snd i)%Z items -> (Z.of_nat (length items) <= 1000000)%Z ->
  forall srt dfuel w lim, (forall dd l, Permutation (srt dd l) l) -> length items + 1 < dfuel -> (N.of_nat w < 4294967296)%N ->
  forall fuel, main_knapF srt dfuel lim fuel w (Some (t ++ tail)) = main_knap srt dfuel lim fuel w (Some (t ++ tail)).
Proof.
  intros HF Ht Hne Hc Hi Hn srt dfuel w lim Hs Hd Hw fuel.
  pose proof (kp_reads capa items t tail HF Ht Hne Hi srt dfuel w lim Hd Hw fuel) as R. rewrite R. unfold main_knapF.
  pose proof (readKnap_ok capa items t tail HF Ht) as E. cbn in E. rewrite E. cbn [bind ReadModel.val k_I k_capa k_items].
  rewrite Z.ltb_irrefl. replace (Z.of_nat (length items) <? 1)%Z with false by (destruct items; [congruence|cbn [length]; lia]).
  apply (double_search_int _ (kn_inv (map snd items)) fst (length items)); auto; [eapply kp_setting; eauto| |discriminate|apply be_refl].
  intros s l _ _ H. cbn in H |- *. unfold kn_scf, pf.
  assert (Q : (l = 0 \/ l = 1)%Z) by (unfold kn_lgf in H; destruct (_ <=? _)%Z; cbn in H; intuition).
  assert (B : (-2147483648 <= nth (fst s) (map fst items) 0 <= 2147483647)%Z).
  { destruct (nth_in_or_default (fst s) (map fst items) 0%Z) as [K| ->]; [|lia]. apply in_map_iff in K as (i & <- & K).
    apply (ints_range _ _ HF). unfold knap_nums. right. right. apply in_flat_map. exists i. split; auto. now left. }
  destruct Q as [-> | ->]; lia.
Qed.
(** ** colouring *)
Lemma color_sized K es UB {St} (PP : option Z -> prob St) : simple_graph K es -> 1 <= K -> (Z.of_nat UB < 2147483647)%Z -> program K es UB PP -> (Z.of_nat K <= 2147483647)%Z ->
  forall p0, (1 <= p0)%Z -> exists I rank, dyn_ok (PP None) (fun b => p_labels (PP (Some b))) p0 I rank K /\ sized (PP None) I K 2147483647 1 (2 ^ 53) /\
  forall srt dfuel mxw, (forall d l, Permutation (srt d l) l) -> K + 1 < dfuel -> (N.of_nat mxw < 4294967296)%N -> setting (PP None) I rank K srt dfuel mxw.
Proof.
  intros G HK HU PR HK' p0 Hp.
  assert (H : exists rep live vtx sup, family K es UB PP rep live vtx sup /\ sized (PP None) (linv (PP None) live) K 2147483647 1 (2 ^ 53)).
  { destruct PR as [| |H|H].
    - do 4 eexists. split; [apply (co_family K es UB HK)|]. constructor; try lia; [|discriminate]. intros s l [L|L] Nt Hl; [|congruence]. cbn in *.
      unfold co_lgf in Hl. destruct (K <=? _); [destruct Hl|]. destruct L as (_ & _ & L & _). apply in_rclose in Hl; [|lia]. unfold co_scf. lia.
    - do 4 eexists. split; [apply (ct_family K es UB HK)|]. constructor; try lia; [|discriminate]. intros s l [L|L] Nt Hl; [|congruence]. cbn in *.
      unfold co_lgf in Hl. destruct (K <=? _); [destruct Hl|]. destruct L as (_ & _ & L & _). apply in_rclose in Hl; [|lia]. unfold co_scf. lia.
    - do 4 eexists. split; [apply (c2_family K es UB (adjs es) HK H), c2_adj|]. constructor; try lia; [|discriminate]. intros s l _ _ Hl. cbn in *.
      unfold c2_lgf in Hl. cbn zeta in Hl. apply filter_In in Hl as [_ Hl]. unfold c2_scf. lia.
    - do 4 eexists. split; [apply (c2_family K es UB (c3_adj es) HK H), c3_adj_spec|]. constructor; try lia; [|discriminate]. intros s l _ _ Hl. cbn in *.
      unfold c2_lgf in Hl. cbn zeta in Hl. apply filter_In in Hl as [_ Hl]. unfold c2_scf. lia. }
  destruct H as (rep & live & vtx & sup & F & Z). exists (linv (PP None) live), vtx. csplit; auto.
  - now apply (fam_dyn K es UB G HK PP rep live vtx sup F).
  - intros srt dfuel mxw. apply (fam_setting K es UB HK HU PP rep live vtx sup F).
Qed.
Lemma color_double is t nv : pfile is t -> pN is = [nv] -> (1 <= nv <= 2147483647)%Z ->
  Forall (fun e => 0 <= fst e < nv /\ 0 <= snd e < nv)%Z (pE is) -> Forall (fun e => fst e <> snd e) (pE is) ->
  forall St (prog : nat -> list (nat * nat) -> nat -> option Z -> prob St) m, cprogram prog m -> (Z.of_nat (upper is nv) < m)%Z ->
  forall srt dfuel w lim, (forall dd l, Permutation (srt dd l) l) -> Z.to_nat nv + 1 < dfuel -> (N.of_nat w < 4294967296)%N ->
  forall fuel, main_colorF srt dfuel lim fuel w prog (Some t) = main_color srt dfuel lim fuel w prog (Some t).
Proof.
  intros HF HN Hnv He Hl St prog m CP HU srt dfuel w lim Hs Hd Hw fuel.
  destruct (readPy_ok is t nv (-1) HF HN) as (i & E & E1 & _ & _ & E2 & _); auto; [unfold int_max; lia|]. unfold main_colorF, main_color. rewrite E. cbn [bind].
  rewrite E1. replace (nv <? 1)%Z with false by lia. cbn zeta. fold (upper is nv).
  set (es := map idx_edge (in_edges i)). assert (G : simple_graph (Z.to_nat nv) es).
  { intros a b H. unfold es in H. apply in_map_iff in H as ([x y] & [= <- <-] & H). apply E2 in H.
    pose proof (proj1 (Forall_forall _ _) He _ H) as [X Y]. pose proof (proj1 (Forall_forall _ _) Hl _ H) as L. cbn in *. lia. }
  destruct (cp_program prog m (Z.to_nat nv) es (upper is nv) CP HU) as [PR HU'].
  assert (MN : p_min (prog (Z.to_nat nv) es (upper is nv) None) = true) by (destruct PR; reflexivity).
  destruct (color_sized (Z.to_nat nv) es (upper is nv) _ G ltac:(lia) HU' PR ltac:(lia) (sentinel (prog (Z.to_nat nv) es (upper is nv) None))) as (I & rank & DY & Z & SE).
  { unfold sentinel. rewrite MN. lia. }
  apply (searchDF_eq _ _ I rank (Z.to_nat nv) 2147483647 1 (2 ^ 53)); auto.
  - apply dbl_exact.
  - apply be_refl.
Qed.

(** ** what the programs report *)
Lemma misp_bestF : forall ls t nv ne, dimacs ls t -> problems ls = [(nv, ne)] -> (1 <= nv < 2147483647)%Z -> (ne <= 2147483647)%Z ->
  Forall (fun e => 1 <= fst e <= nv /\ 1 <= snd e <= nv)%Z (edges1 ls) ->
  forall St (prog : nat -> list (nat * nat) -> (nat -> Z) -> prob St), mprogram prog ->
  forall srt dfuel w lim, (forall dd l, Permutation (srt dd l) l) -> Z.to_nat nv < dfuel -> (N.of_nat w < 4294967296)%N ->
  forall fuel, lim 0 = false -> 1 <= fuel -> 2 ^ Z.to_nat nv * (Z.to_nat nv + 1) * (Z.to_nat nv + 1) + 1 <= w ->
  exists s S, main_mispF srt dfuel lim fuel w prog (Some t) = Ok (s, Emptied) /\ dimacs_set nv ls S /\ b_primal (s_b s) = Z.of_nat (length S) /\
    forall S', dimacs_set nv ls S' -> length S' <= length S.
Proof. intros. erewrite misp_double; eauto. eapply misp_best; eauto. Qed.
Lemma knap_bestF : forall capa items t tail, ints (knap_nums capa items) (nl :: t) -> no_digit tail -> items <> [] -> (0 <= capa)%Z ->
  Forall (fun i => 0 <= fst i /\ 0 <= snd i)%Z items -> (Z.of_nat (length items) <= 1000000)%Z ->
  forall srt dfuel w lim, (forall dd l, Permutation (srt dd l) l) -> length items + 1 < dfuel -> (N.of_nat w < 4294967296)%N ->
  forall fuel, lim 0 = false -> 1 <= fuel -> (capa + 1 <= Z.of_nat w)%Z -> (fold_right Z.add 0 (map fst items) <= 2147483647)%Z ->
  exists s pick, main_knapF srt dfuel lim fuel w (Some (t ++ tail)) = Ok (s, Emptied) /\ packing capa items pick /\ b_primal (s_b s) = taken fst items pick /\
    b_inc (s_b s) = map (fun b : bool => if b then 1%Z else 0%Z) pick /\ forall q, packing capa items q -> (taken fst items q <= taken fst items pick)%Z.
Proof. intros. erewrite knap_double; eauto. eapply knap_best; eauto. Qed.
Lemma tsp_bestF : forall n hi ds rfuel t, tsp_file n ds rfuel t -> (2 <= n)%Z -> cells_ok n hi ds -> (n <= 18446744073709551615)%Z ->
  forall srt dfuel w lim, (forall dd l, Permutation (srt dd l) l) -> Z.to_nat n < dfuel -> (N.of_nat w < 4294967296)%N ->
  forall fuel, lim 0 = false -> 1 <= fuel -> 2 ^ Z.to_nat n * Z.to_nat n * Z.to_nat n + 1 <= w ->
  exists s r, main_tspF srt dfuel lim fuel w tsp_prob rfuel (Some t) = Ok (s, Emptied) /\ round_trip (Z.to_nat n) (1 :: r) /\ b_inc (s_b s) = map Z.of_nat (r ++ [1]) /\
    b_primal (s_b s) = trip_length (full_entry (Z.to_nat n) ds) (1 :: r) /\
    forall t', round_trip (Z.to_nat n) t' -> (b_primal (s_b s) <= trip_length (full_entry (Z.to_nat n) ds) t')%Z.
Proof. intros. erewrite tsp_double; eauto. eapply tsp_best; eauto. Qed.
Lemma color_bestF : forall is t nv, pfile is t -> pN is = [nv] -> (1 <= nv <= 2147483647)%Z ->
  Forall (fun e => 0 <= fst e < nv /\ 0 <= snd e < nv)%Z (pE is) -> Forall (fun e => fst e <> snd e) (pE is) ->
  forall St (prog : nat -> list (nat * nat) -> nat -> option Z -> prob St) m, cprogram prog m -> (Z.of_nat (upper is nv) < m)%Z ->
  forall srt dfuel w lim, (forall dd l, Permutation (srt dd l) l) -> Z.to_nat nv + 1 < dfuel -> (N.of_nat w < 4294967296)%N ->
  forall fuel, lim 0 = false -> 1 <= fuel -> S (upper is nv) ^ Z.to_nat nv + 1 <= w ->
  exists s, main_colorF srt dfuel lim fuel w prog (Some t) = Ok (s, Emptied) /\
    (forall c k, file_colouring (pE is) c -> colours_used nv c k -> k <= upper is nv -> (b_primal (s_b s) <= Z.of_nat k)%Z) /\
    ((exists c k, file_colouring (pE is) c /\ colours_used nv c k /\ k <= upper is nv) -> exists c k, file_colouring (pE is) c /\ colours_used nv c k /\ b_primal (s_b s) = Z.of_nat k).
Proof. intros. erewrite color_double; eauto. eapply color_best; eauto. Qed.
