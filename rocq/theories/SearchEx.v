(** Concrete runs of the search: examples for the theorems of PropSearch.v, and counterexamples. *)
From Verif Require Import Base HeapModel MSortModel DDModel DDSpec DDFrame DDExpand TabModel KnapModel KnapProofs DDExamples DDRelaxedEnd DDWide
  SearchModel SearchProofs.

(** follow a label sequence *)
Fixpoint walk {St} (P : prob St) (s : St) (ls : list Z) : option (Z * St) :=
  match ls with
  | [] => Some (0%Z, s)
  | l :: r => if p_eqb P s (p_target P) then None else if negb (existsb (Z.eqb l) (p_labels P s)) then None
    else match p_stf P s l with
    | None => None
    | Some s' => match walk P s' r with Some (v, t) => Some ((p_cost P s l + v)%Z, t) | None => None end
    end
  end.
Lemma walk_path {St} (P : prob St) : (forall a b, p_eqb P a b = true <-> a = b) ->
  forall ls s v t, walk P s ls = Some (v, t) -> path P s ls v t.
Proof.
  intros HE. induction ls as [|l r IH]; intros s v t H; cbn [walk] in H.
  - injection H as <- <-. constructor.
  - destruct (p_eqb P s (p_target P)) eqn:E1; [discriminate|]. destruct (existsb (Z.eqb l) (p_labels P s)) eqn:E2; [|discriminate]. cbn [negb] in H.
    destruct (p_stf P s l) as [s'|] eqn:E3; [|discriminate]. destruct (walk P s' r) as [[v' t']|] eqn:E4; [|discriminate]. injection H as <- <-.
    econstructor; eauto.
    + intros C. apply HE in C. congruence.
    + apply existsb_exists in E2 as (x & Hx & Ex). assert (x = l) by lia. now subst.
Qed.
Lemma walk_solution {St} (P : prob St) I rank N ls V : valid_model P I rank N -> (forall a b, p_eqb P a b = true <-> a = b) -> walk P (p_init P) ls = Some (V, p_target P) -> solution P (p_init P) 0 V.
Proof. intros VM HE H. exists V. split; [|lia]. exists ls. now apply walk_path. Qed.

(** executable version of hist_ok *)
Definition direct_okb {St} (P : prob St) (d : dd St) (p : Z) : bool :=
  forallb (fun i => negb (n_exact (d_nd d i)) || forallb (fun l => match p_stf P (n_state (d_nd d i)) l with
    | Some t => negb (p_eqb P t (p_target P)) || negb (isBetter P (n_bound (d_nd d i) + p_cost P (n_state (d_nd d i)) l) p)
    | None => true end) (p_labels P (n_state (d_nd d i)))) (d_an d).
Lemma hist_okb_ok {St} (P : prob St) (s : @sst St) : (forall a, p_eqb P a a = true) ->
  forallb (fun x => direct_okb P (fst x) (snd x)) (s_hist s) = true -> hist_ok P s.
Proof.
  intros HE H d p Hin i l Hi Hx Hl Hs B. rewrite forallb_forall in H. specialize (H _ Hin). cbn [fst snd] in H. unfold direct_okb in H.
  rewrite forallb_forall in H. specialize (H _ Hi). rewrite Hx in H. cbn [negb orb] in H. rewrite forallb_forall in H. specialize (H _ Hl).
  rewrite Hs, HE in H. cbn [negb orb] in H. apply isBetter_bt in B. rewrite B in H. discriminate.
Qed.

(** observable result of a search.  (The whole final state is not a good thing to normalise: its queue has 64000 slots.) *)
Record obs := mkObs {
  o_primal : Z; o_inc : list Z; o_log : list (list Z);
  o_ttl : nat; o_seen : nat; o_insDom : nat; o_pruned : nat;
  o_lim : bool; o_cuts : nat; o_rootcut : bool; o_histok : bool; o_end : option (nat * Z) }.
Definition root_cut {St} (d : dd St) : bool :=
  match computeCutSet d with Ok cs => existsb (is_ptr (d_root d)) cs | Err _ => true end.
Definition so {St} (P : prob St) (r : res (@sst St * ending)) : res obs :=
  do (s, e) <- r ; Ok (mkObs (b_primal (s_b s)) (b_inc (s_b s)) (b_log (s_b s)) (s_ttl s) (s_seen s) (s_insDom s) (s_pruned s) (lim_flag s)
    (length (s_hist s)) (existsb (fun x => root_cut (fst x)) (s_hist s)) (forallb (fun x => direct_okb P (fst x) (snd x)) (s_hist s)) (match e with Emptied => None | Limited q => Some q end)).
(** no cut set contains the root of its diagram *)
Definition root_never_cut {St} (s : @sst St) : Prop :=
  forall d p cs i, In (d, p) (s_hist s) -> computeCutSet d = Ok cs -> In i cs -> is_ptr (d_root d) i = false.
Lemma so_inv {St} (P : prob St) r o : (forall a, p_eqb P a a = true) -> so P r = Ok o ->
  exists s, r = Ok (s, match o_end o with None => Emptied | Some q => Limited q end) /\
    b_primal (s_b s) = o_primal o /\ b_inc (s_b s) = o_inc o /\ b_log (s_b s) = o_log o /\ s_ttl s = o_ttl o /\ s_seen s = o_seen o /\
    s_insDom s = o_insDom o /\ s_pruned s = o_pruned o /\ lim_flag s = o_lim o /\ length (s_hist s) = o_cuts o /\ (o_rootcut o = false -> root_never_cut s) /\ (o_histok o = true -> hist_ok P s).
Proof.
  intros HE. unfold so. destruct r as [[s e]|]; [|discriminate]. cbn [bind]. intros [= <-]. exists s. cbn.
  csplit; auto; [destruct e; reflexivity| |now apply hist_okb_ok]. intros H d p cs i Hin Hc Hi.
  destruct (is_ptr (d_root d) i) eqn:X; auto. rewrite <- H. symmetry. apply existsb_exists. exists (d, p). split; auto. cbn. unfold root_cut. rewrite Hc.
  apply existsb_exists. exists i; auto.
Qed.
Definition nolim (_ : nat) : bool := false.

(** *** (a) the root itself is in the cut set: 0 -1-> 1 -10-> 4 and 0 -2-> 2 -5-> 4; merging 1 and 2 gives 3 -5-> 4; width 1 *)
Definition t_root := mkTab [rw 0 0 1 1; rw 0 1 2 2; rw 1 0 4 10; rw 2 0 4 5; rw 3 0 4 5] 4 [0; 1; 1; 1; 0]
  (flat_map (fun a => map (fun b => (a, b, 3)) [1; 2; 3]) [1; 2; 3]) None None true.

Notation run_ P w user lim := (search P (exSrt P) 20 lim 100 w user).
Lemma search_root_refuted : exists (P : prob nat) I rank N (s : @sst nat), setting P I rank N (exSrt P) 20 1 /\ p_sdom P = None /\ p_local P = None /\
  run_ P 1 None nolim = Ok (s, Emptied) /\ hist_ok P s /\ s_seen s = 1 /\ b_primal (s_b s) = 11%Z /\ solution P (p_init P) 0 7 /\ p_min P = true.
Proof.
  exists (tabP t_root), (inTab t_root), (tabRank t_root), 2.
  destruct (so_inv (tabP t_root) (run_ (tabP t_root) 1 None nolim) (mkObs 11 [0; 0] [[0; 0]] 1 1 0 0 false 1 true true None)%Z) as (s & H & H1 & _ & _ & _ & H2 & _ & _ & _ & _ & _ & H3);
    [apply Nat.eqb_refl|vm_compute; reflexivity|]. exists s.
  split.
  { constructor; [apply tab_valid; vm_compute; reflexivity|discriminate|unfold inTab; cbn; lia|apply tab_range; vm_compute; reflexivity|apply exSrt_perm|lia|lia]. }
  do 2 (split; [reflexivity|]). do 4 (split; [auto|]). split; [apply tab_solution; [reflexivity|vm_compute; auto]|reflexivity].
Qed.

(** *** subset models: three layers over four base nodes, a state is a set of base nodes of one layer, merging is union *)
Definition bmem (m : nat) : list nat := filter (fun b => Nat.testbit m b) [0; 1; 2; 3].
Definition arcsL (rows : list (list (nat * Z))) (off off' : nat) (m : nat) : list row :=
  flat_map (fun b => map (fun x => rw (off + m) (Z.of_nat (b * 10 + fst x)) (off' + 2 ^ fst x) (snd x)) (nth b rows [])) (bmem m).
Definition masks (top : list (nat * Z)) (L1 L2 : list (list (nat * Z))) (fin : list Z) (ms : list nat) (dom : option (list (nat * nat))) : tab := mkTab
  (map (fun x => rw 0 (Z.of_nat (fst x)) (2 ^ fst x) (snd x)) top ++ flat_map (arcsL L1 0 16) (seq 1 15) ++ flat_map (arcsL L2 16 32) (seq 1 15) ++
   flat_map (fun m => map (fun b => rw (32 + m) (Z.of_nat (b * 10)) 48 (nth b fin 0%Z)) (bmem m)) (seq 1 15))
  48 (0 :: repeat 1 15 ++ [9] ++ repeat 2 15 ++ [9] ++ repeat 3 15)
  (flat_map (fun o => flat_map (fun a => map (fun b => (o + a, o + b, o + Nat.lor a b)) ms) ms) [16; 32]) None dom true.

(** (b) a state met again with a better bound is dropped *)
Definition t_seen := masks [(1, 4%Z); (2, 12%Z)]
  [[(1, 4%Z); (2, 2%Z)]; [(1, 12%Z); (2, 12%Z)]; [(0, 2%Z); (1, 8%Z)]; [(0, 9%Z); (1, 7%Z); (2, 1%Z); (3, 12%Z)]]
  [[(0, 12%Z); (1, 7%Z); (3, 12%Z)]; [(1, 9%Z); (2, 4%Z); (3, 6%Z)]; [(0, 7%Z); (1, 7%Z); (2, 4%Z)]; [(2, 1%Z); (3, 6%Z)]]
  [11; 9; 10; 4]%Z (seq 1 15) None.
Lemma search_seen_refuted : exists (P : prob nat) I rank N (s : @sst nat), setting P I rank N (exSrt P) 20 2 /\ p_sdom P = None /\ p_local P = None /\
  run_ P 2 None nolim = Ok (s, Emptied) /\ hist_ok P s /\ root_never_cut s /\ s_seen s = 1 /\ b_primal (s_b s) = 30%Z /\ solution P (p_init P) 0 26 /\ p_min P = true.
Proof.
  exists (tabP t_seen), (inTab t_seen), (tabRank t_seen), 9.
  destruct (so_inv (tabP t_seen) (run_ (tabP t_seen) 2 None nolim) (mkObs 30 [2; 20; 1; 10] [[2; 20; 1; 10]; [1; 12; 21; 10]] 5 1 0 0 false 3 false true None)%Z) as (s & H & H1 & _ & _ & _ & H2 & _ & _ & _ & _ & H4 & H3);
    [apply Nat.eqb_refl|vm_compute; reflexivity|]. exists s.
  split.
  { constructor; [apply tab_valid; vm_compute; reflexivity|discriminate|unfold inTab; cbn; lia|apply tab_range; vm_compute; reflexivity|apply exSrt_perm|lia|lia]. }
  do 2 (split; [reflexivity|]). do 5 (split; [auto|]). split; [|reflexivity].
  eapply (walk_solution (tabP t_seen) (inTab t_seen) (tabRank t_seen) 9 [1; 11; 13; 30]%Z); [apply tab_valid; vm_compute; reflexivity|intros; apply Nat.eqb_eq|vm_compute; reflexivity].
Qed.

(** (d) queue dominance between different depths *)
Definition t_qdom := masks [(0, 7%Z); (1, 6%Z)]
  [[(0, 5%Z); (1, 4%Z)]; [(1, 8%Z); (3, 1%Z)]; [(0, 12%Z)]; [(3, 6%Z)]] [[(1, 9%Z)]; [(0, 6%Z); (2, 1%Z); (3, 1%Z)]; []; []]
  [3; 11; 5; 2]%Z (seq 1 15) (Some (flat_map (fun a => map (fun b => (a, 16 + b)) (seq 1 15)) (seq 1 15))).
Lemma search_dom_refuted : exists (P : prob nat) I rank N (s : @sst nat), setting P I rank N (exSrt P) 20 2 /\ p_local P = None /\
  run_ P 2 None nolim = Ok (s, Emptied) /\ hist_ok P s /\ s_seen s = 0 /\ b_primal (s_b s) = 17%Z /\ solution P (p_init P) 0 14 /\ p_min P = true.
Proof.
  exists (tabP t_qdom), (inTab t_qdom), (tabRank t_qdom), 9.
  destruct (so_inv (tabP t_qdom) (run_ (tabP t_qdom) 2 None nolim) (mkObs 17 [0; 1; 12; 20] [[0; 1; 12; 20]; [1; 11; 12; 20]] 3 0 1 0 false 2 false true None)%Z) as (s & H & H1 & _ & _ & _ & H2 & _ & _ & _ & _ & H4 & H3);
    [apply Nat.eqb_refl|vm_compute; reflexivity|]. exists s.
  split.
  { constructor; [apply tab_valid; vm_compute; reflexivity|discriminate|unfold inTab; cbn; lia|apply tab_range; vm_compute; reflexivity|apply exSrt_perm|lia|lia]. }
  do 1 (split; [reflexivity|]). do 4 (split; [auto|]). split; [|reflexivity].
  apply tab_solution; [reflexivity|vm_compute; auto 20].
Qed.

(** (c) examples/knapsack2.cpp with weights 11,13,10,8,7, profits 16,18,13,6,5, capacity 23 and width 2: an optimal solution runs along exact nodes of
    the relaxed diagram into the sink; the cut set does not cover it, the restricted diagram misses it.  16 is what getUB() presets. *)
Definition knW : list Z := [11; 13; 10; 8; 7]%Z.
Definition knP : list Z := [16; 18; 13; 6; 5]%Z.
Definition knC := knapsack2 knW knP 23%Z.
Lemma knC_len : 1 <= kn_I knW.
Proof. unfold kn_I. cbn. lia. Qed.
Lemma knC_setting : setting (knC frac_exact) (kn_inv knW) fst 5 (exSrt (knC frac_exact)) 20 2.
Proof.
  constructor; [|discriminate|left; cbn; unfold kn_I; cbn; lia| |apply exSrt_perm|lia|lia].
  - apply (knapsack2_valid knW knP 23%Z knC_len); auto.
    + repeat constructor; lia.
    + cbn. repeat constructor; unfold ratio_ge; cbn; lia.
    + repeat constructor; cbn; lia.
  - apply (kn_in_range _ _ _ knC_len _ (knapsack2_like _ _ _ knC_len _)); [repeat constructor; lia|lia].
Qed.
Lemma search_exact_path_refuted : setting (knC frac_exact) (kn_inv knW) fst 5 (exSrt (knC frac_exact)) 20 2 /\ kn2_getUB knW knP 23 = Ok 16%Z /\
  forall frac, frac = frac_exact \/ frac = frac_double -> exists s, run_ (knC frac) 2 (Some 16%Z) nolim = Ok (s, Emptied) /\
    root_never_cut s /\ s_seen s = 0 /\ s_insDom s = 0 /\ s_pruned s = 0 /\
    b_primal (s_b s) = 29%Z /\ solution (knC frac) (p_init (knC frac)) 0 31 /\ p_min (knC frac) = false.
Proof.
  split; [exact knC_setting|]. split; [reflexivity|]. intros frac Hf.
  destruct (so_inv (knC frac) (run_ (knC frac) 2 (Some 16%Z) nolim) (mkObs 29 [1; 0; 1; 0; 0] [[1; 0; 1; 0; 0]] 1 0 0 0 false 1 false false None)%Z) as (s & H & H1 & _ & _ & _ & H2 & H4 & H5 & _ & _ & H6 & _);
    [intros; now apply sks_eqb_eq|destruct Hf as [-> | ->]; vm_compute; reflexivity|]. exists s. do 6 (split; [auto|]). split; [|reflexivity].
  exists 31%Z. split; [|lia]. exists [0; 1; 1; 0; 0]%Z. apply walk_path; [intros; apply sks_eqb_eq|reflexivity].
Qed.

(** *** a run that goes well: two improvements, two nodes; with a time limit after the first node *)
Definition t_good := mkTab [rw 0 0 1 1; rw 0 1 2 1; rw 1 0 3 3; rw 1 1 4 3; rw 2 0 5 1; rw 3 0 7 7; rw 4 0 7 5; rw 5 0 7 10; rw 6 0 7 5] 7 [0; 1; 1; 2; 2; 2; 2; 0]
  (flat_map (fun a => map (fun b => (a, b, 6)) [3; 4; 5; 6]) [3; 4; 5; 6]) None None true.
Notation goodP := (tabP t_good).
Lemma good_setting w : (N.of_nat w < 4294967296)%N -> setting goodP (inTab t_good) (tabRank t_good) 3 (exSrt goodP) 20 w.
Proof.
  constructor; [apply tab_valid; vm_compute; reflexivity|discriminate|unfold inTab; cbn; lia|apply tab_range; vm_compute; reflexivity|apply exSrt_perm|lia|lia].
Qed.
Lemma good_worst V : solution goodP (p_init goodP) 0 V -> be goodP (initialWorst goodP) V.
Proof.
  intros (v & C & ->). apply (proj1 (compls_iff t_good eq_refl _ _)) in C. vm_compute in C. unfold be, val. cbn. intuition (subst; lia).
Qed.
Lemma good_run : exists s, run_ goodP 2 None nolim = Ok (s, Emptied) /\ b_primal (s_b s) = 9%Z /\ b_inc (s_b s) = [0; 1; 0]%Z /\
  b_log (s_b s) = [[0; 1; 0]; [0; 0; 0]]%Z /\ s_ttl s = 2 /\ s_seen s = 0 /\ length (s_hist s) = 1 /\ hist_ok goodP s.
Proof.
  destruct (so_inv goodP (run_ goodP 2 None nolim) (mkObs 9 [0; 1; 0] [[0; 1; 0]; [0; 0; 0]] 2 0 0 0 false 1 false true None)%Z) as (s & H & H1 & H2 & H3 & H4 & H5 & _ & _ & _ & H6 & _ & H7);
    [apply Nat.eqb_refl|vm_compute; reflexivity|]. exists s. csplit; auto.
Qed.
Definition lim1 (k : nat) : bool := k =? 1.
Lemma good_limited : exists s q, run_ goodP 2 None lim1 = Ok (s, Limited q) /\ b_primal (s_b s) = 11%Z /\ lim_flag s = false /\
  isBetter goodP (snd q) (b_primal (s_b s)) = true /\ solution goodP (p_init goodP) 0 9.
Proof.
  destruct (so_inv goodP (run_ goodP 2 None lim1) (mkObs 11 [0; 0; 0] [[0; 0; 0]] 1 0 0 0 false 1 false true (Some (1%nat, 9)))%Z) as (s & H & H1 & _ & _ & _ & _ & _ & _ & H2 & _);
    [apply Nat.eqb_refl|vm_compute; reflexivity|]. exists s, (1, 9%Z). csplit; auto; [rewrite H1; reflexivity|]. apply tab_solution; [reflexivity|vm_compute; auto].
Qed.
(** two nodes in the queue when the limit fires *)
Definition t_two := mkTab [rw 0 0 1 1; rw 0 1 2 1; rw 1 0 3 1; rw 1 1 4 3; rw 2 0 5 4; rw 2 1 6 5; rw 3 0 8 10; rw 4 0 8 5; rw 5 0 8 3; rw 6 0 8 10; rw 7 0 8 1] 8 [0; 1; 1; 2; 2; 2; 2; 2; 0]
  (flat_map (fun a => map (fun b => (a, b, 7)) [3; 4; 5; 6; 7]) [3; 4; 5; 6; 7]) None None true.
Lemma two_limited : exists s q, run_ (tabP t_two) 2 None lim1 = Ok (s, Limited q) /\ lim_flag s = true.
Proof.
  destruct (so_inv (tabP t_two) (run_ (tabP t_two) 2 None lim1) (mkObs 8 [1; 0; 0] [[1; 0; 0]] 1 0 0 0 true 1 false true (Some (1%nat, 5)))%Z) as (s & H & _ & _ & _ & _ & _ & _ & _ & H2 & _);
    [apply Nat.eqb_refl|vm_compute; reflexivity|]. exists s, (1, 5%Z). auto.
Qed.
Lemma good_narrow : narrow goodP (p_init goodP) 4.
Proof.
  intros k l ND Hl. assert (H : incl l (filter (fun x => tabRank t_good x =? k) (seq 0 7))).
  { assert (I0 : inTab t_good (p_init goodP)) by (unfold inTab; cbn; lia).
    intros x Hx. destruct (Hl x Hx) as (Nt & ls & v & Pt & <-).
    pose proof (path_rank goodP (inTab t_good) (tabRank t_good) 3 (se_model _ _ _ _ _ _ _ (good_setting 2 eq_refl)) _ _ _ _ I0 Pt Nt) as R.
    pose proof (path_closed goodP (inTab t_good) _ _ _ _ (tab_closed t_good eq_refl) I0 Pt) as Ix. unfold inTab in Ix. cbn in Nt, Ix, R.
    apply filter_In. split; [apply in_seq; lia|apply Nat.eqb_eq; exact R]. }
  apply NoDup_incl_length in H; auto. transitivity (length (filter (fun x => tabRank t_good x =? k) (seq 0 7))); auto.
  destruct k as [|[|[|k]]]; cbn; lia.
Qed.
(** a preset value that is the optimum, and one that is worse *)
Lemma good_preset : exists s, run_ goodP 2 (Some 9%Z) nolim = Ok (s, Emptied) /\ b_primal (s_b s) = 9%Z /\ b_inc (s_b s) = [] /\ b_log (s_b s) = [].
Proof.
  destruct (so goodP (run_ goodP 2 (Some 9%Z) nolim)) as [o|] eqn:E; [|vm_compute in E; discriminate].
  destruct (so_inv goodP _ o Nat.eqb_refl E) as (s & H & H1 & H2 & H3 & _). exists s. vm_compute in E. injection E as <-. csplit; auto.
Qed.
Lemma good_preset10 : exists s, run_ goodP 2 (Some 10%Z) nolim = Ok (s, Emptied) /\ b_primal (s_b s) = 9%Z /\ b_log (s_b s) = [[0; 1; 0]]%Z.
Proof.
  destruct (so goodP (run_ goodP 2 (Some 10%Z) nolim)) as [o|] eqn:E; [|vm_compute in E; discriminate].
  destruct (so_inv goodP _ o Nat.eqb_refl E) as (s & H & H1 & H2 & H3 & _). exists s. vm_compute in E. injection E as <-. csplit; auto.
Qed.
(** a problem without solutions *)
Definition t_inf := mkTab [rw 0 0 1 1] 2 [0; 1] [] None None false.
Lemma preset_refuted : exists (P : prob nat) I rank N (s : @sst nat), setting P I rank N (exSrt P) 20 3 /\ p_min P = false /\
  (forall V, ~ solution P (p_init P) 0 V) /\
  run_ P 3 (Some (-2147483648)%Z) nolim = Ok (s, Emptied) /\ b_primal (s_b s) = (-2147483647)%Z /\ b_log (s_b s) = [[]].
Proof.
  exists (tabP t_inf), (inTab t_inf), (tabRank t_inf), 1.
  destruct (so_inv (tabP t_inf) (run_ (tabP t_inf) 3 (Some (-2147483648)%Z) nolim) (mkObs (-2147483647) [] [[]] 1 0 0 0 false 0 false true None)%Z) as (s & H & H1 & H2 & H3 & _);
    [apply Nat.eqb_refl|vm_compute; reflexivity|]. exists s.
  split.
  { constructor; [apply tab_valid; vm_compute; reflexivity|discriminate|unfold inTab; cbn; lia|apply tab_range; vm_compute; reflexivity|apply exSrt_perm|lia|lia]. }
  split; [reflexivity|]. split; [|auto]. intros V (v & C & _). apply (proj1 (compls_iff t_inf eq_refl _ _)) in C. vm_compute in C. destruct C.
Qed.

(** *** knapsack2 on the items (2,2), (48,48), (49,49), capacity 51: in double arithmetic floor((1/49)*49) is 0, the local bound of the root is 50 *)
Definition fpI : list Z := [2; 48; 49]%Z.
Definition fpP := knapsack2 fpI fpI 51%Z frac_double.
Lemma fp_search : forall w, exists s, run_ fpP w (Some 50%Z) nolim = Ok (s, Emptied) /\ b_primal (s_b s) = 50%Z /\ b_inc (s_b s) = [].
Proof.
  intros w. destruct (so_inv fpP (run_ fpP w (Some 50%Z) nolim) (mkObs 50 [] [] 1 0 0 0 false 0 false true None)%Z) as (s & H & H1 & H2 & _);
    [intros; now apply sks_eqb_eq|vm_compute; reflexivity|]. exists s. auto.
Qed.
