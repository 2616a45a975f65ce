(** Whole programs: knapsack.cpp and knapsack2.cpp from the file to the result. *)
From Coq Require Import Ascii.
From Verif Require Import Base DDModel DDSpec DDFrame DDMerge DDExact DDWide SearchModel SearchProofs TspProofs MSortModel MSortProofs KnapModel KnapProofs KnapEnd ReadModel ReadSpec ReadProofs ReadRun ProgModel ProgSpec ProgProofs.

Definition bz (b : bool) : Z := if b then 1%Z else 0%Z.
Lemma taken_tot f items : forall n pick, length pick + n = length items -> taken f (skipn n items) pick = tot (fun k => nth k (map f items) 0%Z) n (map bz pick).
Proof.
  intros n pick. revert n. induction pick as [|b pick IH]; intros n L; cbn [map tot]; [destruct (skipn n items); auto|]. cbn [length] in L.
  destruct (skipn n items) as [|x r] eqn:E; [apply (f_equal (@length _)) in E; rewrite skipn_length in E; cbn in E; lia|].
  cbn [taken]. assert (E2 : skipn (S n) items = r). { clear - E. revert n E. induction items as [|y l IH]; intros [|n] E; cbn in *; try discriminate; [congruence|]. destruct l; [destruct n; discriminate|]. now apply IH. }
  rewrite <- E2, IH by lia. f_equal. assert (Hx : nth n (map f items) 0%Z = f x).
  { assert (nth_error items n = Some x). { clear - E. revert n E. induction items as [|y l IH]; intros [|n] E; cbn in *; try discriminate; [congruence|]. now apply IH. }
    erewrite nth_error_nth; [reflexivity|]. now apply map_nth_error. }
  rewrite Hx. unfold bz. destruct b; lia.
Qed.
Lemma taken_tot0 f items pick : length pick = length items -> taken f items pick = tot (fun k => nth k (map f items) 0%Z) 0 (map bz pick).
Proof. intros L. exact (taken_tot f items 0 pick ltac:(lia)). Qed.
Lemma bz_sel pick : selection (map bz pick).
Proof. apply Forall_forall. intros x H. apply in_map_iff in H as ([|] & <- & _); auto. Qed.
Lemma sel_bz ls : selection ls -> exists pick, ls = map bz pick.
Proof. induction 1 as [|x ls [-> | ->] _ (p & ->)]; [now exists []|now exists (false :: p)|now exists (true :: p)]. Qed.

Section Knap.
Variables (capa : Z) (items : list (Z * Z)) (t tail : list ascii).
Hypothesis HF : ints (knap_nums capa items) (nl :: t).
Hypothesis Ht : no_digit tail.
Hypothesis Hn : items <> [].
Hypothesis Hc : (0 <= capa)%Z.
Hypothesis Hi : Forall (fun i => 0 <= fst i /\ 0 <= snd i)%Z items.
Notation weight := (map snd items).
Notation profit := (map fst items).
Notation P := (knapsack weight profit capa).

Lemma kp_ok : instance_ok weight profit capa.
Proof.
  constructor; auto.
  - rewrite map_length. destruct items; [congruence|cbn; lia].
  - apply Forall_forall. intros x H. apply in_map_iff in H as (i & <- & H). apply (proj1 (Forall_forall _ _) Hi i H).
Qed.
Lemma kp_profit : Forall (fun p => (0 <= p)%Z) profit.
Proof. apply Forall_forall. intros x H. apply in_map_iff in H as (i & <- & H). apply (proj1 (Forall_forall _ _) Hi i H). Qed.
Lemma kp_solutions ls v : path P (p_init P) ls v (p_target P) <-> exists pick, packing capa items pick /\ ls = map bz pick /\ v = taken fst items pick.
Proof.
  rewrite (knapsack_solutions weight profit capa kp_ok P (or_introl eq_refl)). unfold feasible, value, packing. split.
  - intros ((S & L & T) & ->). apply sel_bz in S as (pick & ->). rewrite !map_length in L. exists pick. csplit; auto.
    + now rewrite taken_tot0.
    + now rewrite taken_tot0.
  - intros (pick & (L & T) & -> & ->). rewrite taken_tot0 in * by lia. csplit; auto; [apply bz_sel|now rewrite !map_length].
Qed.
Lemma taken_le : forall pick, (0 <= taken fst items pick <= fold_right Z.add 0 profit)%Z.
Proof.
  revert Hi. clear. intros Hi. induction items as [|x l IH]; intros pick; [|inversion Hi as [|? ? [A _] Hl]; subst; specialize (IH Hl)]; [destruct pick; cbn; lia|]. destruct pick as [|b pick]; cbn [taken map fold_right].
  - specialize (IH []). destruct l; cbn [taken] in IH; lia.
  - specialize (IH pick). destruct b; lia.
Qed.
Variables (srt : dd sks -> list nat -> list nat) (dfuel w : nat) (lim : nat -> bool).
Hypothesis Hsrt : forall dd l, Permutation (srt dd l) l.
Hypothesis Hdf : length items + 1 < dfuel.
Hypothesis Hw : (N.of_nat w < 4294967296)%N.
Lemma kp_setting : setting P (kn_inv weight) fst (length items) srt dfuel w.
Proof.
  pose proof kp_ok as [H1 H2 H3]. pose proof (knapsack_like weight profit capa H1) as K. destruct (kn_init_inv weight profit capa H1 H2 P K) as [A B].
  assert (EI : kn_I weight = length items) by apply map_length.
  constructor; auto.
  - rewrite <- EI. now apply knapsack_valid.
  - apply (kn_in_range weight profit capa H1 P K); [apply kp_profit|lia].
Qed.
Lemma kp_reads fuel : main_knap srt dfuel lim fuel w (Some (t ++ tail)) = search P srt dfuel lim fuel w None.
Proof.
  unfold main_knap. pose proof (readKnap_ok capa items t tail HF Ht) as E. cbn in E. rewrite E. cbn [bind ReadModel.val k_I k_capa k_items].
  rewrite Z.ltb_irrefl. destruct items; [congruence|]. now replace (Z.of_nat (length (p :: l)) <? 1)%Z with false by (symmetry; apply Z.ltb_ge; cbn [length]; lia).
Qed.
Lemma kp_states s : s <> p_target P -> (exists ls v, path P (p_init P) ls v s) -> In s (kn_states weight capa).
Proof.
  intros _ (ls & v & H). destruct (kn_init_inv weight profit capa (io_n _ _ _ kp_ok) Hc P (knapsack_like weight profit capa (io_n _ _ _ kp_ok))) as [A _].
  eapply (kn_reach weight profit capa kp_ok); eauto. cbn. lia.
Qed.
Lemma kn_states_len : length (kn_states weight capa) = length items * Z.to_nat (capa + 1) + 1.
Proof. 
  unfold kn_states. cbn [length]. assert (LL : forall (a : list nat) (b : list Z), @length sks (list_prod a b) = length a * length b) by (intros; apply prod_length).
  rewrite LL, map_length, !seq_length. unfold kn_I. rewrite map_length. lia.
 Qed.
Lemma knap_ends fuel : length items * Z.to_nat (capa + 1) + 1 <= fuel -> exists s e, main_knap srt dfuel lim fuel w (Some (t ++ tail)) = Ok (s, e).
Proof.
  intros F. rewrite kp_reads. apply (search_total _ _ _ _ srt dfuel w kp_setting lim None (be_refl _ _) (kn_states weight capa)); [apply kp_states|]. now rewrite kn_states_len.
Qed.
Lemma knap_found fuel s e : main_knap srt dfuel lim fuel w (Some (t ++ tail)) = Ok (s, e) -> b_primal (s_b s) <> (-2147483647)%Z ->
  exists pick, packing capa items pick /\ b_primal (s_b s) = taken fst items pick /\ b_inc (s_b s) = map bz pick.
Proof.
  rewrite kp_reads. intros E N. destruct (search_genuine _ _ _ _ srt dfuel w kp_setting lim None (be_refl _ _) fuel s e E) as [G _].
  destruct (G N) as (ls' & v & E1 & -> & H). apply kp_solutions in H as (pick & H & -> & ->). exists pick. csplit; auto.
Qed.
(** at one depth a state is given by the remaining capacity *)
Lemma kp_narrow : narrow P (p_init P) (Z.to_nat (capa + 1)).
Proof.
  intros k l ND H. replace (Z.to_nat (capa + 1)) with (length (map Z.of_nat (seq 0 (Z.to_nat (capa + 1))))) by (rewrite map_length, seq_length; auto).
  assert (EL : @length sks l = length (map snd l)) by (symmetry; apply map_length). rewrite EL. apply NoDup_incl_length.
  - assert (Q : forall x, In x l -> fst x = k).
    { intros x Hx. apply H in Hx as (Nt & ls & v & Hp & L). pose proof (knapsack_like weight profit capa (io_n _ _ _ kp_ok)) as K.
      destruct (kn_init_inv weight profit capa (io_n _ _ _ kp_ok) Hc P K) as [A _].
      pose proof (kn_closed weight profit capa (io_n _ _ _ kp_ok) P K) as CL. pose proof (kn_layered weight profit capa P K) as LY.
      assert (R : forall s ls v t, path P s ls v t -> kn_inv weight s -> t <> p_target P -> fst t = fst s + length ls).
      { clear - CL LY. intros s ls v t H. induction H as [s|s l s' ls v t Ns Hl Es H IH]; intros Is Nt; [cbn; lia|].
        assert (Is' : kn_inv weight s') by (eapply (cl_step _ _ CL); eauto). rewrite IH; auto. cbn [length].
        assert (s' <> p_target P). { intros ->. apply path_target in H as (_ & _ & Q). congruence. }
        assert (F : fst s' = S (fst s)) by (eapply LY; eauto). lia. }
      rewrite (R _ _ _ _ Hp A Nt). cbn. exact L. }
    clear - ND Q. induction ND as [|[a b] l Hx ND IH]; cbn; constructor; [|apply IH; intros; apply Q; now right].
    intros Hb. apply in_map_iff in Hb as ([a' b'] & E & Hb). cbn in E. subst b'. apply Hx. pose proof (Q _ (or_introl eq_refl)) as Q1. pose proof (Q _ (or_intror Hb)) as Q2. cbn in Q1, Q2. subst a a'. exact Hb.
  - intros c Hcx. apply in_map_iff in Hcx as (x & <- & Hx). apply H in Hx as (Nt & ls & v & Hp & L).
    pose proof (kp_states x Nt (ex_intro _ ls (ex_intro _ v Hp))) as [<-|Q]; [now elim Nt|]. destruct x. now apply in_prod_iff in Q as [_ Q].
Qed.
Lemma knap_best fuel : lim 0 = false -> 1 <= fuel -> (capa + 1 <= Z.of_nat w)%Z -> (fold_right Z.add 0 profit <= 2147483647)%Z ->
  exists s pick, main_knap srt dfuel lim fuel w (Some (t ++ tail)) = Ok (s, Emptied) /\ packing capa items pick /\ b_primal (s_b s) = taken fst items pick /\
    b_inc (s_b s) = map bz pick /\ forall q, packing capa items q -> (taken fst items q <= taken fst items pick)%Z.
Proof.
  intros L0 F Wd Tp. destruct (search_narrow _ _ _ _ srt dfuel w kp_setting lim None (be_refl _ _) fuel L0) as (s & E & _ & O & _); auto.
  { intros k l ND H. pose proof (kp_narrow k l ND H). lia. }
  { intros V (v & (ls' & H) & ->). apply kp_solutions in H as (pick & _ & _ & ->). pose proof (taken_le pick). unfold be, DDSpec.val, initialWorst. cbn. unfold intMax. lia. }
  assert (Best : forall q, packing capa items q -> (taken fst items q <= b_primal (s_b s))%Z).
  { intros q Hq. specialize (O (0 + taken fst items q)%Z). unfold be, DDSpec.val in O. cbn [knapsack p_min] in O.
    assert (X : solution P (p_init P) 0 (0 + taken fst items q)). { exists (taken fst items q). split; auto. exists (map bz q). apply kp_solutions. eauto. } specialize (O X). lia. }
  assert (Q : (0 <= b_primal (s_b s))%Z).
  { pose proof (Best (repeat false (length items))) as B. assert (Z0 : forall f l, taken f l (repeat false (length l)) = 0%Z) by (clear; induction l; cbn; lia). rewrite Z0 in B.
    apply B. split; [apply repeat_length|now rewrite Z0]. }
  assert (E' : main_knap srt dfuel lim fuel w (Some (t ++ tail)) = Ok (s, Emptied)) by now rewrite kp_reads.
  destruct (knap_found fuel s Emptied E') as (pick & HS & ES & EI); [lia|]. exists s, pick. csplit; auto. intros q Hq. rewrite <- ES. now apply Best.
Qed.
End Knap.

(** ** knapsack2.cpp *)
Lemma msort_perm {T} (le : T -> T -> bool) d l : Permutation (msort_list le d l) l.
Proof. apply (msort_list_ok _ (fun _ _ => True)); auto. Qed.
Lemma sum_perm l l' : Permutation l l' -> fold_right Z.add 0%Z l = fold_right Z.add 0%Z l'.
Proof. induction 1; cbn; lia. Qed.
Section Knap2.
Variables (le : Z * Z -> Z * Z -> bool) (capa : Z) (items : list (Z * Z)) (t tail : list ascii).
Hypothesis HF : ints (knap_nums capa items) (nl :: t).
Hypothesis Ht : no_digit tail.
Variables (srt : dd sks -> list nat -> list nat) (dfuel w : nat) (lim : nat -> bool) (fuel : nat).
Lemma knap2_trailing : tail <> [] -> main_knap2 srt dfuel lim fuel w le (Some (t ++ tail)) = Err UB.
Proof.
  intros N. unfold main_knap2. pose proof (readKnap2_exact le capa items t tail HF Ht) as E. cbn in E. rewrite E. destruct tail; [congruence|reflexivity].
Qed.
Lemma knap2_reads : main_knap2 srt dfuel lim fuel w le (Some t) =
  let l := msort_list le (0, 0)%Z items in
  do ub <- kn2_getUB (map snd l) (map fst l) capa ; search (knapsack2 (map snd l) (map fst l) capa frac_double) srt dfuel lim fuel w (Some ub).
Proof.
  unfold main_knap2. pose proof (readKnap2_exact le capa items t [] HF Logic.I) as E. rewrite app_nil_r in E. cbn in E. rewrite E. reflexivity.
Qed.
Lemma knap2_all_fit : items <> [] -> (0 <= capa)%Z -> Forall (fun i => 0 <= fst i /\ 0 <= snd i)%Z items -> (fold_right Z.add 0 (map snd items) <= capa)%Z ->
  main_knap2 srt dfuel lim fuel w le (Some t) = Err UB.
Proof.
  intros N C I S. rewrite knap2_reads. cbv zeta. pose proof (msort_perm le (0, 0)%Z items) as PM. set (l := msort_list le (0, 0)%Z items) in *.
  assert (E : kn2_getUB (map snd l) (map fst l) capa = Err UB); [|now rewrite E].
  apply getUB_overrun; [|now rewrite !map_length|].
  - constructor; [rewrite map_length; destruct l; [apply Permutation_nil in PM; congruence|cbn; lia]|auto|]. apply Forall_forall. intros x Hx. apply in_map_iff in Hx as (i & <- & Hi). apply (proj1 (Forall_forall _ _) I). now rewrite <- PM.
  - rewrite (sum_perm _ _ (Permutation_map snd PM)). exact S.
Qed.
End Knap2.
