(** Whole programs: tsp.cpp and the tsp_test programs from the file to the result. *)
From Coq Require Import Ascii.
From Verif Require Import Base DDModel DDSpec DDFrame DDMerge DDExact DDWide SearchModel SearchProofs TspModel TspSpec TspProofs TourModel TourSpec TourTop TourEnd ReadModel ReadSpec ReadProofs ReadRun ReadTsp
  ProgModel ProgSpec ProgProofs.

(** ** round trips and where they start *)
Lemma hops_walk d f r : forall a, hops d f (a :: r) = walk d a (r ++ [f]).
Proof. induction r as [|b r IH]; intros a; [cbn; lia|]. change (hops d f (a :: b :: r)) with (d a b + hops d f (b :: r))%Z. rewrite IH. reflexivity. Qed.
Lemma trip_walk d a r : trip_length d (a :: r) = walk d a (r ++ [a]).
Proof. apply hops_walk. Qed.
Lemma walk_via d c v : forall u a, walk d a (u ++ c :: v) = (walk d a (u ++ [c]) + walk d c v)%Z.
Proof. induction u as [|x u IH]; intros a; cbn [app walk]; [lia|]. rewrite IH. lia. Qed.
Lemma trip_rotate d a b c : trip_length d (a ++ c :: b) = walk d c (b ++ a ++ [c]).
Proof.
  destruct a as [|x a]; [cbn [app]; now rewrite trip_walk|]. cbn [app]. rewrite trip_walk, <- app_assoc. cbn [app]. rewrite (walk_via d c (b ++ [x]) a x).
  rewrite (walk_via d x (a ++ [c]) b c). lia.
Qed.
Lemma trip_from n c t : round_trip n t -> c < n -> exists u, NoDup u /\ (forall x, In x u <-> x < n /\ x <> c) /\ forall d, trip_length d t = walk d c (u ++ [c]).
Proof.
  intros [N A] Hc. destruct (in_split c t) as (a & b & ->); [now apply A|]. exists (b ++ a).
  assert (PM : Permutation (a ++ c :: b) (c :: b ++ a)) by (rewrite <- Permutation_middle; constructor; apply Permutation_app_comm).
  pose proof (Permutation_NoDup PM N) as N'. inversion N' as [|? ? N1 N2]; subst. csplit; auto.
  - intros x. rewrite <- A, PM. cbn [In]. split; [intros Hx; split; [now right|intros ->; contradiction]|intros [[<-|Hx] Q]; [congruence|auto]].
  - intros d. now rewrite trip_rotate, app_assoc.
Qed.
Lemma trip_back n c u : NoDup u -> (forall x, In x u <-> x < n /\ x <> c) -> c < n -> round_trip n (c :: u) /\ forall d, trip_length d (c :: u) = walk d c (u ++ [c]).
Proof.
  intros N A Hc. split; [|intros; apply trip_walk]. split; [constructor; auto; rewrite A; tauto|]. intros x. cbn [In]. rewrite A.
  destruct (Nat.eq_dec c x); intuition; subst; auto.
Qed.
Lemma trip_ex n : round_trip n (seq 0 n).
Proof. split; [apply seq_NoDup|]. intros c. rewrite in_seq. lia. Qed.

(** ** lengths *)
Lemma walk_le (d : nat -> nat -> Z) n lo hi : (forall i j, i < n -> j < n -> (lo <= d i j <= hi)%Z) -> forall l a, a < n -> Forall (fun c => c < n) l ->
  (Z.of_nat (length l) * lo <= walk d a l <= Z.of_nat (length l) * hi)%Z.
Proof. intros B. induction l as [|b l IH]; intros a Ha F; cbn [walk length]; [lia|]. inversion F; subst. specialize (IH b H1 H2). specialize (B a b Ha H1). lia. Qed.
Lemma fits_of n d hi : (forall i j, i < n -> j < n -> (0 <= d i j <= hi)%Z) -> (Z.of_nat n * hi < 2147483647)%Z -> fits n d.
Proof.
  intros B H a l Ha F L. pose proof (walk_le d n 0 hi B l a Ha F). assert (0 <= hi)%Z by (specialize (B a a Ha Ha); lia). nia.
Qed.
Lemma trip_nonneg n d hi t : (forall i j, i < n -> j < n -> (0 <= d i j <= hi)%Z) -> round_trip n t -> (0 <= trip_length d t)%Z.
Proof.
  intros B [N A]. destruct t as [|a r]; [cbn; lia|]. rewrite trip_walk. assert (F : Forall (fun c => c < n) (r ++ [a])).
  { apply Forall_forall. intros x Hx. apply A. apply in_app_or in Hx as [Hx|[<-|[]]]; [now right|now left]. }
  pose proof (walk_le d n 0 hi B (r ++ [a]) a (proj1 (A a) (or_introl eq_refl)) F). lia.
Qed.

(** the matrix of a file *)
Definition cells_ok (n hi : Z) (ds : list Z) : Prop := Z.of_nat (length ds) = (n * n)%Z /\ Forall (fun x => 0 <= x <= hi)%Z ds /\ (n * hi < 2147483647)%Z.
Lemma cells_le n hi ds : cells_ok n hi ds -> (1 <= n)%Z -> forall i j, i < Z.to_nat n -> j < Z.to_nat n -> (0 <= cell (Z.to_nat n) ds i j <= hi)%Z.
Proof.
  intros (L & F & _) Hn i j Hi Hj. unfold cell. apply (proj1 (Forall_forall _ _) F). apply nth_In. nia.
Qed.
Lemma cells_fits n hi ds : cells_ok n hi ds -> (1 <= n)%Z -> fits (Z.to_nat n) (cell (Z.to_nat n) ds).
Proof. intros C Hn. pose proof C as (_ & _ & H). eapply fits_of; [eapply cells_le; eauto|]. lia. Qed.
Definition tsp_file (n : Z) (ds : list Z) (rfuel : nat) (t : list ascii) : Prop := tsplib_old n ds t \/ (tsplib n ds t /\ length t <= rfuel).

(** ** tsp.cpp *)
Section Tsp.
Variables (n hi : Z) (ds : list Z) (rfuel : nat) (t : list ascii).
Hypothesis HF : tsp_file n ds rfuel t.
Hypothesis Hn : (2 <= n)%Z.
Hypothesis HC : cells_ok n hi ds.
Notation nv := (Z.to_nat n).
Notation d := (cell nv ds).
Lemma read_matrix : (n <= size_max)%Z -> readTsp rfuel (Some t) = Ok (mkT n ds).
Proof. intros S. destruct HF as [H|[H L]]; [apply readTsp_old_ok|apply readTsp_ok]; auto; try lia; apply HC. Qed.
Hypothesis Hsz : (n <= size_max)%Z.
Variables (srt : dd tsp -> list nat -> list nat) (dfuel w : nat) (lim : nat -> bool).
Hypothesis Hsrt : forall dd l, Permutation (srt dd l) l.
Hypothesis Hdf : nv < dfuel.
Hypothesis Hw : (N.of_nat w < 4294967296)%N.
Lemma tsp_reads fuel : main_tsp srt dfuel lim fuel w tsp_prob rfuel (Some t) = search (tsp_prob nv d) srt dfuel lim fuel w None.
Proof. unfold main_tsp. rewrite (read_matrix Hsz). reflexivity. Qed.
Lemma tsp_two : 2 <= nv.
Proof. lia. Qed.
Let H2 := tsp_two.
Lemma tsp_fits : fits nv d.
Proof. apply (cells_fits n hi ds HC). lia. Qed.
Let FT := tsp_fits.
Let SE := tsp_setting nv d H2 srt dfuel w FT Hsrt Hdf Hw.
Lemma tsp_ends fuel : 2 ^ nv * nv * nv + 1 <= fuel -> exists s e, main_tsp srt dfuel lim fuel w tsp_prob rfuel (Some t) = Ok (s, e).
Proof. intros F. rewrite tsp_reads. destruct (tsp_search nv d H2 srt dfuel w lim fuel FT Hsrt Hdf Hw F) as (s & e & E & _). eauto. Qed.
Lemma tsp_found fuel s e : main_tsp srt dfuel lim fuel w tsp_prob rfuel (Some t) = Ok (s, e) -> b_primal (s_b s) <> 2147483647%Z ->
  exists r, round_trip nv (1 :: r) /\ b_inc (s_b s) = map Z.of_nat (r ++ [1]) /\ b_primal (s_b s) = trip_length d (1 :: r).
Proof.
  rewrite tsp_reads. intros E N. destruct (search_genuine _ _ _ _ srt dfuel w SE lim None (be_refl _ _) fuel s e E) as [G _].
  destruct (G N) as (ls' & v & E1 & E2 & H). apply (tsp_solutions nv d H2) in H as (l & (r & -> & ND & A) & -> & ->).
  destruct (trip_back nv 1 r ND A H2) as [R W]. exists r. csplit; auto. now rewrite W, E2.
Qed.
Lemma tsp_best fuel : lim 0 = false -> 1 <= fuel -> 2 ^ nv * nv * nv + 1 <= w ->
  exists s r, main_tsp srt dfuel lim fuel w tsp_prob rfuel (Some t) = Ok (s, Emptied) /\ round_trip nv (1 :: r) /\ b_inc (s_b s) = map Z.of_nat (r ++ [1]) /\
    b_primal (s_b s) = trip_length d (1 :: r) /\ forall t', round_trip nv t' -> (b_primal (s_b s) <= trip_length d t')%Z.
Proof.
  intros L0 F Wd. pose proof (cells_le n hi ds HC ltac:(lia)) as CL.
  destruct (search_narrow _ _ _ _ srt dfuel w SE lim None (be_refl _ _) fuel L0) as (s & E & _ & O & _); auto.
  { apply (narrow_of_list _ (tsp_states nv)).
    - intros x _ (ls & v & H). apply (in_tsp_states nv d H2). eapply path_closed; [apply tsp_closed; exact H2|left; apply tsp_init_live; exact H2|exact H].
    - unfold tsp_states. cbn [length]. rewrite map_length, !prodlen, masks_length, !seq_length. lia. }
  { intros V (v & (ls' & H) & ->). apply (tsp_solutions nv d H2) in H as (l & (r & -> & ND & A) & _ & ->). destruct (trip_back nv 1 r ND A H2) as [R W].
    pose proof (trip_nonneg nv d hi _ CL R). rewrite W in H. unfold be, DDSpec.val, initialWorst. cbn. unfold intMax. lia. }
  assert (Best : forall t', round_trip nv t' -> (b_primal (s_b s) <= trip_length d t')%Z).
  { intros t' Ht'. destruct (trip_from nv 1 t' Ht' H2) as (u & U1 & U2 & U3). rewrite U3. specialize (O (0 + walk d 1%nat (u ++ [1%nat]))%Z).
    unfold be, DDSpec.val in O. cbn [tsp_prob p_min] in O. assert (X : solution (tsp_prob nv d) (p_init (tsp_prob nv d)) 0 (0 + walk d 1%nat (u ++ [1%nat]))%Z).
    { exists (walk d 1 (u ++ [1])). split; auto. exists (map Z.of_nat (u ++ [1])). apply (tsp_solutions nv d H2). exists (u ++ [1]). csplit; auto. exists u. auto. }
    specialize (O X). lia. }
  assert (E' : main_tsp srt dfuel lim fuel w tsp_prob rfuel (Some t) = Ok (s, Emptied)) by now rewrite tsp_reads.
  assert (Q : (b_primal (s_b s) < 2147483647)%Z).
  { pose proof (Best _ (trip_ex nv)) as B. destruct (trip_from nv 1 _ (trip_ex nv) H2) as (u & U1 & U2 & U3). rewrite U3 in B.
    assert (walk d 1%nat (u ++ [1%nat]) < 2147483647)%Z; [|lia]. apply FT; [lia| |].
    - apply Forall_forall. intros x Hx. apply in_app_or in Hx as [Hx|[<-|[]]]; [now apply U2|lia].
    - rewrite app_length. cbn. assert (length (1 :: u) <= length (seq 0 nv)); [|rewrite seq_length in *; cbn in *; lia].
      apply NoDup_incl_length; [constructor; auto; rewrite U2; tauto|]. intros x [<-|Hx]; apply in_seq; [lia|]. apply U2 in Hx. lia. }
  destruct (tsp_found fuel s Emptied E') as (r & R1 & R2 & R3); [lia|]. exists s, r. csplit; auto.
Qed.
End Tsp.

(** ** the programs with depot 0.  [junk]: the undefined value that the bound of the root uses *)
Section Tour.
Variables (n hi : Z) (ds : list Z) (junk : Z).
Hypothesis Hn : (1 <= n <= 2147483647)%Z.
Hypothesis HC : cells_ok n hi ds.
Notation nv := (Z.to_nat n).
Notation d := (cell nv ds).
Hypothesis HJ : forall t, round_trip nv t -> (junk <= trip_length d t)%Z.
Context {St : Type} (P : prob St) (size : nat).
Hypothesis TP : tprogram nv d junk P size.
Variables (srt : dd St -> list nat -> list nat) (dfuel w : nat) (lim : nat -> bool).
Hypothesis Hsrt : forall dd l, Permutation (srt dd l) l.
Hypothesis Hdf : nv < dfuel.
Hypothesis Hw : (N.of_nat w < 4294967296)%N.
Lemma tour_one : 1 <= nv.
Proof. lia. Qed.
Let H1 := tour_one.
Lemma tour_small : (Z.of_nat nv <= 2147483647)%Z.
Proof. lia. Qed.
Let HS := tour_small.
Let FT : fits nv d := cells_fits n hi ds HC (proj1 Hn).
Let CL := cells_le n hi ds HC (proj1 Hn).
Lemma tour0_trip l : tour0 nv l -> exists r, l = r ++ [0] /\ round_trip nv (0 :: r) /\ walk d 0 l = trip_length d (0 :: r).
Proof. intros (r & -> & ND & A). destruct (trip_back nv 0 r ND A H1) as [R W]. exists r. csplit; auto. Qed.
Lemma low0 l : tour0 nv l -> (- 2147483647 <= walk d 0 l)%Z.
Proof. intros H. apply tour0_trip in H as (r & _ & R & ->). pose proof (trip_nonneg nv d hi _ CL R). lia. Qed.
Lemma junk0 : jlow nv d junk.
Proof. intros l H. apply tour0_trip in H as (r & _ & R & ->). auto. Qed.
Lemma tour_ends fuel : size + 1 <= fuel -> exists s e, search P srt dfuel lim fuel w None = Ok (s, e).
Proof. apply (tp_total nv d junk H1 HS P size TP srt dfuel w lim FT junk0 Hsrt Hdf Hw). Qed.
Lemma tour_found fuel s e : search P srt dfuel lim fuel w None = Ok (s, e) -> b_primal (s_b s) <> 2147483647%Z ->
  exists r, round_trip nv (0 :: r) /\ b_inc (s_b s) = map Z.of_nat (r ++ [0]) /\ b_primal (s_b s) = trip_length d (0 :: r).
Proof.
  intros E N. destruct (tp_genuine nv d junk H1 HS P size TP srt dfuel w lim FT junk0 Hsrt Hdf Hw fuel s e E) as [_ G]. destruct (G N) as (l & T & E1 & E2).
  apply tour0_trip in T as (r & -> & R & W). exists r. csplit; auto. congruence.
Qed.
Lemma tour_best fuel : lim 0 = false -> 1 <= fuel -> size <= w ->
  exists s r, search P srt dfuel lim fuel w None = Ok (s, Emptied) /\ round_trip nv (0 :: r) /\ b_inc (s_b s) = map Z.of_nat (r ++ [0]) /\
    b_primal (s_b s) = trip_length d (0 :: r) /\ forall t', round_trip nv t' -> (b_primal (s_b s) <= trip_length d t')%Z.
Proof.
  intros L0 F Wd. destruct (tp_wide nv d junk H1 HS P size TP srt dfuel w lim FT junk0 Hsrt Hdf Hw low0 fuel L0) as (s & E & _ & B); auto.
  { intros k l ND H. pose proof (tp_narrow nv d junk H1 HS P size TP k l ND H). lia. }
  assert (Best : forall t', round_trip nv t' -> (b_primal (s_b s) <= trip_length d t')%Z).
  { intros t' Ht'. destruct (trip_from nv 0 t' Ht' H1) as (u & U1 & U2 & U3). rewrite U3. apply B. exists u. auto. }
  assert (Q : (b_primal (s_b s) < 2147483647)%Z).
  { pose proof (Best _ (trip_ex nv)) as X. destruct (trip_from nv 0 _ (trip_ex nv) H1) as (u & U1 & U2 & U3). rewrite U3 in X.
    assert (walk d 0%nat (u ++ [0%nat]) < 2147483647)%Z; [|lia]. apply FT; [lia| |].
    - apply Forall_forall. intros x Hx. apply in_app_or in Hx as [Hx|[<-|[]]]; [now apply U2|lia].
    - rewrite app_length. cbn. assert (length (0 :: u) <= length (seq 0 nv)); [|rewrite seq_length in *; cbn in *; lia].
      apply NoDup_incl_length; [constructor; auto; rewrite U2; tauto|]. intros x [<-|Hx]; apply in_seq; [lia|]. apply U2 in Hx. lia. }
  destruct (tour_found fuel s Emptied E) as (r & R1 & R2 & R3); [lia|]. exists s, r. csplit; auto.
Qed.
End Tour.

(** ** from the file *)
Lemma hops_ext n d1 d2 f : (forall i j, i < n -> j < n -> d1 i j = d2 i j) -> f < n -> forall t, Forall (fun c => c < n) t -> hops d1 f t = hops d2 f t.
Proof.
  intros H Hf. induction t as [|a [|b t] IH]; intros F; [reflexivity| |].
  - inversion F; subst. cbn. auto.
  - inversion F as [|? ? Fa Fr]; subst. inversion Fr; subst. change (d1 a b + hops d1 f (b :: t) = d2 a b + hops d2 f (b :: t))%Z. rewrite (H a b), IH; auto.
Qed.
Lemma trip_ext n d1 d2 t : (forall i j, i < n -> j < n -> d1 i j = d2 i j) -> round_trip n t -> trip_length d1 t = trip_length d2 t.
Proof.
  intros H [_ A]. destruct t as [|a t]; [reflexivity|]. unfold trip_length. apply (hops_ext n); auto; [apply A; now left|]. apply Forall_forall. intros c Hc. now apply A.
Qed.
Section File.
Variables (n hi : Z) (junk : Z) (size : nat -> nat).
Hypothesis Hn : (1 <= n <= 2147483647)%Z.
Notation nv := (Z.to_nat n).
Context {St : Type} (prog : nat -> (nat -> nat -> Z) -> prob St).
Hypothesis TP : forall k d, tprogram k d junk (prog k d) (size k).
Variables (srt : dd St -> list nat -> list nat) (dfuel w : nat) (lim : nat -> bool) (rfuel : nat).
Hypothesis Hsrt : forall dd l, Permutation (srt dd l) l.
Hypothesis Hdf : nv < dfuel.
Hypothesis Hw : (N.of_nat w < 4294967296)%N.

(** what is reported for a matrix, when the program is the search on it *)
Definition good_run (run : nat -> res (@sst St * ending)) (d : nat -> nat -> Z) : Prop :=
  (forall fuel, size nv + 1 <= fuel -> exists s e, run fuel = Ok (s, e)) /\
  (forall fuel s e, run fuel = Ok (s, e) -> b_primal (s_b s) <> 2147483647%Z ->
    exists r, round_trip nv (0 :: r) /\ b_inc (s_b s) = map Z.of_nat (r ++ [0]) /\ b_primal (s_b s) = trip_length d (0 :: r)) /\
  (forall fuel, lim 0 = false -> 1 <= fuel -> size nv <= w -> exists s, run fuel = Ok (s, Emptied) /\
    (exists r, round_trip nv (0 :: r) /\ b_inc (s_b s) = map Z.of_nat (r ++ [0]) /\ b_primal (s_b s) = trip_length d (0 :: r)) /\
    forall t', round_trip nv t' -> (b_primal (s_b s) <= trip_length d t')%Z).
Lemma good_matrix ds : cells_ok n hi ds -> (forall t, round_trip nv t -> junk <= trip_length (cell nv ds) t)%Z ->
  good_run (fun fuel => search (prog nv (cell nv ds)) srt dfuel lim fuel w None) (cell nv ds).
Proof.
  intros C J. unfold good_run. csplit.
  - intros fuel F. eapply (tour_ends n hi ds junk); eauto.
  - intros fuel s e. eapply (tour_found n hi ds junk); eauto.
  - intros fuel L0 F Wd. destruct (tour_best n hi ds junk Hn C J (prog nv (cell nv ds)) (size nv) (TP _ _) srt dfuel w lim Hsrt Hdf Hw fuel L0 F Wd) as (s & r & E & R1 & R2 & R3 & B).
    exists s. csplit; auto. exists r. auto.
Qed.
Lemma good_tsp ds t : tsp_file n ds rfuel t -> cells_ok n hi ds -> (forall t, round_trip nv t -> junk <= trip_length (full_entry nv ds) t)%Z ->
  good_run (fun fuel => main_tsp srt dfuel lim fuel w prog rfuel (Some t)) (full_entry nv ds).
Proof.
  intros HF C J. pose proof (good_matrix ds C J) as G. unfold good_run, main_tsp in *.
  assert (E : readTsp rfuel (Some t) = Ok (mkT n ds)). { assert (n <= size_max)%Z by (unfold size_max; lia). destruct HF as [H0|[H0 L]]; [apply readTsp_old_ok|apply readTsp_ok]; auto; try lia; apply C. }
  rewrite E. cbn [bind t_nv t_d]. exact G.
Qed.
Lemma good_tsp4 ds t : tsplib4 n WFull ds t -> length t < rfuel -> cells_ok n hi ds -> (forall t, round_trip nv t -> junk <= trip_length (full_entry nv ds) t)%Z ->
  good_run (fun fuel => main_tsp4 srt dfuel lim fuel w prog rfuel (Some t)) (full_entry nv ds).
Proof.
  intros HF L C J. pose proof (good_matrix ds C J) as G. unfold good_run, main_tsp4 in *.
  assert (E : readTsp4 rfuel (Some t) = Ok (mkT n ds)) by (apply readTsp4_full; auto; [unfold size_max; lia|apply C]). rewrite E. cbn [bind t_nv t_d]. exact G.
Qed.
Lemma good_tsp4_low ds t : tsplib4 n WLowerDiag ds t -> length t < rfuel -> Z.of_nat (length ds) = (n * (n + 1) / 2)%Z -> Forall (fun x => 0 <= x <= hi)%Z ds -> (n * hi < 2147483647)%Z ->
  (forall t, round_trip nv t -> junk <= trip_length (low_entry ds) t)%Z ->
  good_run (fun fuel => main_tsp4 srt dfuel lim fuel w prog rfuel (Some t)) (low_entry ds).
Proof.
  intros HF L Hl F Hhi J. destruct (readTsp4_lower n ds t rfuel HF) as (m & E & Lm & Em); auto; [unfold size_max; lia|].
  assert (EX : forall i j, i < nv -> j < nv -> cell nv m i j = low_entry ds i j).
  { intros i j Hi Hj. unfold cell, low_entry. destruct (Nat.le_ge_cases j i).
    - rewrite Nat.max_l, Nat.min_r by auto. now apply Em.
    - rewrite Nat.max_r, Nat.min_l by auto. now apply Em. }
  assert (TX : forall t, round_trip nv t -> trip_length (cell nv m) t = trip_length (low_entry ds) t) by (intros; now apply (trip_ext nv)).
  assert (C : cells_ok n hi m).
  { split; [nia|]. split; auto. apply Forall_forall. intros x Hx. destruct (In_nth m x 0%Z Hx) as (k & Hk & <-). rewrite Lm in Hk.
    assert (Hnv : nv <> 0) by lia. pose proof (Nat.div_mod k nv Hnv) as DM. pose proof (Nat.mod_upper_bound k nv Hnv) as MB.
    assert (DB : k / nv < nv) by (apply Nat.div_lt_upper_bound; auto). replace k with (k / nv * nv + k mod nv) by lia.
    change (0 <= cell nv m (k / nv) (k mod nv) <= hi)%Z. rewrite EX by auto. unfold low_entry. apply (proj1 (Forall_forall _ _) F). apply nth_In.
    set (a := Nat.max (k / nv) (k mod nv)). set (b := Nat.min (k / nv) (k mod nv)). assert (a < nv) by (unfold a; lia). assert (b <= a) by (unfold a, b; lia).
    assert (H2 : length ds = nv * (nv + 1) / 2). { apply Nat2Z.inj. rewrite Hl, Nat2Z.inj_div, Nat2Z.inj_mul, Nat2Z.inj_add. rewrite Z2Nat.id by lia. reflexivity. }
    rewrite H2. assert (HS : S a * (S a + 1) / 2 = a * (a + 1) / 2 + S a) by apply half_S.
    assert (S a * (S a + 1) / 2 <= nv * (nv + 1) / 2) by (apply Nat.div_le_mono; [lia|nia]). lia. }
  assert (J' : forall t, round_trip nv t -> (junk <= trip_length (cell nv m) t)%Z) by (intros t0 H0; rewrite TX; auto).
  destruct (good_matrix m C J') as (G1 & G2 & G3). unfold good_run, main_tsp4. rewrite E. cbn [bind t_nv t_d]. csplit; auto.
  - intros fuel s e E0 N. destruct (G2 fuel s e E0 N) as (r & R1 & R2 & R3). exists r. csplit; auto. now rewrite <- TX.
  - intros fuel L0 F0 Wd. destruct (G3 fuel L0 F0 Wd) as (s & E0 & (r & R1 & R2 & R3) & B). exists s. csplit; auto.
    + exists r. csplit; auto. now rewrite <- TX.
    + intros t' Ht'. rewrite <- TX; auto.
Qed.
End File.
