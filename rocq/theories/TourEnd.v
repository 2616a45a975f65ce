(** The TSP examples with depot 0: the statements for all four programs, and concrete runs. *)
From Verif Require Import Base DDModel DDSpec DDFrame DDMerge DDExact DDWide DDExamples SearchModel SearchProofs SearchEx TspModel TspSpec TspProofs TourModel TourSpec TourBound TourProofs TourTop TourRoot.

Section End.
Variables (nv : nat) (d : nat -> nat -> Z) (junk : Z).
Hypothesis Hnv : 1 <= nv.
Hypothesis Small : (Z.of_nat nv <= 2147483647)%Z.
Context {St : Type} (P : prob St) (size : nat).
Hypothesis TP : tprogram nv d junk P size.
Ltac shape := destruct (tp_shape nv d junk P size Hnv Small TP) as (live & exact & sup & av & ev & hv & fr & stp & lb & all & SH & LB & LA).
(** what the undefined bound of the root yields is not more than any tour *)
Definition jlow : Prop := forall l, tour0 nv l -> (junk <= walk d 0 l)%Z.
Lemma tp_solutions ls v : path P (p_init P) ls v (p_target P) <-> exists l, tour0 nv l /\ ls = map Z.of_nat l /\ v = walk d 0 l.
Proof. shape. eapply t_solutions; eauto. Qed.
Lemma tp_valid : jlow -> exists I rank, I (p_init P) /\ valid_model P I rank (nv - 1).
Proof. intros J. shape. exists (tinv P live), hv. split; [left; apply (ts_live0 _ _ _ _ _ _ _ _ _ _ _ _ _ _ SH)|]. eapply t_valid; eauto. Qed.
Lemma tp_narrow : narrow P (p_init P) size.
Proof.
  shape. intros k l ND H. rewrite <- LA. apply NoDup_incl_length; auto. intros x Hx. apply H in Hx as (Nt & ls & v & Hp & _).
  assert (Ix : tinv P live x) by (eapply path_closed; [eapply t_closed; eauto|left; apply (ts_live0 _ _ _ _ _ _ _ _ _ _ _ _ _ _ SH)|exact Hp]).
  destruct Ix as [L|E]; [|congruence]. now apply (ts_all _ _ _ _ _ _ _ _ _ _ _ _ _ _ SH).
Qed.
Section Search.
Variables (srt : dd St -> list nat -> list nat) (dfuel mxw : nat) (lim : nat -> bool).
Hypothesis FT : fits nv d.
Hypothesis J : jlow.
Hypothesis Hsrt : forall dd l, Permutation (srt dd l) l.
Hypothesis Hfuel : nv < dfuel.
Hypothesis Hmxw : (N.of_nat mxw < 4294967296)%N.
Lemma tp_total fuel : size + 1 <= fuel -> exists s e, search P srt dfuel lim fuel mxw None = Ok (s, e).
Proof. intros F. shape. eapply t_search_total; eauto. lia. Qed.
Lemma tp_genuine fuel s e : search P srt dfuel lim fuel mxw None = Ok (s, e) ->
  (forall lab, In lab (b_log (s_b s)) -> exists l, tour0 nv l /\ lab = map Z.of_nat l) /\
  (b_primal (s_b s) <> 2147483647%Z -> exists l, tour0 nv l /\ b_inc (s_b s) = map Z.of_nat l /\ b_primal (s_b s) = walk d 0 l).
Proof. intros E. shape. eapply t_search_genuine; eauto. Qed.
Hypothesis Low : forall l, tour0 nv l -> (- 2147483647 <= walk d 0 l)%Z.
Lemma tp_optimal fuel s : search P srt dfuel lim fuel mxw None = Ok (s, Emptied) -> s_seen s = 0 -> hist_ok P s ->
  forall l, tour0 nv l -> (b_primal (s_b s) <= walk d 0 l)%Z.
Proof. intros E S H. shape. eapply t_search_optimal; eauto. Qed.
Lemma tp_wide fuel : lim 0 = false -> narrow P (p_init P) mxw -> 1 <= fuel ->
  exists s, search P srt dfuel lim fuel mxw None = Ok (s, Emptied) /\ s_ttl s = 1 /\ forall l, tour0 nv l -> (b_primal (s_b s) <= walk d 0 l)%Z.
Proof. intros L0 Nw F. shape. eapply t_search_wide; eauto. Qed.
End Search.
End End.

(** ** the bounds in terms of tours *)
(** [A]: cities on every partial tour that was merged into the state; the depot and the last city are among them, and no city outside [pre] *)
Definition stands_for (A : N) (pre : list nat) : Prop :=
  bmem A 0 = true /\ bmem A (last pre 0) = true /\ forall c, bmem A c = true -> c = 0 \/ In c pre.
Lemma app_home nv pre post : tour0 nv (pre ++ post ++ [0]) -> NoDup (pre ++ post) /\ (forall c, In c (pre ++ post) <-> c < nv /\ c <> 0).
Proof. rewrite app_assoc. intros (t & E & N & A). apply app_inj_tail in E as [-> _]. auto. Qed.
Lemma nodup_parts {A} (a b : list A) : NoDup (a ++ b) -> NoDup b /\ forall x, In x a -> ~ In x b.
Proof.
  induction a as [|x a IH]; cbn; intros H; [split; auto; intros x []|]. inversion H as [|? ? H1 H2]; subst. destruct (IH H2) as [I1 I2]. split; auto.
  intros y [<-|Hy]; [intros Q; apply H1, in_or_app; auto|now apply I2].
Qed.
Lemma last_in (x : nat) pre : pre <> [] -> In (last pre x) pre.
Proof. induction pre as [|a pre IH]; [congruence|]. intros _. destruct pre; [now left|right]. apply IH. discriminate. Qed.
Lemma tour_state nv A pre post : 1 <= nv -> pre <> [] -> tour0 nv (pre ++ post ++ [0]) -> stands_for A pre ->
  here nv A (last pre 0) (length pre) /\ home nv A (length pre) post /\ 0 < length pre.
Proof.
  intros Hnv Np T (S1 & S2 & S3). destruct (app_home nv pre post T) as [N C]. pose proof (tour_len nv Hnv (pre ++ post) N C) as TL. rewrite app_length in TL.
  destruct (nodup_parts pre post N) as [N2 D]. pose proof (last_in 0 pre Np) as LI.
  assert (Pc : forall c, In c pre -> c < nv /\ c <> 0) by (intros c Hc; apply C, in_or_app; auto).
  assert (0 < length pre) by (destruct pre; [congruence|cbn; lia]). csplit; auto.
  - constructor; auto.
    + intros c Hc. apply S3 in Hc as [->|Hc]; [lia|]. apply Pc in Hc. tauto.
    + lia.
    + split; [|lia]. intros E. apply Pc in LI. lia.
    + replace (length pre + 1) with (length (0 :: pre)) by (cbn; lia). apply NoDup_incl_length; [apply nodup_blist|]. intros c Hc. apply in_blist in Hc as [_ Hc].
      apply S3 in Hc as [->|Hc]; [now left|now right].
  - constructor; auto.
    + intros c Hc. apply C, in_or_app. auto.
    + intros c Hc. destruct (bmem A c) eqn:B; auto. apply S3 in B as [->|B]; [|exfalso; eapply D; eauto]. exfalso. assert (0 < nv /\ 0 <> 0) by (apply C, in_or_app; auto). lia.
    + lia.
Qed.
Lemma greedy_bound nv d inf A pre post : 1 <= nv -> pre <> [] -> tour0 nv (pre ++ post ++ [0]) -> stands_for A pre ->
  exists v, greedy nv d inf A (last pre 0) (length pre) = Ok v /\ (v <= walk d (last pre 0%nat) (post ++ [0%nat]))%Z.
Proof.
  intros Hnv Np T S. destruct (tour_state nv A pre post Hnv Np T S) as (H & HM & L). destruct (greedy_ok nv d Hnv inf _ _ _ H L) as (v & E & B). exists v. auto.
Qed.
Lemma mst_bound nv d guard A pre post : 1 <= nv -> (Z.of_nat nv <= 2147483647)%Z -> pre <> [] -> tour0 nv (pre ++ post ++ [0]) -> stands_for A pre ->
  exists v, mst nv d guard A (last pre 0) (length pre) = Ok v /\ (v <= walk d (last pre 0%nat) (post ++ [0%nat]))%Z.
Proof.
  intros Hnv Sm Np T S. destruct (tour_state nv A pre post Hnv Np T S) as (H & HM & L). destruct (mst_ok nv d Hnv Sm guard _ _ _ H L) as (v & E & B). exists v. auto.
Qed.

(** ** the component lb *)
Record forgets {T} (P : prob T) (Q : prob (withlb T)) : Prop := {
  fg_init : lb_t _ (p_init Q) = p_init P;
  fg_target : lb_t _ (p_target Q) = p_target P;
  fg_labels : forall s, p_labels Q s = p_labels P (lb_t _ s);
  fg_stf : forall s l, option_map (lb_t _) (p_stf Q s l) = p_stf P (lb_t _ s) l;
  fg_cost : forall s l, p_cost Q s l = p_cost P (lb_t _ s) l;
  fg_smf : forall a b, option_map (lb_t _) (p_smf Q a b) = p_smf P (lb_t _ a) (lb_t _ b);
  fg_eqs : forall s, p_eqs Q s = p_eqs P (lb_t _ s);
  fg_eqb : forall a b, p_eqb Q a b = p_eqb P (lb_t _ a) (lb_t _ b);
  fg_local : forall f g s c, p_local P = Some f -> p_local Q = Some g -> g s c = f (lb_t _ s) c }.
Lemma t2_forgets nv d junk : forgets (t2_prob nv d junk) (t2_full nv d junk).
Proof.
  constructor; try reflexivity.
  - intros s l. cbn. unfold l2_stf, tz_stf. destruct (l =? 0)%Z; reflexivity.
  - intros a b. cbn. unfold l2_smf, tz_smf. destruct (_ =? _); [|reflexivity]. destruct (_ =? _); reflexivity.
  - intros f g s c [= <-] [= <-]. reflexivity.
Qed.
Lemma t3_forgets nv d junk : forgets (t3_probj nv d junk) (t3_full nv d junk).
Proof.
  constructor; try reflexivity.
  - intros s l. cbn. unfold l3_stf, t3_stf. destruct (l =? 0)%Z; reflexivity.
  - intros a b. cbn. unfold l3_smf, t3_smf. destruct (_ =? _); [|reflexivity]. destruct (_ =? _); reflexivity.
  - intros f g s c [= <-] [= <-]. reflexivity.
Qed.

(** ** concrete runs *)
Definition mdist (m : list (list Z)) (a b : nat) : Z := nth b (nth a m []) 0%Z.
(** all four programs are right on this one *)
Definition dA : nat -> nat -> Z := mdist [[0; 9; 9; 6; 6]; [9; 0; 2; 9; 9]; [9; 2; 0; 2; 5]; [6; 9; 2; 0; 8]; [6; 9; 5; 8; 0]]%Z.
(** all four miss the shortest tour of this one, with width 1: no node is refused as seen, but a relaxed diagram has an improving edge straight to the target *)
Definition dC : nat -> nat -> Z := mdist [[0; 4; 26; 15; 29]; [29; 0; 12; 18; 16]; [21; 25; 0; 16; 13]; [4; 10; 25; 0; 16]; [8; 26; 3; 29; 0]]%Z.
Notation trun P w := (search P (exSrt P) 40 nolim 400 w None).

Lemma mdist_le m k : (0 <= k)%Z -> Forall (Forall (fun x => 0 <= x <= k)%Z) m -> forall a b, (0 <= mdist m a b <= k)%Z.
Proof.
  intros K F a b. unfold mdist. destruct (nth_in_or_default b (nth a m []) 0%Z) as [H| ->]; [|lia].
  destruct (nth_in_or_default a m []) as [H'|E]; [|rewrite E in H; destruct H]. rewrite Forall_forall in F. apply F in H'. rewrite Forall_forall in H'. now apply H'.
Qed.
Lemma mdist_walk m k : (0 <= k)%Z -> Forall (Forall (fun x => 0 <= x <= k)%Z) m -> forall l a, (0 <= walk (mdist m) a l <= k * Z.of_nat (length l))%Z.
Proof. intros K F. induction l as [|b l IH]; intros a; cbn [walk length]; [lia|]. pose proof (mdist_le m k K F a b). specialize (IH b). lia. Qed.
Lemma mdist_fits nv m k : (0 <= k <= 100)%Z -> nv <= 1000 -> Forall (Forall (fun x => 0 <= x <= k)%Z) m -> fits nv (mdist m).
Proof. intros K N F a l _ _ L. pose proof (mdist_walk m k ltac:(lia) F l a). nia. Qed.
Ltac entries := repeat (constructor; [repeat (constructor; [lia|]); constructor|]); constructor.
Lemma dA_fits : fits 5 dA. Proof. apply (mdist_fits _ _ 30); [lia|lia|entries]. Qed.
Lemma dC_fits : fits 5 dC. Proof. apply (mdist_fits _ _ 30); [lia|lia|entries]. Qed.
Lemma dA_low l a : (0 <= walk dA a l)%Z. Proof. apply (mdist_walk _ 30); [lia|entries]. Qed.
Lemma dC_low l a : (0 <= walk dC a l)%Z. Proof. apply (mdist_walk _ 30); [lia|entries]. Qed.

Lemma tsp_eqb_refl s : tsp_eqb s s = true.
Proof. now apply tsp_eqb_eq. Qed.
Lemma tsp3_eqb_refl s : tsp3_eqb s s = true.
Proof. unfold tsp3_eqb. now rewrite !N.eqb_refl, !Nat.eqb_refl. Qed.

Ltac is_tour l := exists l; csplit; [reflexivity|repeat constructor; cbn; lia|intros c; cbn; lia].
Lemma dC_tour : tour0 5 [1; 4; 2; 3; 0] /\ walk dC 0 [1; 4; 2; 3; 0] = 43%Z.
Proof. split; [is_tour [1; 4; 2; 3]|reflexivity]. Qed.
Lemma dA_tour : tour0 5 [3; 2; 1; 4; 0] /\ walk dA 0 [3; 2; 1; 4; 0] = 25%Z.
Proof. split; [is_tour [3; 2; 1; 4]|reflexivity]. Qed.

(** every program misses the shortest tour *)
Lemma t_misses : (forall St (P : prob St) n, tprogram 5 dC 0 P n -> exists s, trun P 1 = Ok (s, Emptied) /\ b_primal (s_b s) = 56%Z /\ s_seen s = 0) /\
  tour0 5 [1; 4; 2; 3; 0] /\ walk dC 0 [1; 4; 2; 3; 0] = 43%Z.
Proof.
  split; [|exact dC_tour]. intros St P n [].
  - destruct (so_inv (t2_prob 5 dC 0) (trun (t2_prob 5 dC 0) 1) (mkObs 56 [1; 2; 3; 4; 0] [[1; 2; 3; 4; 0]] 5 0 0 0 false 3 false false None)%Z)
      as (s & H & H1 & _ & _ & _ & H5 & _); [exact tsp_eqb_refl|vm_compute; reflexivity|]. exists s. auto.
  - destruct (so_inv (t3_probj 5 dC 0) (trun (t3_probj 5 dC 0) 1) (mkObs 56 [1; 2; 3; 4; 0] [[1; 2; 3; 4; 0]] 4 0 0 0 false 2 false false None)%Z)
      as (s & H & H1 & _ & _ & _ & H5 & _); [exact tsp3_eqb_refl|vm_compute; reflexivity|]. exists s. auto.
  - destruct (so_inv (t4_prob 5 dC 0) (trun (t4_prob 5 dC 0) 1) (mkObs 56 [1; 2; 3; 4; 0] [[1; 2; 3; 4; 0]] 4 0 0 0 false 2 false false None)%Z)
      as (s & H & H1 & _ & _ & _ & H5 & _); [exact tsp_eqb_refl|vm_compute; reflexivity|]. exists s. auto.
  - destruct (so_inv (tw_prob 5 dC 0) (trun (tw_prob 5 dC 0) 1) (mkObs 56 [1; 2; 3; 4; 0] [[1; 2; 3; 4; 0]] 4 0 0 0 false 2 false false None)%Z)
      as (s & H & H1 & _ & _ & _ & H5 & _); [exact tsp_eqb_refl|vm_compute; reflexivity|]. exists s. auto.
Qed.

(** a run that meets every hypothesis *)
Lemma t_right : forall St (P : prob St) n, tprogram 5 dA 0 P n ->
  exists s, trun P 1 = Ok (s, Emptied) /\ b_primal (s_b s) = 25%Z /\ s_seen s = 0 /\ hist_ok P s /\ 4 < s_ttl s.
Proof.
  intros St P n [].
  - destruct (so_inv (t2_prob 5 dA 0) (trun (t2_prob 5 dA 0) 1) (mkObs 25 [3; 2; 1; 4; 0] [[3; 2; 1; 4; 0]; [1; 2; 3; 4; 0]] 5 0 0 0 false 1 false true None)%Z)
      as (s & H & H1 & _ & _ & H4 & H5 & _ & _ & _ & _ & _ & H11); [exact tsp_eqb_refl|vm_compute; reflexivity|]. exists s. csplit; auto. rewrite H4. cbn. lia.
  - destruct (so_inv (t3_probj 5 dA 0) (trun (t3_probj 5 dA 0) 1) (mkObs 25 [3; 2; 1; 4; 0] [[3; 2; 1; 4; 0]; [1; 2; 3; 4; 0]] 6 0 0 0 false 2 false true None)%Z)
      as (s & H & H1 & _ & _ & H4 & H5 & _ & _ & _ & _ & _ & H11); [exact tsp3_eqb_refl|vm_compute; reflexivity|]. exists s. csplit; auto. rewrite H4. cbn. lia.
  - destruct (so_inv (t4_prob 5 dA 0) (trun (t4_prob 5 dA 0) 1) (mkObs 25 [3; 2; 1; 4; 0] [[3; 2; 1; 4; 0]; [1; 2; 3; 4; 0]] 5 0 0 0 false 1 false true None)%Z)
      as (s & H & H1 & _ & _ & H4 & H5 & _ & _ & _ & _ & _ & H11); [exact tsp_eqb_refl|vm_compute; reflexivity|]. exists s. csplit; auto. rewrite H4. cbn. lia.
  - destruct (so_inv (tw_prob 5 dA 0) (trun (tw_prob 5 dA 0) 1) (mkObs 25 [3; 2; 1; 4; 0] [[3; 2; 1; 4; 0]; [1; 2; 3; 4; 0]] 6 0 0 0 false 2 false true None)%Z)
      as (s & H & H1 & _ & _ & H4 & H5 & _ & _ & _ & _ & _ & H11); [exact tsp_eqb_refl|vm_compute; reflexivity|]. exists s. csplit; auto. rewrite H4. cbn. lia.
Qed.

