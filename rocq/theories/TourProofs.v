(** The TSP examples with depot 0: their solutions are the tours, merged states relax both states, and the local bounds are valid. *)
From Verif Require Import Base DDModel DDSpec DDFrame DDMerge DDExact DDWide SearchModel SearchProofs TspModel TspSpec TspProofs TourModel TourSpec TourBound.

(** ** what the four programs have in common *)
Section Gen.
Context {St : Type}.
Variables (nv : nat) (d : nat -> nat -> Z) (P : prob St).
Variables (live exact : St -> Prop) (sup : St -> St -> Prop) (av : St -> N) (ev hv : St -> nat) (fr : St -> nat -> Prop) (stp : St -> nat -> St).
Variables (lb : N -> nat -> nat -> res Z) (junk : Z) (all : list St).
Record tshape : Prop := {
  ts_min : p_min P = true;
  ts_sdom : p_sdom P = None;
  ts_local : p_local P = Some (fun s _ => or_junk junk (lb (av s) (ev s) (hv s)));
  ts_eqb : forall a b, p_eqb P a b = true <-> a = b;
  ts_eqs : forall s, live s -> p_eqs P s = false;
  ts_eqt : p_eqs P (p_target P) = true;
  ts_here : forall s, live s -> here nv (av s) (ev s) (hv s);
  ts_hvt : hv (p_target P) = nv;
  ts_live0 : live (p_init P);
  ts_exact0 : exact (p_init P);
  ts_ev0 : ev (p_init P) = 0;
  ts_hv0 : hv (p_init P) = 0;
  ts_fr0 : forall c, c <> 0 -> fr (p_init P) c;
  ts_labels : forall s l, live s -> (In l (p_labels P s) <->
    (hv s = nv - 1 /\ l = 0%Z) \/ (hv s < nv - 1 /\ exists c, l = Z.of_nat c /\ c < nv /\ fr s c));
  ts_fr : forall s c, live s -> fr s c -> bmem (av s) c = false;
  ts_stf0 : forall s, p_stf P s 0 = Some (p_target P);
  ts_stfc : forall s c, c <> 0 -> p_stf P s (Z.of_nat c) = Some (stp s c);
  ts_stp : forall s c, live s -> hv s < nv - 1 -> c < nv -> fr s c ->
    live (stp s c) /\ ev (stp s c) = c /\ hv (stp s c) = S (hv s) /\ forall x, fr (stp s c) x -> fr s x /\ x <> c;
  ts_exact : forall s c, exact s -> live s -> hv s < nv - 1 -> c < nv -> fr s c -> exact (stp s c) /\ forall x, fr s x -> x <> c -> fr (stp s c) x;
  ts_cost : forall s l, p_cost P s l = d (ev s) (Z.to_nat l);
  ts_sup : forall m s, live m -> live s -> sup m s -> ev m = ev s /\ hv m = hv s /\
    forall c, hv s < nv - 1 -> c < nv -> fr s c -> fr m c /\ sup (stp m c) (stp s c);
  ts_smf : forall a b m, live a -> live b -> p_smf P a b = Some m -> live m /\ hv m = hv a /\ sup m a /\ sup m b;
  ts_all : forall s, live s -> In s all }.
(** the bound: undefined at the root, valid elsewhere *)
Record lbound : Prop := {
  lb_root : forall A e, exists x, lb A e 0 = Err x;
  lb_home : forall A e, lb A e nv = Ok 0%Z;
  lb_ok : forall A e h, here nv A e h -> 0 < h -> exists v, lb A e h = Ok v /\ forall post, home nv A h post -> (v <= walk d e (post ++ [0%nat]))%Z }.

Hypothesis Hnv : 1 <= nv.
Hypothesis SH : tshape.
Definition tinv (s : St) : Prop := live s \/ s = p_target P.
Lemma live_nt s : live s -> s <> p_target P.
Proof. intros L ->. apply (ts_here SH) in L. pose proof (hr_h _ _ _ _ L). rewrite (ts_hvt SH) in H. lia. Qed.
Lemma tsplit s : tinv s -> s <> p_target P -> live s.
Proof. intros [?|?]; tauto. Qed.
Lemma fr_n0 s c : live s -> fr s c -> c <> 0.
Proof. intros L F ->. apply (ts_fr SH) in F; auto. apply (ts_here SH) in L. rewrite (hr_0 _ _ _ _ L) in F. discriminate. Qed.
Lemma stf_cases s l s' : live s -> In l (p_labels P s) -> p_stf P s l = Some s' ->
  (hv s = nv - 1 /\ l = 0%Z /\ s' = p_target P) \/ (hv s < nv - 1 /\ exists c, l = Z.of_nat c /\ c < nv /\ fr s c /\ s' = stp s c).
Proof.
  intros L Hl E. apply (ts_labels SH) in Hl; auto. destruct Hl as [[H ->]|(H & c & -> & C1 & C2)].
  - left. rewrite (ts_stf0 SH) in E. injection E as <-. auto.
  - right. split; auto. rewrite (ts_stfc SH) in E by (eapply fr_n0; eauto). injection E as <-. exists c. auto.
Qed.
Lemma t_closed : closed P tinv.
Proof.
  constructor.
  - intros a b _ _. apply (ts_eqb SH).
  - intros s [L| ->]; split; auto; try (intros; apply (ts_eqt SH)).
    + rewrite (ts_eqs SH s L). discriminate.
    + intros ->. now apply live_nt in L.
  - now right.
  - intros s l s' Is N Hl E. apply tsplit in Is; auto. destruct (stf_cases s l s' Is Hl E) as [(_ & _ & ->)|(H & c & _ & C1 & C2 & ->)]; [now right|left].
    now apply (ts_stp SH).
Qed.
Lemma t_layered : layered P tinv hv.
Proof.
  intros s l s' Is N Hl E N'. apply tsplit in Is; auto. destruct (stf_cases s l s' Is Hl E) as [(_ & _ & ->)|(H & c & _ & C1 & C2 & ->)]; [congruence|].
  now apply (ts_stp SH).
Qed.
Lemma t_depth : depth_le P tinv hv (nv - 1).
Proof. intros s Is N. apply tsplit in Is; auto. apply (ts_here SH) in Is. apply (hr_h _ _ _ _ Is). Qed.

(** completions *)
Lemma t_mono : forall ls m s v, live m -> live s -> sup m s -> path P s ls v (p_target P) -> path P m ls v (p_target P).
Proof.
  induction ls as [|l ls IH]; intros m s v Lm Ls S H; inversion H as [|s0 l0 s1 ls0 v0 t0 HN HL HS HP]; subst; [now apply live_nt in Ls|].
  destruct (ts_sup SH m s Lm Ls S) as (E1 & E2 & F). assert (EC : p_cost P s l = p_cost P m l) by (rewrite !(ts_cost SH); now rewrite E1). rewrite EC.
  destruct (stf_cases s l s1 Ls HL HS) as [(T1 & -> & ->)|(T1 & c & -> & C1 & C2 & ->)].
  - eapply path_cons; [now apply live_nt| |apply (ts_stf0 SH)|exact HP]. apply (ts_labels SH); auto. left. split; auto. lia.
  - destruct (F c T1 C1 C2) as [F1 F2]. eapply path_cons; [now apply live_nt| |exact (ts_stfc SH m c (fr_n0 s c Ls C2))|].
    + apply (ts_labels SH); auto. right. split; [lia|]. exists c. auto.
    + eapply IH; [| |exact F2|exact HP]; apply (ts_stp SH); auto. lia.
Qed.
Lemma t_merge_layered : merge_layered P tinv hv.
Proof.
  intros a b m Ia Ib Na Nb R M. apply tsplit in Ia, Ib; auto. destruct (ts_smf SH a b m Ia Ib M) as (L & E & _). csplit; auto; [now left|now apply live_nt].
Qed.
Lemma t_valid_merge : valid_merge P tinv hv.
Proof.
  intros a b m Ia Ib Na Nb R M. apply tsplit in Ia, Ib; auto. destruct (ts_smf SH a b m Ia Ib M) as (L & E & S1 & S2).
  split; intros v [ls H]; exists v; (split; [|apply be_refl]); exists ls; [exact (t_mono ls m a v L Ia S1 H)|exact (t_mono ls m b v L Ib S2 H)].
Qed.
(** completions are ways home *)
Lemma t_sound : forall k s ls v, live s -> nv - 1 - hv s = k -> path P s ls v (p_target P) ->
  exists post, ls = map Z.of_nat (post ++ [0]) /\ home nv (av s) (hv s) post /\ (forall c, In c post -> fr s c) /\ v = walk d (ev s) (post ++ [0]).
Proof.
  induction k as [|k IH]; intros s ls v Ls Ek H; pose proof (hr_h _ _ _ _ (ts_here SH s Ls)) as Hh;
    (inversion H as [|s0 l0 s1 ls0 v0 t0 HN HL HS HP]; subst; [now apply live_nt in Ls|]);
    destruct (stf_cases s l0 s1 Ls HL HS) as [(T1 & -> & ->)|(T1 & c & -> & C1 & C2 & ->)]; try lia.
  - apply path_target in HP as (-> & -> & _). exists []. csplit; auto; try (intros c []).
    + constructor; cbn; [constructor|tauto|tauto|lia].
    + cbn [app walk]. rewrite (ts_cost SH). reflexivity.
  - destruct (ts_stp SH s c Ls T1 C1 C2) as (L1 & E1 & E2 & F1). destruct (IH (stp s c) ls0 v0 L1) as (post & -> & [N1 N2 N3 N4] & F2 & ->); auto; [lia|].
    exists (c :: post). csplit.
    + reflexivity.
    + constructor.
      * constructor; auto. intros Q. apply F2, F1 in Q. tauto.
      * intros x [<-|Hx]; auto.
      * intros x [<-|Hx]; apply (ts_fr SH); auto. apply F1; auto.
      * cbn. rewrite N4, E2. lia.
    + intros x [<-|Hx]; auto. apply F1; auto.
    + cbn [app walk]. rewrite (ts_cost SH), Nat2Z.id, E1. reflexivity.
Qed.
(** at unmerged states every way home is a completion *)
Lemma t_complete : forall post s, live s -> exact s -> NoDup post -> (forall c, In c post -> c < nv /\ fr s c) -> length post = nv - 1 - hv s ->
  path P s (map Z.of_nat (post ++ [0])) (walk d (ev s) (post ++ [0])) (p_target P).
Proof.
  induction post as [|c post IH]; intros s Ls Xs N A E; pose proof (hr_h _ _ _ _ (ts_here SH s Ls)) as Hh; cbn [app map walk]; cbn [length] in E.
  - change (d (ev s) 0) with (d (ev s) (Z.to_nat 0)). rewrite <- (ts_cost SH). eapply path_cons; [now apply live_nt| |apply (ts_stf0 SH)|constructor].
    apply (ts_labels SH); auto. left. split; auto. lia.
  - inversion N as [|? ? N1 N2]; subst. destruct (A c (or_introl eq_refl)) as [C1 C2]. assert (T1 : hv s < nv - 1) by lia.
    destruct (ts_stp SH s c Ls T1 C1 C2) as (L1 & E1 & E2 & F1). destruct (ts_exact SH s c Xs Ls T1 C1 C2) as [X1 F2].
    replace (d (ev s) c) with (p_cost P s (Z.of_nat c)) by (rewrite (ts_cost SH); now rewrite Nat2Z.id).
    eapply path_cons; [now apply live_nt| |exact (ts_stfc SH s c (fr_n0 s c Ls C2))|].
    + apply (ts_labels SH); auto. right. split; auto. exists c. auto.
    + specialize (IH (stp s c) L1 X1 N2). rewrite E1, E2 in IH. apply IH; [|lia]. intros x Hx. destruct (A x (or_intror Hx)). split; auto. apply F2; auto. intros ->. contradiction.
Qed.
Lemma cities : NoDup (seq 1 (nv - 1)) /\ forall c, In c (seq 1 (nv - 1)) <-> c < nv /\ c <> 0.
Proof. split; [apply seq_NoDup|]. intros c. rewrite in_seq. lia. Qed.
Lemma all_cities post : NoDup post -> (forall c, In c post -> c < nv /\ c <> 0) -> length post = nv - 1 -> forall c, In c post <-> c < nv /\ c <> 0.
Proof.
  intros N A E c. split; auto. intros Hc. destruct cities as [_ O]. apply O in Hc. revert c Hc. apply NoDup_length_incl; auto; [rewrite seq_length; lia|].
  intros x Hx. apply O. auto.
Qed.
Lemma tour_len post : NoDup post -> (forall c, In c post <-> c < nv /\ c <> 0) -> length post = nv - 1.
Proof.
  intros N A. destruct cities as [N2 O]. rewrite <- (seq_length (nv - 1) 1). apply Nat.le_antisymm; apply NoDup_incl_length; auto; intros x Hx.
  - apply O, A, Hx.
  - apply A, O, Hx.
Qed.
Lemma home_tour s post : live s -> hv s = 0 -> home nv (av s) (hv s) post -> tour0 nv (post ++ [0]).
Proof.
  intros L H0 [N1 N2 N3 N4]. exists post. csplit; auto. apply all_cities; auto; [|lia]. intros c Hc. split; auto. intros ->. apply N3 in Hc.
  rewrite (hr_0 _ _ _ _ (ts_here SH s L)) in Hc. discriminate.
Qed.
(** the solutions are the tours *)
Lemma t_solutions ls v : path P (p_init P) ls v (p_target P) <-> exists l, tour0 nv l /\ ls = map Z.of_nat l /\ v = walk d 0 l.
Proof.
  split.
  - intros H. destruct (t_sound (nv - 1) (p_init P) ls v) as (post & -> & HM & _ & ->); auto; [apply (ts_live0 SH)|rewrite (ts_hv0 SH); lia|].
    exists (post ++ [0]). rewrite (ts_ev0 SH). csplit; auto. eapply home_tour; eauto; [apply (ts_live0 SH)|apply (ts_hv0 SH)].
  - intros (l & (t & -> & N & A) & -> & ->). pose proof (t_complete t (p_init P)) as Q. rewrite (ts_ev0 SH) in Q. apply Q; auto; clear Q.
    + apply (ts_live0 SH).
    + apply (ts_exact0 SH).
    + intros c Hc. apply A in Hc as [? ?]. split; auto. now apply (ts_fr0 SH).
    + rewrite (ts_hv0 SH), (tour_len t); auto. lia.
Qed.
Lemma tour0_exists : exists l, tour0 nv l.
Proof. exists (seq 1 (nv - 1) ++ [0]), (seq 1 (nv - 1)). destruct cities. auto. Qed.

Hypothesis LB : lbound.
(** what the undefined evaluation at the root yields is not more than any tour *)
Definition junk_low : Prop := forall l, tour0 nv l -> (junk <= walk d 0 l)%Z.
Lemma t_valid_local : junk_low -> valid_local P tinv.
Proof.
  intros J local s ctx v EL Is [ls H]. rewrite (ts_local SH) in EL. injection EL as <-. unfold be, val. rewrite (ts_min SH). destruct Is as [L| ->].
  - destruct (t_sound (nv - 1 - hv s) s ls v L eq_refl H) as (post & _ & HM & _ & ->). pose proof (ts_here SH s L) as HR.
    destruct (Nat.eq_dec (hv s) 0) as [H0|H0].
    + rewrite H0. destruct (lb_root LB (av s) (ev s)) as [x ->]. cbn [or_junk]. assert (E0 : ev s = 0) by (apply (hr_eh _ _ _ _ HR); auto). rewrite E0.
      apply J. eapply home_tour; eauto.
    + destruct (lb_ok LB _ _ _ HR) as (w & -> & B); [lia|]. cbn [or_junk]. now apply B.
  - apply path_target in H as (_ & -> & _). rewrite (ts_hvt SH), (lb_home LB). cbn. lia.
Qed.
Lemma t_valid : junk_low -> valid_model P tinv hv (nv - 1).
Proof.
  intros J. constructor.
  - apply t_closed.
  - apply t_layered.
  - apply t_depth.
  - apply t_merge_layered.
  - apply t_valid_merge.
  - intros sdom a b E. rewrite (ts_sdom SH) in E. discriminate.
  - intros sdom a s l E. rewrite (ts_sdom SH) in E. discriminate.
  - now apply t_valid_local.
Qed.
(** where the bound is defined: everywhere but at the root *)
Lemma t_defined s : tinv s -> (hv s = 0 /\ exists x, lb (av s) (ev s) (hv s) = Err x) \/ (0 < hv s /\ exists v, lb (av s) (ev s) (hv s) = Ok v).
Proof.
  intros [L| ->]; [destruct (Nat.eq_dec (hv s) 0) as [H0|H0]|].
  - left. split; auto. rewrite H0. apply (lb_root LB).
  - right. split; [lia|]. destruct (lb_ok LB _ _ _ (ts_here SH s L)) as (v & E & _); [lia|eauto].
  - right. rewrite (ts_hvt SH). split; auto. exists 0%Z. apply (lb_home LB).
Qed.

(** ** branch and bound *)
Lemma t_walk s ls v t : path P s ls v t -> tinv s -> exists l, v = walk d (ev s) l /\ Forall (fun c => c < nv) l /\
  (s <> p_target P -> length l <= nv - hv s) /\ (s = p_target P -> l = []).
Proof.
  intros H. induction H as [s|s l s' ls v t N L HS H IH]; intros Is; [exists []; csplit; auto; intros; cbn; lia|].
  assert (Is' : tinv s') by (eapply (cl_step _ _ t_closed); eauto). destruct (IH Is') as (w & -> & F & L1 & L2). pose proof (tsplit s Is N) as LV.
  pose proof (hr_h _ _ _ _ (ts_here SH s LV)) as Hh.
  destruct (stf_cases s l s' LV L HS) as [(T1 & -> & ->)|(T1 & c & -> & C1 & C2 & ->)].
  - rewrite (L2 eq_refl). exists [0]. csplit.
    + rewrite (ts_cost SH). reflexivity.
    + repeat constructor. lia.
    + intros _. cbn. lia.
    + contradiction.
  - destruct (ts_stp SH s c LV T1 C1 C2) as (L3 & E1 & E2 & F1). exists (c :: w). csplit.
    + cbn [walk]. rewrite (ts_cost SH), Nat2Z.id, E1. reflexivity.
    + constructor; auto.
    + intros _. specialize (L1 (live_nt _ L3)). rewrite E2 in L1. cbn [length]. lia.
    + contradiction.
Qed.
Lemma t_range : fits nv d -> in_range P (p_init P) 0.
Proof.
  intros FT ls v s H. destruct (t_walk _ _ _ _ H (or_introl (ts_live0 SH))) as (l & -> & F1 & F2 & _).
  unfold bt, val, sentinel. rewrite (ts_min SH). rewrite Z.add_0_l, (ts_ev0 SH). apply FT; auto.
  specialize (F2 (live_nt _ (ts_live0 SH))). rewrite (ts_hv0 SH) in F2. lia.
Qed.
Section Search.
Variables (srt : dd St -> list nat -> list nat) (dfuel mxw : nat) (lim : nat -> bool).
Hypothesis FT : fits nv d.
Hypothesis J : junk_low.
Hypothesis Hsrt : forall dd l, Permutation (srt dd l) l.
Hypothesis Hfuel : nv < dfuel.
Hypothesis Hmxw : (N.of_nat mxw < 4294967296)%N.
Lemma t_setting : setting P tinv hv (nv - 1) srt dfuel mxw.
Proof.
  constructor; auto; try lia.
  - now apply t_valid.
  - apply live_nt, (ts_live0 SH).
  - left. apply (ts_live0 SH).
  - now apply t_range.
Qed.
Lemma t_B0 : be P (sentinel P) (sentinel P).
Proof. unfold be. lia. Qed.
Lemma t_search_total fuel : S (length all) <= fuel -> exists s e, search P srt dfuel lim fuel mxw None = Ok (s, e).
Proof.
  intros F. apply (search_total P tinv hv (nv - 1) srt dfuel mxw t_setting lim None t_B0 (p_target P :: all)); auto.
  intros x _ (ls & v & H). assert (Ix : tinv x) by (eapply path_closed; [apply t_closed|left; apply (ts_live0 SH)|exact H]).
  destruct Ix as [L| ->]; [right; now apply (ts_all SH)|now left].
Qed.
Lemma t_search_genuine fuel s e : search P srt dfuel lim fuel mxw None = Ok (s, e) ->
  (forall lab, In lab (b_log (s_b s)) -> exists l, tour0 nv l /\ lab = map Z.of_nat l) /\
  (b_primal (s_b s) <> 2147483647%Z -> exists l, tour0 nv l /\ b_inc (s_b s) = map Z.of_nat l /\ b_primal (s_b s) = walk d 0 l).
Proof.
  intros E. destruct (search_genuine P tinv hv (nv - 1) srt dfuel mxw t_setting lim None t_B0 fuel s e E) as [G1 G2]. split.
  - intros lab Hl. destruct (G2 lab Hl) as (v & (ls & w & -> & _ & H) & _). apply t_solutions in H as (l & T & -> & _). eauto.
  - unfold sentinel in G1. rewrite (ts_min SH) in G1. intros N. destruct (G1 N) as (ls & w & E1 & E2 & H). apply t_solutions in H as (l & T & E3 & E4).
    exists l. csplit; auto; [now rewrite E1, E3|now rewrite E2, E4].
Qed.
Hypothesis Low : forall l, tour0 nv l -> (- 2147483647 <= walk d 0 l)%Z.
Lemma t_worst : forall V, solution P (p_init P) 0 V -> be P (initialWorst P) V.
Proof.
  intros V (v & [ls H] & ->). apply t_solutions in H as (l & T & _ & ->). unfold be, val, initialWorst. rewrite (ts_min SH). apply Low in T. unfold intMax. lia.
Qed.
Lemma t_opt (p : Z) : (forall V, solution P (p_init P) 0 V -> be P p V) -> forall l, tour0 nv l -> (p <= walk d 0 l)%Z.
Proof.
  intros H l T. assert (S : solution P (p_init P) 0 (walk d 0 l)). { exists (walk d 0 l). split; [|lia]. exists (map Z.of_nat l). apply t_solutions. eauto. }
  apply H in S. unfold be, val in S. now rewrite (ts_min SH) in S.
Qed.
Lemma t_search_optimal fuel s : search P srt dfuel lim fuel mxw None = Ok (s, Emptied) -> s_seen s = 0 -> hist_ok P s ->
  forall l, tour0 nv l -> (b_primal (s_b s) <= walk d 0 l)%Z.
Proof.
  intros E Es HH. apply t_opt. apply (search_optimal P tinv hv (nv - 1) srt dfuel mxw t_setting lim None t_B0 fuel s Emptied E); auto.
  - intros sdom a b E1. rewrite (ts_sdom SH) in E1. discriminate.
  - apply t_worst.
Qed.
Lemma t_search_wide fuel : lim 0 = false -> narrow P (p_init P) mxw -> 1 <= fuel ->
  exists s, search P srt dfuel lim fuel mxw None = Ok (s, Emptied) /\ s_ttl s = 1 /\ forall l, tour0 nv l -> (b_primal (s_b s) <= walk d 0 l)%Z.
Proof.
  intros L0 Nw F. destruct (search_narrow P tinv hv (nv - 1) srt dfuel mxw t_setting lim None t_B0 fuel L0 Nw t_worst F) as (s & E & T & O & _).
  exists s. csplit; auto. now apply t_opt.
Qed.
End Search.
End Gen.
