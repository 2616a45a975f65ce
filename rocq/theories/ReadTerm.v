(** The readers without a header loop always come to an end; what they need to find in the file. *)
From Coq Require Import Ascii String Sorted.
From Verif Require Import Base TspModel MSortModel ReadModel ReadSpec ReadProofs.
Local Open Scope char_scope.
Local Open Scope nat_scope.
Local Open Scope list_scope.

(** what is left to read is the end of what was left before *)
Definition suf (g f : istr) : Prop := exists a, i_rest f = a ++ i_rest g.
Lemma suf_refl f : suf f f.
Proof. now exists []. Qed.
Lemma suf_trans f g h : suf h g -> suf g f -> suf h f.
Proof. intros [a A] [b B]. exists (b ++ a). now rewrite B, A, app_assoc. Qed.
Lemma suf_len g f : suf g f -> List.length (i_rest g) <= List.length (i_rest f).
Proof. intros [a A]. rewrite A. lens. Qed.
Lemma suf_in g f c : suf g f -> In c (i_rest g) -> In c (i_rest f).
Proof. intros [a A] H. rewrite A. apply in_or_app. now right. Qed.

Lemma drop_ws_suf t : exists a, t = a ++ drop_ws t.
Proof. induction t as [|c t [a IH]]; [now exists []|]. cbn. destruct (is_space c); [|now exists []]. exists (c :: a). cbn. now f_equal. Qed.
Lemma span_suf p t : t = fst (span p t) ++ snd (span p t).
Proof. induction t as [|c t IH]; [reflexivity|]. cbn. destruct (p c); [|reflexivity]. destruct (span p t) as [a b]. cbn in *. now f_equal. Qed.

Lemma sentry_suf f : suf (snd (sentry f)) f.
Proof.
  unfold sentry. destruct (good f); [|now exists []]. destruct (drop_ws_suf (i_rest f)) as [a A]. exists a. rewrite A at 1. now destruct (drop_ws (i_rest f)).
Qed.
Lemma sentry_true f g : sentry f = (true, g) -> good f = true /\ i_fail g = false /\ i_eof g = false /\ i_rest g <> [].
Proof. unfold sentry. destruct (good f); [|discriminate]. destruct (drop_ws (i_rest f)); [discriminate|]. intros [= <-]. easy. Qed.
Lemma sentry_false f g : sentry f = (false, g) -> i_fail g = true.
Proof. unfold sentry. destruct (good f); [|intros [= <-]; reflexivity]. destruct (drop_ws (i_rest f)); [|discriminate]. now intros [= <-]. Qed.

Lemma get_char_suf f : suf (snd (get_char f)) f.
Proof.
  unfold get_char. pose proof (sentry_suf f) as H. destruct (sentry f) as [ok g]. cbn in H. destruct ok; [|exact H].
  destruct (i_rest g) as [|c r] eqn:E; [exact H|]. apply (suf_trans _ g); [|exact H]. exists [c]. cbn. exact E.
Qed.
Lemma get_char_some f c g : get_char f = (Some c, g) -> exists a, i_rest f = a ++ c :: i_rest g.
Proof.
  unfold get_char. pose proof (sentry_suf f) as H. destruct (sentry f) as [ok h]. cbn in H. destruct ok; [|discriminate].
  destruct (i_rest h) as [|x r] eqn:E; [discriminate|]. intros [= -> <-]. destruct H as [a A]. exists a. cbn. now rewrite A, E.
Qed.
Lemma get_char_fail f : i_fail f = true -> get_char f = (None, mkI (i_rest f) (i_eof f) true).
Proof. intros H. unfold get_char, sentry, good. rewrite H, orb_true_r. reflexivity. Qed.
Lemma get_word_suf f : suf (snd (get_word f)) f.
Proof.
  unfold get_word. pose proof (sentry_suf f) as H. destruct (sentry f) as [ok g]. cbn in H. destruct ok; [|exact H].
  pose proof (span_suf (fun c => negb (is_space c)) (i_rest g)) as S1. destruct (span _ (i_rest g)) as [w r]. cbn in *. apply (suf_trans _ g); [|exact H]. now exists w.
Qed.
Lemma get_num_suf conv f : suf (snd (get_num conv f)) f.
Proof.
  unfold get_num. pose proof (sentry_suf f) as H. destruct (sentry f) as [ok g]. cbn in H. destruct ok; [|exact H].
  set (q := match i_rest g with c :: r => if ascii_dec c "-" then (true, r) else if ascii_dec c "+" then (false, r) else (false, c :: r) | [] => (false, []) end).
  assert (Q : exists a, i_rest g = a ++ snd q).
  { unfold q. destruct (i_rest g) as [|c r]; [now exists []|]. destruct (ascii_dec c "-"); [now exists [c]|]. destruct (ascii_dec c "+"); [now exists [c]|now exists []]. }
  destruct q as [neg r1]. cbn in Q. destruct Q as [a A].
  pose proof (span_suf is_digit r1) as S1. destruct (span is_digit r1) as [ds r2]. cbn in S1.
  apply (suf_trans _ g); [|exact H]. exists (a ++ ds). rewrite A, S1, app_assoc.
  destruct ds; [reflexivity|]. now destruct (conv neg (dec (a0 :: ds))).
Qed.
(** a number that is read without failure takes at least one character; nothing is stored when the stream is not good *)
Lemma get_num_some conv f z g : get_num conv f = (Some z, g) -> i_fail f = false /\ (i_fail g = true \/ List.length (i_rest g) < List.length (i_rest f)).
Proof.
  unfold get_num. pose proof (sentry_suf f) as H. destruct (sentry f) as [ok h] eqn:E. cbn in H. destruct ok; [|discriminate].
  apply sentry_true in E. destruct E as (E1 & E2 & E3 & E4). intros K. split.
  { unfold good in E1. now destruct (i_fail f), (i_eof f). }
  apply suf_len in H.
  set (q := match i_rest h with c :: r => if ascii_dec c "-" then (true, r) else if ascii_dec c "+" then (false, r) else (false, c :: r) | [] => (false, []) end) in *.
  assert (Q : List.length (snd q) <= List.length (i_rest h)).
  { unfold q. destruct (i_rest h) as [|c r]; [cbn; lia|]. destruct (ascii_dec c "-"); [cbn; lia|]. destruct (ascii_dec c "+"); cbn; lia. }
  destruct q as [neg r1]. cbn in Q.
  pose proof (span_suf is_digit r1) as S1. destruct (span is_digit r1) as [ds r2]. cbn in S1. destruct ds as [|d ds].
  - injection K as _ <-. now left.
  - destruct (conv neg (dec (d :: ds))). injection K as _ <-. cbn. right. rewrite S1 in Q. cbn in Q. rewrite app_length in Q. lia.
Qed.
Lemma get_num_fail conv f : i_fail f = true -> get_num conv f = (None, mkI (i_rest f) (i_eof f) true).
Proof. intros H. unfold get_num, sentry, good. rewrite H, orb_true_r. reflexivity. Qed.
Lemma getline_suf f : suf (getline f) f.
Proof.
  unfold getline. destruct (good f); [|now exists []]. pose proof (span_suf not_nl (i_rest f)) as S1. destruct (span not_nl (i_rest f)) as [l r]. cbn in S1.
  destruct r as [|c r]; cbn.
  - exists l. now rewrite S1.
  - exists (l ++ [c]). cbn. now rewrite S1, <- app_assoc.
Qed.

(** *** misp *)
Lemma dm_loop_ends n : forall f nv ne es, List.length (i_rest f) < n -> dm_loop n f nv ne es <> Err OutOfFuel.
Proof.
  induction n as [|n IH]; intros f nv ne es Hn; [lia|]. cbn. destruct (i_eof f); [discriminate|].
  destruct (get_char f) as [c f1] eqn:E. destruct (i_eof f1); [discriminate|]. destruct c as [c|]; cbn; [|discriminate].
  destruct (get_char_some _ _ _ E) as [a A]. assert (L : List.length (i_rest f1) < n) by (rewrite A in Hn; lens).
  assert (G : forall g, suf g f1 -> List.length (i_rest g) < n) by (intros g Hg; apply suf_len in Hg; lia).
  destruct (ascii_dec c "c"); [apply IH, G, getline_suf|].
  destruct (ascii_dec c "p").
  - pose proof (get_word_suf f1) as S1. destruct (get_word f1) as [w f2]. cbn in S1.
    pose proof (get_num_suf conv_int f2) as S2. unfold get_int. destruct (get_num conv_int f2) as [x f3]. cbn in S2.
    pose proof (get_num_suf conv_int f3) as S3. destruct (get_num conv_int f3) as [y f4]. cbn in S3.
    apply IH, G. eapply suf_trans; [exact S3|]. eapply suf_trans; [exact S2|exact S1].
  - destruct (ascii_dec c "e"); [|now apply IH].
    pose proof (get_num_suf conv_int f1) as S2. unfold get_int. destruct (get_num conv_int f1) as [x f2]. cbn in S2.
    pose proof (get_num_suf conv_int f2) as S3. destruct (get_num conv_int f2) as [y f3]. cbn in S3.
    destruct x; cbn; [|discriminate]. destruct y; cbn; [|discriminate]. destruct ((z =? int_min) || (z0 =? int_min))%Z; [discriminate|].
    apply IH, G. eapply suf_trans; [exact S3|exact S2].
Qed.
Lemma convert_ends extra nv es : convert extra nv es <> Err OutOfFuel.
Proof.
  unfold convert. destruct nv as [n|]; cbn; [|discriminate]. destruct (int_max <? n + extra)%Z; [discriminate|]. destruct (n + extra <? 0)%Z; [discriminate|].
  assert (K : forall es adj, conv_edges (n + extra) es adj <> Err OutOfFuel).
  { clear. induction es as [|[a b] es IH]; intros adj; cbn; [discriminate|]. now destruct ((0 <=? a) && (a <? n + extra) && (0 <=? b) && (b <? n + extra))%Z. }
  specialize (K es (fun _ => 0%N)). destruct (conv_edges _ _ _); cbn; [discriminate|congruence].
Qed.
Theorem readMisp_ends file : readMisp file <> Err OutOfFuel.
Proof.
  unfold readMisp. pose proof (dm_loop_ends (fuel_of (opened file)) (opened file) None None []) as K. cbv zeta.
  destruct (dm_loop _ _ _ _ _) as [[[nv ne] es]|e]; cbn.
  - pose proof (convert_ends 1 nv es) as C. destruct (convert 1 nv es); cbn; [discriminate|congruence].
  - intros [= ->]. apply K; [unfold fuel_of; lia|reflexivity].
Qed.

(** no line starting with p: nv never gets a value *)
Lemma dm_loop_no_p n : forall f ne es r, ~ In "p" (i_rest f) -> dm_loop n f None ne es = Ok r -> fst (fst r) = None.
Proof.
  induction n as [|n IH]; intros f ne es r Hp; cbn.
  { destruct (i_eof f); [|discriminate]. now intros [= <-]. }
  destruct (i_eof f); [now intros [= <-]|].
  destruct (get_char f) as [c f1] eqn:E. destruct (i_eof f1); [now intros [= <-]|]. destruct c as [c|]; cbn; [|discriminate].
  destruct (get_char_some _ _ _ E) as [a A].
  assert (G : forall g, suf g f1 -> ~ In "p" (i_rest g)).
  { intros g Hg K. apply Hp. rewrite A. apply in_or_app. right. right. eapply suf_in; eassumption. }
  destruct (ascii_dec c "c"); [apply IH, G, getline_suf|].
  destruct (ascii_dec c "p") as [->|].
  { destruct Hp. rewrite A. apply in_or_app. right. now left. }
  destruct (ascii_dec c "e"); [|apply IH, G, suf_refl].
  pose proof (get_num_suf conv_int f1) as S2. unfold get_int. destruct (get_num conv_int f1) as [x f2]. cbn in S2.
  pose proof (get_num_suf conv_int f2) as S3. destruct (get_num conv_int f2) as [y f3]. cbn in S3.
  destruct x; cbn; [|discriminate]. destruct y; cbn; [|discriminate]. destruct ((z =? int_min) || (z0 =? int_min))%Z; [discriminate|].
  apply IH, G. eapply suf_trans; [exact S3|exact S2].
Qed.
Lemma dm_loop_modelled n : forall f nv ne es, dm_loop n f nv ne es <> Err Unmodelled.
Proof.
  induction n as [|n IH]; intros f nv ne es; cbn; [destruct (i_eof f); discriminate|].
    destruct (i_eof f); [discriminate|]. destruct (get_char f) as [c f1]. destruct (i_eof f1); [discriminate|]. destruct c as [c|]; cbn; [|discriminate].
    destruct (ascii_dec c "c"); [apply IH|]. destruct (ascii_dec c "p").
    - destruct (get_word f1) as [w f2], (get_int f2) as [x f3], (get_int f3) as [y f4]. apply IH.
    - destruct (ascii_dec c "e"); [|apply IH]. destruct (get_int f1) as [x f3], (get_int f3) as [y f4].
      destruct x; cbn; [|discriminate]. destruct y; cbn; [|discriminate]. destruct ((z =? int_min) || (z0 =? int_min))%Z; [discriminate|apply IH].
Qed.
Theorem readMisp_needs_p t : ~ In "p" t -> readMisp (Some t) = Err UB.
Proof.
  intros H. pose proof (readMisp_ends (Some t)) as T. unfold readMisp in *. cbv zeta in *.
  pose proof (dm_loop_no_p (fuel_of (opened (Some t))) (opened (Some t)) None []) as K.
  assert (E : dm_loop (fuel_of (opened (Some t))) (opened (Some t)) None None [] <> Err Unmodelled).
  { apply dm_loop_modelled. }
  destruct (dm_loop _ _ _ _ _) as [[[nv ne] es]|e].
  - specialize (K _ H eq_refl). cbn in K. subst nv. reflexivity.
  - cbn in *. destruct e; congruence.
Qed.

(** *** colouring *)
Lemma py_edges_ends n : forall f l es nbe, List.length (i_rest f) < n -> py_edges n f l es nbe <> Err OutOfFuel.
Proof.
  induction n as [|n IH]; intros f l es nbe Hn; [lia|]. cbn. destruct l as [l|]; cbn; [|discriminate]. destruct (ascii_dec l "}"); [discriminate|].
  pose proof (get_char_suf f) as S1. destruct (get_char f) as [c1 f1]. cbn in S1. unfold get_int.
  pose proof (get_num_suf conv_int f1) as S2. destruct (get_num conv_int f1) as [u f2] eqn:E2. cbn in S2.
  pose proof (get_char_suf f2) as S3. pose proof (get_char_fail f2) as F3. destruct (get_char f2) as [c3 f3]. cbn in S3.
  pose proof (get_num_suf conv_int f3) as S4. pose proof (get_num_fail conv_int f3) as F4. destruct (get_num conv_int f3) as [v f4] eqn:E4. cbn in S4.
  pose proof (get_char_suf f4) as S5. destruct (get_char f4) as [c5 f5]. cbn in S5.
  pose proof (get_char_suf f5) as S6. destruct (get_char f5) as [c6 f6]. cbn in S6.
  destruct u as [u|]; cbn; [|discriminate]. destruct v as [v|]; cbn; [|discriminate]. apply IH.
  apply get_num_some in E2. destruct E2 as [_ [E2|E2]].
  - specialize (F3 E2). injection F3 as -> ->. specialize (F4 eq_refl). discriminate F4.
  - apply suf_len in S1, S3, S4, S5, S6. lia.
Qed.
Lemma py_edges_suf n : forall f l es nbe g es' nbe', py_edges n f l es nbe = Ok (g, es', nbe') -> suf g f.
Proof.
  induction n as [|n IH]; intros f l es nbe g es' nbe'; cbn; (destruct l as [l|]; cbn; [|discriminate]); destruct (ascii_dec l "}"); try discriminate; try (intros [= <- _ _]; apply suf_refl).
  pose proof (get_char_suf f) as S1. destruct (get_char f) as [c1 f1]. cbn in S1. unfold get_int.
  pose proof (get_num_suf conv_int f1) as S2. destruct (get_num conv_int f1) as [u f2]. cbn in S2.
  pose proof (get_char_suf f2) as S3. destruct (get_char f2) as [c3 f3]. cbn in S3.
  pose proof (get_num_suf conv_int f3) as S4. destruct (get_num conv_int f3) as [v f4]. cbn in S4.
  pose proof (get_char_suf f4) as S5. destruct (get_char f4) as [c5 f5]. cbn in S5.
  pose proof (get_char_suf f5) as S6. destruct (get_char f5) as [c6 f6]. cbn in S6.
  destruct u as [u|]; cbn; [|discriminate]. destruct v as [v|]; cbn; [|discriminate]. intros K. apply IH in K.
  eauto 10 using suf_trans.
Qed.
Local Arguments py_edges : simpl never.
Lemma py_loop_ends n : forall f nv ub es nbe, List.length (i_rest f) < n -> py_loop n f nv ub es nbe <> Err OutOfFuel.
Proof.
  induction n as [|n IH]; intros f nv ub es nbe Hn; [lia|]. cbn. destruct (i_eof f); [discriminate|].
  destruct (get_char f) as [c f1] eqn:E. destruct (i_eof f1); [discriminate|]. destruct c as [c|]; cbn; [|discriminate].
  destruct (get_char_some _ _ _ E) as [a A]. assert (L : List.length (i_rest f1) < n) by (rewrite A in Hn; lens).
  assert (G : forall g, suf g f1 -> List.length (i_rest g) < n) by (intros g Hg; apply suf_len in Hg; lia).
  pose proof (get_word_suf f1) as S1. destruct (get_word f1) as [w f2]. cbn in S1.
  pose proof (get_num_suf conv_int f2) as S2. unfold get_int. destruct (get_num conv_int f2) as [x f3]. cbn in S2.
  destruct (ascii_dec c "N"); [apply IH, G; eapply suf_trans; eassumption|].
  destruct (ascii_dec c "E").
  - pose proof (get_char_suf f2) as S3. destruct (get_char f2) as [l f4]. cbn in S3.
    pose proof (py_edges_ends (fuel_of f4) f4 l es nbe) as Z. destruct (py_edges (fuel_of f4) f4 l es nbe) as [[[f5 es'] nbe']|ee] eqn:Ep; cbn.
    + apply IH, G. apply py_edges_suf in Ep. eapply suf_trans; [exact Ep|]. eapply suf_trans; eassumption.
    + intros [= ->]. apply Z; [unfold fuel_of; lia|reflexivity].
  - destruct (ascii_dec c "K"); [apply IH, G; eapply suf_trans; eassumption|now apply IH].
Qed.
Theorem readPy_ends ub0 file : readPy ub0 file <> Err OutOfFuel.
Proof.
  unfold readPy. pose proof (py_loop_ends (fuel_of (opened file)) (opened file) None (Some ub0) [] 0) as K. cbv zeta.
  destruct (py_loop _ _ _ _ _ _) as [[[[nv ub] es] nbe]|e]; cbn.
  - pose proof (convert_ends 0 nv es) as C. destruct (convert 0 nv es); cbn; [destruct ub; discriminate|congruence].
  - intros [= ->]. apply K; [unfold fuel_of; lia|reflexivity].
Qed.
(** no N: nv never gets a value *)
Lemma py_loop_no_N n : forall f ub es nbe r, ~ In "N" (i_rest f) -> py_loop n f None ub es nbe = Ok r -> fst (fst (fst r)) = None.
Proof.
  induction n as [|n IH]; intros f ub es nbe r Hp; cbn.
  { destruct (i_eof f); [|discriminate]. now intros [= <-]. }
  destruct (i_eof f); [now intros [= <-]|].
  destruct (get_char f) as [c f1] eqn:E. destruct (i_eof f1); [now intros [= <-]|]. destruct c as [c|]; cbn; [|discriminate].
  destruct (get_char_some _ _ _ E) as [a A].
  assert (G : forall g, suf g f1 -> ~ In "N" (i_rest g)).
  { intros g Hg K. apply Hp. rewrite A. apply in_or_app. right. right. eapply suf_in; eassumption. }
  pose proof (get_word_suf f1) as S1. destruct (get_word f1) as [w f2]. cbn in S1.
  pose proof (get_num_suf conv_int f2) as S2. unfold get_int. destruct (get_num conv_int f2) as [x f3]. cbn in S2.
  destruct (ascii_dec c "N") as [->|]. { destruct Hp. rewrite A. apply in_or_app. right. now left. }
  destruct (ascii_dec c "E").
  - pose proof (get_char_suf f2) as S3. destruct (get_char f2) as [l f4]. cbn in S3.
    destruct (py_edges (fuel_of f4) f4 l es nbe) as [[[f5 es'] nbe']|e'] eqn:Ep; cbn; [|discriminate].
    apply IH, G. apply py_edges_suf in Ep. eapply suf_trans; [exact Ep|]. eapply suf_trans; eassumption.
  - destruct (ascii_dec c "K"); [apply IH, G; eapply suf_trans; eassumption|apply IH, G, suf_refl].
Qed.
Theorem readPy_needs_N ub0 t i : ~ In "N" t -> readPy ub0 (Some t) <> Ok i.
Proof.
  intros H. unfold readPy. cbv zeta. pose proof (py_loop_no_N (fuel_of (opened (Some t))) (opened (Some t)) (Some ub0) [] 0) as K.
  destruct (py_loop _ _ _ _ _ _) as [[[[nv ub] es] nbe]|e]; cbn; [|discriminate].
  specialize (K _ H eq_refl). cbn in K. subst nv. discriminate.
Qed.

(** *** knapsack *)
Lemma kn_loop_ends n : forall f ni count items, List.length (i_rest f) < n -> kn_loop n f ni count items <> Err OutOfFuel.
Proof.
  induction n as [|n IH]; intros f ni count items Hn; [lia|]. cbn. destruct (i_eof f); [discriminate|]. unfold get_int.
  pose proof (get_num_suf conv_int f) as S1. destruct (get_num conv_int f) as [p f1] eqn:E1. cbn in S1.
  pose proof (get_num_suf conv_int f1) as S2. pose proof (get_num_fail conv_int f1) as F2. destruct (get_num conv_int f1) as [w f2]. cbn in S2.
  destruct ni as [i|]; cbn; [|discriminate]. destruct (i <=? Z.of_nat count)%Z; [discriminate|].
  destruct p as [p|]; cbn; [|discriminate]. destruct w as [w|]; cbn; [|discriminate]. apply IH.
  apply get_num_some in E1. destruct E1 as [_ [E1|E1]]; [specialize (F2 E1); discriminate|]. apply suf_len in S2. lia.
Qed.
Theorem readKnap_ends file : readKnap file <> Err OutOfFuel.
Proof.
  unfold readKnap. cbv zeta. destruct (get_int (opened file)) as [ni f1]. destruct (get_int f1) as [capa f2].
  pose proof (kn_loop_ends (S (S (fuel_of f2))) f2 ni 0 []) as K. destruct (kn_loop _ _ _ _ _); cbn; [discriminate|].
  intros [= ->]. apply K; [unfold fuel_of; lia|reflexivity].
Qed.
Lemma kn2_loop_ends n : forall f ni count items, List.length (i_rest f) < n -> kn2_loop n f ni count items <> Err OutOfFuel.
Proof.
  induction n as [|n IH]; intros f ni count items Hn; [lia|]. cbn. destruct (i_eof f); [discriminate|]. unfold get_int.
  pose proof (get_num_suf conv_int f) as S1. destruct (get_num conv_int f) as [p f1] eqn:E1. cbn in S1.
  pose proof (get_num_suf conv_int f1) as S2. pose proof (get_num_fail conv_int f1) as F2. destruct (get_num conv_int f1) as [w f2]. cbn in S2.
  destruct (ni <=? Z.of_nat count)%Z; [discriminate|].
  destruct p as [p|]; cbn; [|discriminate]. destruct w as [w|]; cbn; [|discriminate]. apply IH.
  apply get_num_some in E1. destruct E1 as [_ [E1|E1]]; [specialize (F2 E1); discriminate|]. apply suf_len in S2. lia.
Qed.
Theorem readKnap2_ends le file : readKnap2 le file <> Err OutOfFuel.
Proof.
  unfold readKnap2. cbv zeta. destruct (get_int (opened file)) as [ni f1]. destruct (get_int f1) as [capa f2].
  destruct ni as [i|]; cbn [val bind]; [|discriminate]. destruct (i <? 0)%Z; [discriminate|].
  pose proof (kn2_loop_ends (S (S (fuel_of f2))) f2 i 0 []) as K. destruct (kn2_loop _ _ _ _ _) as [items|]; cbn [bind].
  - destruct (Z.of_nat (List.length items) <? i)%Z; discriminate.
  - intros [= ->]. apply K; [unfold fuel_of; lia|reflexivity].
Qed.
