(** Proofs about ReadModel.v: the TSP readers. *)
From Coq Require Import Ascii String Sorted.
From Verif Require Import Base TspModel MSortModel ReadModel ReadSpec ReadProofs ReadTerm ReadRun.
Local Open Scope char_scope.
Local Open Scope nat_scope.
Local Open Scope list_scope.

(** ** The matrix *)
Lemma read_cells_at zs : forall r tail f, ints zs r -> no_digit tail -> at_ f (r ++ tail) -> read_cells (List.length zs) f = Ok zs.
Proof.
  induction zs as [|z zs IH]; intros r tail f Hr Ht Hat; [reflexivity|]. apply ints_inv in Hr. destruct Hr as (s & t & q & G & I1 & Hr & ->).
  cbn [List.length read_cells]. rewrite <- !app_assoc in Hat. rewrite (get_int_at f s t z (q ++ tail)); [|exact Hat|apply G|exact I1|now apply (ints_start _ _ _ Hr)].
  cbn [val bind]. rewrite (IH q tail); [reflexivity|exact Hr|exact Ht|apply at_mk].
Qed.
(** the newline before the first number may already have been read *)
Lemma read_cells_nl z zs r tail f : ints (z :: zs) (nl :: r) -> no_digit tail -> at_ f (r ++ tail) -> read_cells (List.length (z :: zs)) f = Ok (z :: zs).
Proof.
  intros Hr Ht Hat. apply ints_inv in Hr. destruct Hr as (s & t & q & G & I1 & Hr & E). destruct s as [|c s]; [now destruct G|]. cbn [app] in E. injection E as <- ->.
  cbn [List.length read_cells]. rewrite <- !app_assoc in Hat. destruct G as [_ G]. inversion G; subst.
  rewrite (get_int_at f s t z (q ++ tail)); [|exact Hat|assumption|exact I1|now apply (ints_start _ _ _ Hr)].
  cbn [val bind]. rewrite (read_cells_at zs q tail); [reflexivity|exact Hr|exact Ht|apply at_mk].
Qed.

(** ** Header lines *)
Lemma rest_wstart r q : rest_of_line r -> wstart (r ++ nl :: q).
Proof. intros [_ [->|(c & t & -> & H)]]; [apply wstart_cons, nl_white|]. cbn. apply wstart_cons. now left. Qed.
Lemma hline_step w t s f r : hline w t -> whites s -> at_ f (s ++ t ++ nl :: r) ->
  exists f1, get_word f = (Some w, f1) /\ getline f1 = mkI r false false.
Proof.
  intros (pre & q & Hp & Hw & Hq & ->) Hs Hat. rewrite <- !app_assoc in Hat. rewrite app_assoc in Hat.
  exists (mkI (q ++ nl :: r) (is_nil (q ++ nl :: r)) false). split.
  - apply (get_word_at f (s ++ pre)); [exact Hat|apply Forall_app; split; [exact Hs|lt]|exact Hw|now apply rest_wstart].
  - apply (getline_at _ q); [apply at_mk|apply Hq].
Qed.
Lemma tsp_skip_at hs : hlines hs -> forall s ts r f l fuel, whites s -> hline section ts -> at_ f (s ++ hs ++ ts ++ nl :: r) -> List.length hs < fuel ->
  tsp_skip fuel f l = Ok (mkI r false false).
Proof.
  induction 1 as [|w t q Hw Hne Hq IH]; intros s ts r f l fuel Hs Hts Hat Hf; (destruct fuel as [|n]; [lia|]); cbn [tsp_skip].
  - cbn [app] in Hat. destruct (hline_step _ _ _ _ _ Hts Hs Hat) as (f1 & -> & ->).
    change (chars "EDGE_WEIGHT_SECTION") with section. now destruct (list_eq_dec ascii_dec section section).
  - rewrite <- app_assoc in Hat. cbn [app] in Hat. destruct (hline_step _ _ _ _ _ Hw Hs Hat) as (f1 & -> & ->).
    change (chars "EDGE_WEIGHT_SECTION") with section. destruct (list_eq_dec ascii_dec w section); [easy|].
    apply (IH [] ts); [constructor|exact Hts|apply at_mk0|lens].
Qed.

Theorem readTsp_ok n d t fuel : tsplib n d t -> (1 <= n <= size_max)%Z -> Z.of_nat (List.length d) = (n * n)%Z -> List.length t <= fuel ->
  readTsp fuel (Some t) = Ok (mkT n d).
Proof.
  intros H Hn Hd Hf. destruct H as [w1 t1 w2 t2 w3 t3 pre w4 g tn hs ts tm tail H1 H2 H3 Hp H4 Hg Htn Hhs Hts Hd' Htail].
  unfold readTsp. cbv zeta. destruct (hline_step _ t1 [] (opened (Some (t1 ++ nl :: t2 ++ nl :: t3 ++ nl :: pre ++ w4 ++ g ++ tn ++ nl :: hs ++ ts ++ nl :: tm ++ tail))) _ H1 (Forall_nil _) (at_mk0 _)) as (f1 & -> & E1).
  cbn [val bind]. rewrite last_last. destruct (ascii_dec ":" ":") as [_|E]; [|easy]. rewrite E1. unfold snd_word.
  destruct (hline_step _ t2 [] (mkI (t2 ++ nl :: t3 ++ nl :: pre ++ w4 ++ g ++ tn ++ nl :: hs ++ ts ++ nl :: tm ++ tail) false false) _ H2 (Forall_nil _) (at_mk0 _)) as (f2 & -> & E2). cbn [snd]. rewrite E2.
  destruct (hline_step _ t3 [] (mkI (t3 ++ nl :: pre ++ w4 ++ g ++ tn ++ nl :: hs ++ ts ++ nl :: tm ++ tail) false false) _ H3 (Forall_nil _) (at_mk0 _)) as (f3 & -> & E3). cbn [snd]. rewrite E3.
  rewrite (get_word_at _ pre w4 (g ++ tn ++ nl :: hs ++ ts ++ nl :: tm ++ tail)); [|apply at_mk0|lt|exact H4|apply wstart_gap, gap_wgap, Hg].
  rewrite (get_size_at _ g tn n (nl :: hs ++ ts ++ nl :: tm ++ tail)); [|apply at_mk|apply blanks_whites, Hg|exact Htn|apply wstart_not_digit, wstart_cons, nl_white|apply Hn].
  rewrite (tsp_skip_at hs Hhs [nl] ts (tm ++ tail)); [|constructor; [exact nl_white|constructor]|exact Hts|apply at_mk|lens].
  cbn [bind val]. destruct d as [|z d]; [cbn in Hd; nia|].
  replace (Z.to_nat n * Z.to_nat n) with (List.length (z :: d)) by nia. now rewrite (read_cells_nl z d tm tail _ Hd' Htail (at_mk0 _)).
Qed.

Lemma snd_word_at f s w r : at_ f (s ++ w ++ r) -> whites s -> word w -> wstart r -> snd_word f = mkI r (is_nil r) false.
Proof. intros H1 H2 H3 H4. unfold snd_word. now rewrite (get_word_at _ _ _ _ H1 H2 H3 H4). Qed.
Lemma get_word0 w r : word w -> wstart r -> get_word (mkI (w ++ r) false false) = (Some w, mkI r (is_nil r) false).
Proof. intros. apply (get_word_at _ []); [apply at_mk0|constructor|assumption|assumption]. Qed.
Lemma snd_word0 w r : word w -> wstart r -> snd_word (mkI (w ++ r) false false) = mkI r (is_nil r) false.
Proof. intros. apply (snd_word_at _ []  w); [apply at_mk0|constructor|assumption|assumption]. Qed.
Lemma snd_word_nl w r : word w -> wstart r -> snd_word (mkI (nl :: w ++ r) (is_nil (nl :: w ++ r)) false) = mkI r (is_nil r) false.
Proof. intros. apply (snd_word_at _ [nl]  w); [apply at_mk0|constructor; [exact nl_white|constructor]|assumption|assumption]. Qed.
Lemma last_default {A} (l : list A) a b : l <> [] -> last l a = last l b.
Proof. induction l as [|x l IH]; [easy|]. intros _. destruct l; [reflexivity|]. cbn in *. now apply IH. Qed.
Lemma section_word : word section.
Proof. split; [discriminate|]. repeat constructor; nw. Qed.

Theorem readTsp_old_ok n d t fuel : tsplib_old n d t -> (1 <= n <= size_max)%Z -> Z.of_nat (List.length d) = (n * n)%Z ->
  readTsp fuel (Some t) = Ok (mkT n d).
Proof.
  intros H Hn Hd. destruct H as [w1 c1 nm w2 c2 w3 c3 w4 c4 w5 c5 b1 b4 r2 r3 r5 s1 s2 s3 s4 s5 tn tm tail
    W1 L1 C1 NM W2 C2 W3 C3 W4 C4 W5 C5 B1 B4 R2 R3 R5 S1 S2 S3 S4 S5 Htn Hd' Htail].
  assert (WN : forall q, wstart (nl :: q)) by (intros; apply wstart_cons, nl_white).
  assert (WG : forall g q, gap g -> wstart (g ++ q)) by (intros; apply wstart_gap, gap_wgap; assumption).
  assert (GW : forall g, gap g -> whites g) by (intros g G; apply blanks_whites, G).
  unfold readTsp. cbv zeta.
  cbn [opened]. rewrite get_word0; [|exact W1|now apply WG]. cbn [val bind].
  rewrite (last_default w1 "000" " ") by apply W1. destruct (ascii_dec (last w1 " ") ":") as [E|_]; [easy|].
  rewrite (snd_word_at _ s1 c1 _ (at_mk _)); [|now apply GW|exact C1|now apply WG].
  rewrite (snd_word_at _ b1 nm _ (at_mk _)); [|now apply GW|exact NM|apply WN].
  rewrite snd_word_nl; [|exact W2|now apply WG].
  rewrite (snd_word_at _ s2 c2 _ (at_mk _)); [|now apply GW|exact C2|now apply rest_wstart].
  rewrite (getline_at _ r2 _ (at_mk _)) by apply R2.
  rewrite snd_word0; [|exact W3|now apply WG].
  rewrite (snd_word_at _ s3 c3 _ (at_mk _)); [|now apply GW|exact C3|now apply rest_wstart].
  rewrite (getline_at _ r3 _ (at_mk _)) by apply R3.
  rewrite snd_word0; [|exact W4|now apply WG].
  rewrite (snd_word_at _ s4 c4 _ (at_mk _)); [|now apply GW|exact C4|now apply WG].
  rewrite (get_size_at _ b4 tn n _ (at_mk _)); [|now apply GW|exact Htn|apply wstart_not_digit, WN|apply Hn].
  rewrite snd_word_nl; [|exact W5|now apply WG].
  rewrite (snd_word_at _ s5 c5 _ (at_mk _)); [|now apply GW|exact C5|now apply rest_wstart].
  rewrite (getline_at _ r5 _ (at_mk _)) by apply R5.
  destruct d as [|z d]; [cbn in Hd; nia|]. 
  rewrite snd_word0; [|exact section_word|].
  2:{ apply ints_inv in Hd'. destruct Hd' as (s & t & q & G & _ & _ & ->). rewrite <- app_assoc. now apply wstart_gap. }
  cbn [bind val]. replace (Z.to_nat n * Z.to_nat n) with (List.length (z :: d)) by nia. now rewrite (read_cells_at (z :: d) tm tail _ Hd' Htail (at_mk _)).
Qed.

(** ** A file without the section *)
Definition infix (w t : text) : Prop := exists a b, t = a ++ w ++ b.
Lemma infix_suf w f g : suf g f -> infix w (i_rest g) -> infix w (i_rest f).
Proof. intros [a A] (b & c & B). exists (a ++ b), c. now rewrite A, B, app_assoc. Qed.
Lemma get_word_infix f w g : get_word f = (Some w, g) -> infix w (i_rest f).
Proof.
  unfold get_word. pose proof (sentry_suf f) as H. destruct (sentry f) as [ok h]. cbn in H. destruct ok; [|discriminate].
  pose proof (span_suf (fun c => negb (is_space c)) (i_rest h)) as S1. destruct (span _ (i_rest h)) as [v r]. cbn in S1. intros [= <- <-].
  apply (infix_suf v f h H). exists [], r. exact S1.
Qed.
Lemma tsp_skip_endless t fuel : ~ infix section t -> forall f l, suf f (mkI t false false) -> l <> section -> tsp_skip fuel f l = Err OutOfFuel.
Proof.
  intros Ht. induction fuel as [|n IH]; intros f l Hf Hl; [reflexivity|]. cbn [tsp_skip]. pose proof (get_word_suf f) as S1. destruct (get_word f) as [w f1] eqn:E. cbn [snd] in S1.
  change (chars "EDGE_WEIGHT_SECTION") with section.
  assert (Hw : (match w with Some x => x | None => l end) <> section).
  { destruct w as [w|]; [|exact Hl]. intros ->. apply get_word_infix in E. apply Ht. exact (infix_suf _ _ _ Hf E). }
  destruct (list_eq_dec ascii_dec _ section); [easy|]. apply IH; [|exact Hw].
  eapply suf_trans; [apply getline_suf|]. eapply suf_trans; eassumption.
Qed.
Theorem readTsp_endless s w r fuel : whites s -> word (w ++ [":"]) -> wstart r -> ~ infix section (s ++ w ++ ":" :: r) ->
  readTsp fuel (Some (s ++ w ++ ":" :: r)) = Err OutOfFuel.
Proof.
  intros Hs Hw Hr Hsec. set (t := s ++ w ++ ":" :: r) in *. unfold readTsp. cbv zeta.
  rewrite (get_word_at _ s (w ++ [":"]) r); [|unfold t; rewrite <- app_assoc; apply at_mk0|exact Hs|exact Hw|exact Hr]. cbn [val bind]. rewrite last_last.
  destruct (ascii_dec ":" ":") as [_|E]; [|easy].
  set (g := mkI r (is_nil r) false).
  assert (S0 : suf g (mkI t false false)). { exists (s ++ w ++ [":"]). cbn. unfold t. now rewrite <- !app_assoc. }
  set (f4 := getline (snd_word (getline (snd_word (getline g))))).
  assert (S4 : suf f4 (mkI t false false)).
  { unfold f4, snd_word. repeat (eapply suf_trans; [first [apply getline_suf|apply get_word_suf]|]). exact S0. }
  pose proof (get_word_suf f4) as S5. destruct (get_word f4) as [l f5] eqn:E5. cbn [snd] in S5.
  pose proof (get_num_suf conv_size f5) as S6. unfold get_size. destruct (get_num conv_size f5) as [nv f6]. cbn [snd] in S6.
  rewrite (tsp_skip_endless t); [reflexivity|exact Hsec| |].
  - eapply suf_trans; [exact S6|]. eapply suf_trans; [exact S5|exact S4].
  - destruct l as [l|].
    + intros ->. apply get_word_infix in E5. apply Hsec. exact (infix_suf _ _ _ S4 E5).
    + intros E. apply (f_equal (fun x => last x " ")) in E. rewrite last_last in E. discriminate E.
Qed.

(** ** tsp_test4.cpp *)
Definition lab_char (c : ascii) : Prop := ~ white c /\ c <> ":".
Lemma lab_char_b c : lab_char c -> is_space c || (if ascii_dec c ":" then true else false) = false.
Proof. intros [H1 H2]. apply is_space_not in H1. rewrite H1. now destruct (ascii_dec c ":"). Qed.
Lemma lab_stop_b c : white c \/ c = ":" -> is_space c || (if ascii_dec c ":" then true else false) = true.
Proof. intros [H| ->]; [|reflexivity]. apply is_space_white in H. now rewrite H. Qed.
Lemma read_label_at l : Forall lab_char l -> forall c r rv n, (white c \/ c = ":") -> List.length l < n ->
  read_label n (mkI (l ++ c :: r) false false) rv = Ok (rv ++ l, mkI (c :: r) false false).
Proof.
  induction 1 as [|x l Hx Hl IH]; intros c r rv n Hc Hn; (destruct n as [|n]; [cbn in Hn; lia|]); cbn [app read_label good i_eof i_fail orb negb i_rest].
  - rewrite (lab_stop_b _ Hc), app_nil_r. reflexivity.
  - rewrite (lab_char_b _ Hx). rewrite IH; [|exact Hc|cbn in Hn; lia]. now rewrite <- app_assoc.
Qed.
Lemma label_of_at f l c r : at_ f (l ++ c :: r) -> Forall lab_char l -> (white c \/ c = ":") -> label_of f = Ok (l, mkI (c :: r) false false).
Proof.
  intros Hat Hl Hc. assert (E : f = mkI (l ++ c :: r) false false). { destruct l; cbn [app] in *; now apply at_cons. }
  subst f. unfold label_of, fuel_of. cbn [i_rest]. rewrite read_label_at; [reflexivity|exact Hl|exact Hc|lens].
Qed.
Lemma label_exists t r : exists l c q, t ++ nl :: r = l ++ c :: q /\ Forall lab_char l /\ (white c \/ c = ":") /\ exists b, c :: q = b ++ nl :: r /\ (forall x, In x b -> In x t) /\ t = l ++ b.
Proof.
  induction t as [|x t (l & c & q & E & Hl & Hc & b & Hb & Hin & Et)].
  - exists [], nl, r. split; [reflexivity|]. split; [constructor|]. split; [left; exact nl_white|]. exists []. now split.
  - destruct (is_space x || (if ascii_dec x ":" then true else false)) eqn:K.
    + exists [], x, (t ++ nl :: r). split; [reflexivity|]. split; [constructor|]. split.
      * apply orb_prop in K. destruct K as [K|K]; [left; now apply is_space_white|right]. now destruct (ascii_dec x ":").
      * exists (x :: t). now split.
    + exists (x :: l), c, q. cbn. rewrite E. split; [reflexivity|]. split.
      * constructor; [|exact Hl]. apply orb_false_iff in K. destruct K as [K1 K2]. split; [now apply is_space_not|]. now destruct (ascii_dec x ":").
      * split; [exact Hc|]. exists b. split; [exact Hb|]. split; [intros y Hy; right; now apply Hin|now rewrite Et].
Qed.
(** a label and the rest of its line *)
Lemma line_of_label f t r : one_line t -> at_ f (t ++ nl :: r) -> exists l g, label_of f = Ok (l, g) /\ getline g = mkI r false false.
Proof.
  intros Ht Hat. destruct (label_exists t r) as (l & c & q & E & Hl & Hc & b & Hb & Hin & Et). rewrite E in Hat.
  exists l, (mkI (c :: q) false false). split; [now apply label_of_at|]. rewrite Hb. apply (getline_at _ b); [apply at_mk0|]. intros K. now apply Ht, Hin.
Qed.

Definition fmt_of (w : wfmt) : wformat := match w with WFull => FullMatrix | WLowerDiag => LowerDiagRow | WOther => FNA end.
Lemma convertWF_of v : convertWF v = fmt_of (wfmt_of v).
Proof.
  unfold convertWF, wfmt_of. change (chars "LOWER_DIAG_ROW") with (list_ascii_of_string "LOWER_DIAG_ROW"). change (chars "FULL_MATRIX") with (list_ascii_of_string "FULL_MATRIX").
  destruct (list_eq_dec ascii_dec v (list_ascii_of_string "LOWER_DIAG_ROW")) as [->|]; [reflexivity|].
  now destruct (list_eq_dec ascii_dec v (list_ascii_of_string "FULL_MATRIX")).
Qed.

(** the rest of a line is skipped as a line with an empty label *)
Lemma t4_skip_rest r q f wf n : rest_of_line r -> at_ f (r ++ nl :: q) -> t4_skip (S n) f wf = t4_skip n (mkI q false false) wf.
Proof.
  intros Hr Hat. cbn [t4_skip].
  assert (E : exists c p, r ++ nl :: q = c :: p /\ white c).
  { destruct Hr as [_ [->|(c & p & -> & Hc)]]; [exists nl, q; split; [reflexivity|exact nl_white]|]. exists c, (p ++ nl :: q). split; [reflexivity|now left]. }
  destruct E as (c & p & E & Hc). rewrite (label_of_at f [] c p); [|cbn; now rewrite <- E|constructor|now left]. cbn [bind].
  repeat (destruct (list_eq_dec ascii_dec [] _) as [X|_]; [discriminate X|]). rewrite <- E. now rewrite (getline_at _ r q (at_mk0 _)) by apply Hr.
Qed.

Lemma key_chars l : forallb (fun c => negb (is_space c) && negb (if ascii_dec c ":" then true else false)) l = true -> Forall lab_char l.
Proof.
  intros H. apply Forall_forall. intros c Hc. apply (proj1 (forallb_forall _ _) H) in Hc. apply andb_prop in Hc. destruct Hc as [H1 H2]. split.
  - apply is_space_not. now destruct (is_space c).
  - now destruct (ascii_dec c ":").
Qed.
Ltac keyc := apply key_chars; reflexivity.

Lemma colon_parts k cv v r q f : Forall lab_char k -> colon_value cv v -> rest_of_line r -> at_ f (k ++ cv ++ r ++ nl :: q) ->
  exists g b1, label_of f = Ok (k, g) /\ gap b1 /\ word v /\ snd_word g = mkI (b1 ++ v ++ r ++ nl :: q) false false.
Proof.
  intros Hk (b0 & b1 & H0 & H1 & Hv & ->) Hr Hat. repeat (rewrite <- app_assoc in Hat; cbn [app] in Hat).
  assert (E : exists c p, b0 ++ ":" :: b1 ++ v ++ r ++ nl :: q = c :: p /\ (white c \/ c = ":")).
  { destruct b0 as [|c b0]; [eexists _, _; split; [reflexivity|now right]|]. inversion H0; subst. eexists _, _. split; [reflexivity|left; now left]. }
  destruct E as (c & p & E & Hc). rewrite E in Hat. exists (mkI (c :: p) false false), b1. split; [now apply label_of_at|]. split; [exact H1|]. split; [exact Hv|].
  rewrite <- E. etransitivity; [apply (snd_word_at _ b0 [":"] (b1 ++ v ++ r ++ nl :: q) (at_mk0 _)); [lt|split; [discriminate|constructor; [nw|constructor]]|now apply wstart_gap, gap_wgap]|].
  destruct H1 as [H1 _]. destruct b1; [easy|reflexivity].
Qed.

Lemma t4_skip_at w w' hs : header4 w w' hs -> forall rs r f fuel, rest_of_line rs -> at_ f (hs ++ section ++ rs ++ nl :: r) -> List.length hs < fuel ->
  t4_skip fuel f (fmt_of w) = Ok (fmt_of w', mkI r false false).
Proof.
  induction 1 as [w|w w' cv v q h Hcv Hq Hh IH|w w' cv v q h Hcv Hq Hh IH|w w' l t h Ht Hl N1 N2 N3 Hh IH]; intros rs r f fuel Hrs Hat Hf; (destruct fuel as [|n]; [lia|]).
  - cbn [t4_skip]. cbn [app] in Hat. pose proof (rest_wstart rs r Hrs) as W. destruct W as [W|(c & p & W & Hc)]; [destruct rs; discriminate|].
    rewrite W in Hat. rewrite (label_of_at f section c p); [|exact Hat|unfold section; keyc|now left]. cbn [bind].
    repeat (destruct (list_eq_dec ascii_dec section _) as [X|_]; [discriminate X|]). change (chars "EDGE_WEIGHT_SECTION") with section.
    rewrite <- W, (getline_at _ rs r (at_mk0 _)) by apply Hrs. now destruct (list_eq_dec ascii_dec section section).
  - rewrite <- !app_assoc in Hat. rewrite <- app_comm_cons in Hat.
    destruct (colon_parts (list_ascii_of_string "EDGE_WEIGHT_TYPE") cv v q (h ++ section ++ rs ++ nl :: r) f ltac:(keyc) Hcv Hq Hat) as (g & b1 & E1 & Hb1 & Hv & E2).
    cbn [t4_skip]. rewrite E1. cbn [bind]. change (chars "EDGE_WEIGHT_TYPE") with (list_ascii_of_string "EDGE_WEIGHT_TYPE").
    destruct (list_eq_dec ascii_dec (list_ascii_of_string "EDGE_WEIGHT_TYPE") (list_ascii_of_string "EDGE_WEIGHT_TYPE")) as [_|X]; [|easy].
    rewrite E2. rewrite (snd_word_at _ b1 v _ (at_mk0 _)); [|apply blanks_whites, Hb1|exact Hv|now apply rest_wstart].
    assert (K2 : 2 <= List.length (list_ascii_of_string "EDGE_WEIGHT_TYPE")) by (cbn; lia). assert (List.length h + 2 <= n) by (clear - Hf K2; lens). destruct n as [|n]; [lia|].
    rewrite (t4_skip_rest q _ _ _ n Hq (at_mk _)). apply (IH rs); [exact Hrs|apply at_mk0|lia].
  - rewrite <- !app_assoc in Hat. rewrite <- app_comm_cons in Hat.
    destruct (colon_parts (list_ascii_of_string "EDGE_WEIGHT_FORMAT") cv v q (h ++ section ++ rs ++ nl :: r) f ltac:(keyc) Hcv Hq Hat) as (g & b1 & E1 & Hb1 & Hv & E2).
    cbn [t4_skip]. rewrite E1. cbn [bind]. change (chars "EDGE_WEIGHT_FORMAT") with (list_ascii_of_string "EDGE_WEIGHT_FORMAT").
    destruct (list_eq_dec ascii_dec (list_ascii_of_string "EDGE_WEIGHT_FORMAT") (chars "EDGE_WEIGHT_TYPE")) as [X|_]; [discriminate X|].
    destruct (list_eq_dec ascii_dec (list_ascii_of_string "EDGE_WEIGHT_FORMAT") (list_ascii_of_string "EDGE_WEIGHT_FORMAT")) as [_|X]; [|easy].
    rewrite E2. rewrite (get_word_at _ b1 v _ (at_mk0 _)); [|apply blanks_whites, Hb1|exact Hv|now apply rest_wstart].
    rewrite convertWF_of. assert (K2 : 2 <= List.length (list_ascii_of_string "EDGE_WEIGHT_FORMAT")) by (cbn; lia). assert (List.length h + 2 <= n) by (clear - Hf K2; lens). destruct n as [|n]; [lia|].
    rewrite (t4_skip_rest q _ _ _ n Hq (at_mk _)). apply (IH rs); [exact Hrs|apply at_mk0|lia].
  - rewrite <- !app_assoc in Hat. rewrite <- app_comm_cons in Hat. destruct Hl as (Hl & c & p & E & Hc).
    cbn [t4_skip]. replace (t ++ nl :: h ++ section ++ rs ++ nl :: r) with (l ++ c :: p ++ h ++ section ++ rs ++ nl :: r) in Hat.
    2:{ transitivity ((t ++ [nl]) ++ h ++ section ++ rs ++ nl :: r); [|now rewrite <- app_assoc]. rewrite E, <- !app_assoc. reflexivity. }
    rewrite (label_of_at f l c _ Hat Hl Hc). cbn [bind].
    destruct (list_eq_dec ascii_dec l (chars "EDGE_WEIGHT_TYPE")) as [X|_]; [easy|]. destruct (list_eq_dec ascii_dec l (chars "EDGE_WEIGHT_FORMAT")) as [X|_]; [easy|].
    destruct (list_eq_dec ascii_dec l (chars "EDGE_WEIGHT_SECTION")) as [X|_]; [easy|].
    assert (B : exists b, c :: p = b ++ [nl] /\ ~ In nl b).
    { destruct (exists_last (l := c :: p)) as (b & y & Y); [discriminate|]. rewrite Y, app_assoc in E. apply app_inj_tail in E. destruct E as [E <-].
      exists b. split; [exact Y|]. intros K. apply Ht. rewrite E. apply in_or_app. now right. }
    destruct B as (b & B & Hb). replace (c :: p ++ h ++ section ++ rs ++ nl :: r) with (b ++ nl :: h ++ section ++ rs ++ nl :: r).
    2:{ change (c :: p ++ h ++ section ++ rs ++ nl :: r) with ((c :: p) ++ h ++ section ++ rs ++ nl :: r). now rewrite B, <- app_assoc. }
    rewrite (getline_at _ b _ (at_mk0 _) Hb). apply (IH rs); [exact Hrs|apply at_mk0|lens].
Qed.

(** ** The lower triangle *)
Definition tri_key (e : nat * nat) : nat := fst e * (fst e + 1) / 2 + snd e.
Lemma tri_S n : tri (S n) = tri n ++ map (fun j => (n, j)) (seq 0 (S n)).
Proof. unfold tri. rewrite (seq_S n 0) at 1. rewrite flat_map_app. cbn [flat_map]. now rewrite app_nil_r. Qed.
Lemma half_S n : S n * (S n + 1) / 2 = n * (n + 1) / 2 + S n.
Proof. replace (S n * (S n + 1)) with (n * (n + 1) + S n * 2) by lia. now rewrite Nat.div_add by lia. Qed.
Lemma tri_length n : List.length (tri n) = n * (n + 1) / 2.
Proof. induction n as [|n IH]; [reflexivity|]. rewrite tri_S, app_length, map_length, seq_length, IH, half_S. reflexivity. Qed.
Lemma tri_keys n : map tri_key (tri n) = seq 0 (n * (n + 1) / 2).
Proof.
  induction n as [|n IH]; [reflexivity|]. rewrite tri_S, map_app, IH, half_S, seq_app. f_equal. rewrite map_map. cbn [fst snd].
  clear. rewrite Nat.add_0_l. unfold tri_key. cbn [fst snd]. generalize (n * (n + 1) / 2). intros k. generalize (S n). intros m.
  assert (G : forall a, map (fun x => k + x) (seq a m) = seq (k + a) m). { induction m as [|m IH]; intros a; [reflexivity|]. cbn. rewrite IH. f_equal. f_equal. lia. }
  rewrite G. now rewrite Nat.add_0_r.
Qed.
Lemma tri_nodup n : NoDup (tri n).
Proof. apply (NoDup_map_inv tri_key). rewrite tri_keys. apply seq_NoDup. Qed.
Lemma tri_in n i j : In (i, j) (tri n) <-> i < n /\ j <= i.
Proof.
  unfold tri. rewrite in_flat_map. split.
  - intros (x & H1 & H2). apply in_seq in H1. apply in_map_iff in H2. destruct H2 as (y & [= <- <-] & H2). apply in_seq in H2. lia.
  - intros [H1 H2]. exists i. split; [apply in_seq; lia|]. apply in_map_iff. exists j. split; [reflexivity|]. apply in_seq. lia.
Qed.
Lemma tri_nth n i j : i < n -> j <= i -> nth (tri_key (i, j)) (tri n) (0, 0) = (i, j).
Proof.
  intros H1 H2. assert (In (i, j) (tri n)) as K by now apply tri_in. apply (In_nth _ _ (0, 0)) in K. destruct K as (k & K1 & K2).
  assert (E : tri_key (i, j) = k); [|now rewrite E].
  assert (N : nth k (map tri_key (tri n)) (tri_key (0, 0)) = tri_key (i, j)) by now rewrite map_nth, K2.
  rewrite tri_keys, seq_nth in N by (now rewrite <- tri_length). lia.
Qed.

Lemma write_tri_other cells : forall vs m a b, ~ In (a, b) cells -> ~ In (b, a) cells -> write_tri cells vs m a b = m a b.
Proof.
  induction cells as [|[i j] cells IH]; intros vs m a b H1 H2; cbn; [reflexivity|]. destruct vs as [|v vs]; [reflexivity|].
  rewrite IH by (intros K; first [apply H1; now right|apply H2; now right]). unfold upd2.
  destruct (Nat.eqb_spec a j), (Nat.eqb_spec b i), (Nat.eqb_spec a i), (Nat.eqb_spec b j); cbn; subst; try reflexivity; exfalso; first [apply H1; now left|apply H2; now left].
Qed.
Lemma write_tri_at cells : forall vs m k i j, NoDup cells -> (forall i j, In (i, j) cells -> j <= i) -> List.length vs = List.length cells -> k < List.length cells -> nth k cells (0, 0) = (i, j) ->
  write_tri cells vs m i j = nth k vs 0%Z /\ write_tri cells vs m j i = nth k vs 0%Z.
Proof.
  induction cells as [|[a b] cells IH]; intros vs m k i j Hnd Hle Hlen Hk Hn; [cbn in Hk; lia|]. destruct vs as [|v vs]; [discriminate|].
  inversion Hnd as [|? ? Hni Hnd']; subst. cbn [write_tri]. destruct k as [|k]; cbn [nth] in *.
  - injection Hn as -> ->. assert (N1 : ~ In (j, i) cells).
    { intros K. assert (i <= j) by (apply (Hle j i); now right). assert (j <= i) by (apply (Hle i j); now left). assert (i = j) by lia. subst. contradiction. }
    rewrite !write_tri_other by assumption. unfold upd2. rewrite !Nat.eqb_refl. cbn.
    split; [|reflexivity]. now destruct ((i =? j) && (j =? i)).
  - cbn in Hk, Hlen. apply IH; [exact Hnd'|intros; apply Hle; now right|lia|lia|exact Hn].
Qed.

Lemma rows_nth n m i j : i < n -> j < n -> nth (i * n + j) (rows n m) 0%Z = m i j.
Proof.
  unfold rows. intros Hi Hj. assert (G : forall k a i, i < k -> nth (i * n + j) (flat_map (fun x => map (m x) (seq 0 n)) (seq a k)) 0%Z = m (a + i) j).
  { clear i Hi. induction k as [|k IH]; intros a i Hi; [lia|]. cbn [seq flat_map]. destruct i as [|i].
    - cbn. rewrite app_nth1 by (rewrite map_length, seq_length; lia). rewrite (nth_indep _ 0%Z (m a 0)) by (rewrite map_length, seq_length; lia).
      rewrite map_nth, seq_nth by lia. now rewrite Nat.add_0_r.
    - rewrite app_nth2 by (rewrite map_length, seq_length; nia). rewrite map_length, seq_length. replace (S i * n + j - n) with (i * n + j) by nia.
      rewrite IH by lia. f_equal. lia. }
  now rewrite G.
Qed.
Lemma rows_length n m : List.length (rows n m) = n * n.
Proof.
  unfold rows. assert (G : forall l, List.length (flat_map (fun x => map (m x) (seq 0 n)) l) = List.length l * n).
  { induction l as [|x l IH]; [reflexivity|]. cbn. rewrite app_length, map_length, seq_length, IH. reflexivity. }
  now rewrite G, seq_length.
Qed.

Lemma readTsp4_header n w d t fuel : tsplib4 n w d t -> (1 <= n <= size_max)%Z -> d <> [] -> List.length t < fuel ->
  exists g, readTsp4 fuel (Some t) = (match fmt_of w with
    | FullMatrix => do d <- read_cells (Z.to_nat n * Z.to_nat n) g ; Ok (mkT n d)
    | LowerDiagRow => do d <- read_cells (List.length (tri (Z.to_nat n))) g ; Ok (mkT n (rows (Z.to_nat n) (write_tri (tri (Z.to_nat n)) d (fun _ _ => 0%Z))))
    | FNA => if (Z.to_nat n =? 0) then Ok (mkT n []) else Err UB end) /\ read_cells (List.length d) g = Ok d.
Proof.
  intros H Hn Hd Hf. destruct H as [t1 t2 t3 l4 cv tn r hs rs tm tail H1 H2 H3 H4 Hcv Htn Hr Hhs Hrs Hd' Htail].
  exists (mkI (tm ++ tail) false false). split.
  - unfold readTsp4. cbv zeta. set (r4 := l4 ++ cv ++ r ++ nl :: hs ++ section ++ rs ++ nl :: tm ++ tail) in *. set (r3 := t3 ++ nl :: r4) in *. set (r2 := t2 ++ nl :: r3) in *.
    destruct (line_of_label (opened (Some (t1 ++ nl :: r2))) t1 r2 H1 (at_mk0 _)) as (l1 & g1 & -> & E1). cbn [bind snd]. rewrite E1.
    destruct (line_of_label (mkI r2 false false) t2 r3 H2 (at_mk0 _)) as (l2 & g2 & -> & E2). cbn [bind snd]. rewrite E2.
    destruct (line_of_label (mkI r3 false false) t3 r4 H3 (at_mk0 _)) as (l3 & g3 & -> & E3). cbn [bind snd]. rewrite E3.
    destruct (colon_parts l4 cv tn r (hs ++ section ++ rs ++ nl :: tm ++ tail) (mkI r4 false false) H4 Hcv Hr (at_mk0 _)) as (g4 & b1 & -> & Hb1 & Hv & E4). cbn [bind snd]. rewrite E4.
    rewrite (get_size_at _ b1 tn n _ (at_mk0 _)); [|apply blanks_whites, Hb1|exact Htn|apply wstart_not_digit; now apply rest_wstart|apply Hn].
    destruct fuel as [|fuel]; [lia|]. rewrite (t4_skip_rest r _ _ _ fuel Hr (at_mk _)).
    change FNA with (fmt_of WOther) at 1. rewrite (t4_skip_at WOther w hs Hhs rs (tm ++ tail)); [|exact Hrs|apply at_mk0|].
    + cbn [bind val]. reflexivity.
    + clear - Hf. unfold r2, r3, r4 in Hf. lens.
  - destruct d as [|z d]; [easy|]. now apply (read_cells_nl z d tm tail).
Qed.

Theorem readTsp4_full n d t fuel : tsplib4 n WFull d t -> (1 <= n <= size_max)%Z -> Z.of_nat (List.length d) = (n * n)%Z -> List.length t < fuel ->
  readTsp4 fuel (Some t) = Ok (mkT n d).
Proof.
  intros H Hn Hd Hf. destruct (readTsp4_header n WFull d t fuel H Hn) as (g & -> & E); [destruct d; [cbn in Hd; nia|discriminate]|exact Hf|].
  cbn [fmt_of]. replace (Z.to_nat n * Z.to_nat n) with (List.length d) by nia. now rewrite E.
Qed.
Theorem readTsp4_lower n d t fuel : tsplib4 n WLowerDiag d t -> (1 <= n <= size_max)%Z -> Z.of_nat (List.length d) = (n * (n + 1) / 2)%Z -> List.length t < fuel ->
  exists m, readTsp4 fuel (Some t) = Ok (mkT n m) /\ List.length m = Z.to_nat n * Z.to_nat n /\
    forall i j, j <= i < Z.to_nat n -> nth (i * Z.to_nat n + j) m 0%Z = nth (i * (i + 1) / 2 + j) d 0%Z /\ nth (j * Z.to_nat n + i) m 0%Z = nth (i * (i + 1) / 2 + j) d 0%Z.
Proof.
  intros H Hn Hd Hf. assert (Hne : d <> []). { destruct d; [|discriminate]. cbn in Hd. assert (1 <= n * (n + 1) / 2)%Z by (apply Z.div_le_lower_bound; nia). lia. }
  destruct (readTsp4_header n WLowerDiag d t fuel H Hn Hne Hf) as (g & -> & E). cbn [fmt_of].
  assert (L : List.length (tri (Z.to_nat n)) = List.length d).
  { rewrite tri_length. apply Nat2Z.inj. rewrite Hd, Nat2Z.inj_div, Nat2Z.inj_mul, Nat2Z.inj_add, Z2Nat.id by lia. reflexivity. }
  rewrite L, E. cbn [bind]. eexists. split; [reflexivity|]. split; [apply rows_length|].
  intros i j [H1 H2]. rewrite !rows_nth by lia. 
  apply (write_tri_at (tri (Z.to_nat n)) d _ (tri_key (i, j)) i j).
  - apply tri_nodup.
  - intros a b K. now apply tri_in in K.
  - now rewrite L.
  - rewrite <- (map_length tri_key), tri_keys, seq_length. unfold tri_key. cbn [fst snd].
    assert (K : S i * (S i + 1) / 2 <= Z.to_nat n * (Z.to_nat n + 1) / 2) by (apply Nat.div_le_mono; nia). rewrite half_S in K. lia.
  - apply tri_nth; lia.
Qed.
(** other formats: the matrix is never filled *)
Theorem readTsp4_other n d t fuel : tsplib4 n WOther d t -> (1 <= n <= size_max)%Z -> d <> [] -> List.length t < fuel -> readTsp4 fuel (Some t) = Err UB.
Proof.
  intros H Hn Hd Hf. destruct (readTsp4_header n WOther d t fuel H Hn Hd Hf) as (g & -> & E). cbn [fmt_of]. destruct (Nat.eqb_spec (Z.to_nat n) 0); [lia|reflexivity].
Qed.

(** without the section: a label is the beginning of what was left, or ends with the character 255 *)
Lemma read_label_res n : forall f rv, read_label n f rv = Err OutOfFuel \/ exists l g, read_label n f rv = Ok (l, g) /\ suf g f /\
  ((exists k q, l = rv ++ k /\ i_rest f = k ++ q) \/ last l " " = "255").
Proof.
  induction n as [|n IH]; intros f rv; [now left|]. cbn [read_label]. destruct (good f) eqn:G.
  - destruct (i_rest f) as [|c r] eqn:E.
    + right. eexists _, _. split; [reflexivity|]. split; [exists []; now rewrite E|]. right. now rewrite last_last.
    + destruct (is_space c || (if ascii_dec c ":" then true else false)).
      * right. eexists _, _. split; [reflexivity|]. split; [apply suf_refl|]. left. exists [], (c :: r). split; [now rewrite app_nil_r|reflexivity].
      * destruct (IH (mkI r false false) (rv ++ [c])) as [H|(l & g & H & S1 & K)]; [now left|]. right. exists l, g. split; [exact H|]. split.
        { eapply suf_trans; [exact S1|]. exists [c]. now rewrite E. }
        destruct K as [(k & q & K1 & K2)|K]; [left|now right]. exists (c :: k), q. cbn in K2. rewrite K1, K2, <- app_assoc. now split.
  - destruct (i_eof f).
    + right. eexists _, _. split; [reflexivity|]. split; [now exists []|]. right. now rewrite last_last.
    + destruct (IH (mkI (i_rest f) false true) (rv ++ ["255"])) as [H|(l & g & H & S1 & K)]; [now left|]. right. exists l, g. split; [exact H|]. split.
      { eapply suf_trans; [exact S1|]. now exists []. }
      clear - H. (* the stream stays in this state, so the loop does not end *)
      exfalso. revert H. generalize (rv ++ ["255"]). clear. induction n as [|n IH]; intros rv; cbn [read_label good i_eof i_fail orb negb]; [discriminate|]. cbn [i_rest]. apply IH.
Qed.
Lemma label_of_res f : label_of f = Err OutOfFuel \/ exists l g, label_of f = Ok (l, g) /\ suf g f /\ (infix l (i_rest f) \/ l <> section).
Proof.
  destruct (read_label_res (fuel_of f) f []) as [H|(l & g & H & S1 & K)]; [now left|]. right. exists l, g. split; [exact H|]. split; [exact S1|].
  destruct K as [(k & q & K1 & K2)|K]; [left|right]; [exists [], q; cbn in *; now subst|]. intros ->. discriminate K.
Qed.
Lemma t4_skip_endless t fuel : ~ infix section t -> forall f wf, suf f (mkI t false false) -> t4_skip fuel f wf = Err OutOfFuel.
Proof.
  intros Ht. induction fuel as [|n IH]; intros f wf Hf; [reflexivity|]. cbn [t4_skip].
  destruct (label_of_res f) as [->|(l & g & -> & Sg & Hl)]; [reflexivity|]. cbn [bind].
  destruct (list_eq_dec ascii_dec l (chars "EDGE_WEIGHT_TYPE")).
  { apply IH. unfold snd_word. eapply suf_trans; [apply get_word_suf|]. eapply suf_trans; [apply get_word_suf|]. eapply suf_trans; eassumption. }
  destruct (list_eq_dec ascii_dec l (chars "EDGE_WEIGHT_FORMAT")).
  { pose proof (get_word_suf (snd_word g)) as S2. destruct (get_word (snd_word g)) as [b f2]. cbn [snd] in S2. apply IH.
    eapply suf_trans; [exact S2|]. unfold snd_word. eapply suf_trans; [apply get_word_suf|]. eapply suf_trans; eassumption. }
  destruct (list_eq_dec ascii_dec l (chars "EDGE_WEIGHT_SECTION")) as [->|].
  { destruct Hl as [Hl|Hl]; [|now destruct Hl]. exfalso. apply Ht. exact (infix_suf _ _ _ Hf Hl). }
  apply IH. eapply suf_trans; [apply getline_suf|]. eapply suf_trans; eassumption.
Qed.
Theorem readTsp4_endless t fuel : ~ infix section t -> readTsp4 fuel (Some t) = Err OutOfFuel.
Proof.
  intros Ht. unfold readTsp4. cbv zeta.
  destruct (label_of_res (opened (Some t))) as [->|(l1 & g1 & -> & S1 & _)]; [reflexivity|]. cbn [bind snd].
  destruct (label_of_res (getline g1)) as [->|(l2 & g2 & -> & S2 & _)]; [reflexivity|]. cbn [bind snd].
  destruct (label_of_res (getline g2)) as [->|(l3 & g3 & -> & S3 & _)]; [reflexivity|]. cbn [bind snd].
  destruct (label_of_res (getline g3)) as [->|(l4 & g4 & -> & S4 & _)]; [reflexivity|]. cbn [bind snd].
  pose proof (get_num_suf conv_size (snd_word g4)) as S5. unfold get_size. destruct (get_num conv_size (snd_word g4)) as [nv f5]. cbn [snd] in S5.
  rewrite (t4_skip_endless t); [reflexivity|exact Ht|].
  eapply suf_trans; [exact S5|]. unfold snd_word. eapply suf_trans; [apply get_word_suf|]. eapply suf_trans; [exact S4|].
  eapply suf_trans; [apply getline_suf|]. eapply suf_trans; [exact S3|]. eapply suf_trans; [apply getline_suf|]. eapply suf_trans; [exact S2|].
  eapply suf_trans; [apply getline_suf|]. exact S1.
Qed.
(** a file that cannot be opened: readLabel itself does not come back *)
Theorem readTsp4_missing fuel : readTsp4 fuel None = Err OutOfFuel.
Proof. reflexivity. Qed.
Theorem readLabel_missing n rv : read_label n (opened None) rv = Err OutOfFuel.
Proof. revert rv. induction n as [|n IH]; intros rv; [reflexivity|]. cbn. apply IH. Qed.
