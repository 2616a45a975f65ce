(** Proofs about ReadTwModel.v. *)
From Coq Require Import Ascii String.
From Verif Require Import Base DDModel DDFrame SearchModel TspModel TourModel TourTop ReadModel ReadSpec ReadProofs ReadTerm ReadRun ReadTsp ProgModel ProgSpec ProgTsp ReadTwModel ReadTwSpec.
Local Open Scope char_scope.
Local Open Scope nat_scope.
Local Open Scope list_scope.

Lemma at_good f c r : at_ f (c :: r) -> good f = true /\ i_rest f = c :: r.
Proof. intros H. apply at_cons in H. subst. auto. Qed.
Lemma get_raw_at f c r : at_ f (c :: r) -> get_raw f = (Some c, mkI r false false).
Proof. intros H. apply at_cons in H. subst. reflexivity. Qed.
Lemma tw_skip_at fl : filler fl -> forall c r f fuel, at_ f (fl ++ c :: r) -> ~ white c -> c <> "#" -> List.length fl < fuel -> tw_skip fuel f = Ok (mkI (c :: r) false false).
Proof.
  induction 1 as [|x t Hx Ht IH|l t Hl Ht IH]; intros c r f fuel Hat Hc Hs Hf; (destruct fuel as [|n]; [lia|]); cbn [tw_skip].
  - rewrite (get_raw_at _ _ _ Hat). destruct (ascii_dec c "#"); [easy|]. apply is_space_not in Hc. now rewrite Hc.
  - cbn [app] in Hat. rewrite (get_raw_at _ _ _ Hat). destruct (ascii_dec x "#") as [->|_].
    + apply is_space_white in Hx. discriminate.
    + apply is_space_white in Hx. rewrite Hx. apply IH; auto; [apply at_mk0|cbn in Hf; lia].
  - cbn [app] in Hat. rewrite <- app_assoc in Hat. cbn [app] in Hat. rewrite (get_raw_at _ _ _ Hat). destruct (ascii_dec "#" "#") as [_|E]; [|easy].
    rewrite (getline_at _ l (t ++ c :: r)); [|apply at_mk0|exact Hl]. cbn [i_eof]. apply IH; auto; [apply at_mk0|]. cbn in Hf. rewrite app_length in Hf. cbn in Hf. lia.
Qed.
Lemma tw_skip_filler fl : filler fl -> forall f fuel, at_ f fl -> List.length fl < fuel -> exists g, tw_skip fuel f = Ok g /\ i_fail g = true.
Proof.
  induction 1 as [|x t Hx Ht IH|l t Hl Ht IH]; intros f fuel Hat Hf; (destruct fuel as [|n]; [lia|]); cbn [tw_skip].
  - destruct Hat as (H1 & H2 & H3). unfold get_raw, good. rewrite H1, H2. destruct (i_eof f); cbn; eauto.
  - rewrite (get_raw_at _ _ _ Hat). destruct (ascii_dec x "#") as [->|_].
    + apply is_space_white in Hx. discriminate.
    + apply is_space_white in Hx. rewrite Hx. apply IH; auto; [apply at_mk0|cbn in Hf; lia].
  - rewrite (get_raw_at _ _ _ Hat). destruct (ascii_dec "#" "#") as [_|E]; [|easy].
    rewrite (getline_at _ l t); [|apply at_mk0|exact Hl]. cbn [i_eof]. apply IH; auto; [apply at_mk0|]. cbn in Hf. rewrite app_length in Hf. cbn in Hf. lia.
Qed.
Lemma tw_skip_over fl : filler fl -> forall r f fuel, at_ f (fl ++ r) -> List.length fl < fuel ->
  exists g n, tw_skip fuel f = tw_skip n g /\ at_ g r /\ n + List.length fl >= fuel.
Proof.
  induction 1 as [|x t Hx Ht IH|l t Hl Ht IH]; intros r f fuel Hat Hf; (destruct fuel as [|n]; [lia|]).
  - exists f, (S n). csplit; auto. cbn [List.length]. lia.
  - cbn [tw_skip]. cbn [app] in Hat. rewrite (get_raw_at _ _ _ Hat). destruct (ascii_dec x "#") as [->|_].
    + apply is_space_white in Hx. discriminate.
    + apply is_space_white in Hx. rewrite Hx. destruct (IH r _ n (at_mk0 _)) as (g & k & E & G & L); [cbn in Hf; lia|]. exists g, k. csplit; auto. cbn [List.length]. lia.
  - cbn [tw_skip]. cbn [app] in Hat. rewrite <- app_assoc in Hat. cbn [app] in Hat. rewrite (get_raw_at _ _ _ Hat). destruct (ascii_dec "#" "#") as [_|E]; [|easy].
    rewrite (getline_at _ l (t ++ r)); [|apply at_mk0|exact Hl]. cbn [i_eof]. cbn [List.length] in *. rewrite app_length in *. cbn [List.length] in *.
    destruct (IH r _ n (at_mk0 _)) as (g & k & E & G & L); [lia|]. exists g, k. csplit; auto. lia.
Qed.
(** at the end of the file nothing can be read any more *)
Lemma tw_skip_end fl f fuel : filler_end fl -> at_ f fl -> List.length fl < fuel -> exists g, tw_skip fuel f = Ok g /\ good g = false.
Proof.
  intros [t Ht|t l Ht Hl] Hat Hf.
  - destruct (tw_skip_filler t Ht f fuel Hat Hf) as (g & E & F). exists g. split; [exact E|]. unfold good. rewrite F. now rewrite orb_true_r.
  - rewrite app_length in Hf. cbn [List.length] in Hf. destruct (tw_skip_over t Ht _ f fuel Hat ltac:(lia)) as (g & k & E & G & L). rewrite E. destruct k as [|k]; [lia|]. cbn [tw_skip].
    rewrite (get_raw_at _ _ _ G). destruct (ascii_dec "#" "#") as [_|X]; [|easy]. pose proof (getline_end _ l (at_mk0 l) Hl) as Q. cbv zeta. rewrite Q. eexists. split; [reflexivity|]. unfold good. now rewrite Q.
Qed.

(** ** numbers *)
Lemma get_double_at f s t z r : at_ f (s ++ t ++ r) -> whites s -> integer t z -> (r = [] \/ exists c q, r = c :: q /\ (white c \/ c = "#")) -> get_double f = Ok (Some z, mkI r (is_nil r) false).
Proof.
  intros H Hs [Hz Hn] Hr.
  assert (Hd : no_digit r). { destruct Hr as [->|(c & q & -> & [W| ->])]; [exact I|now apply (wstart_not_digit (c :: q)), wstart_cons|cbn; lia]. }
  assert (E : get_num conv_dbl f = (Some z, mkI r (is_nil r) false)).
  { destruct Hn as [Hn|(t' & -> & Hn)].
    - now rewrite (num_at _ _ _ _ _ _ H Hs Hn Hd).
    - rewrite (num_at_neg _ _ _ _ _ _ H Hs Hn Hd). cbn. now rewrite Z.opp_involutive. }
  unfold get_double. rewrite E. destruct (Z.ltb_spec 9007199254740992 (Z.abs z)); [lia|]. cbn [i_rest].
  destruct Hr as [->|(c & q & -> & Hc)]; [reflexivity|]. unfold frac_char.
  destruct (ascii_dec c ".") as [->|_]; [exfalso; destruct Hc as [Hc|Hc]; [apply is_space_white in Hc|]; discriminate|].
  destruct (ascii_dec c "e") as [->|_]; [exfalso; destruct Hc as [Hc|Hc]; [apply is_space_white in Hc|]; discriminate|].
  destruct (ascii_dec c "E") as [->|_]; [exfalso; destruct Hc as [Hc|Hc]; [apply is_space_white in Hc|]; discriminate|]. reflexivity.
Qed.
Definition fstart (t : text) : Prop := t = [] \/ exists c q, t = c :: q /\ (white c \/ c = "#").
Lemma fstart_filler t r : filler t -> t <> [] -> fstart (t ++ r).
Proof. intros [|c q Hc _|l q _ _] N; [easy| |]; right; cbn [app]; eauto. Qed.
Lemma fstart_end t : filler_end t -> fstart t.
Proof.
  intros [q H|q l H _].
  - destruct q as [|c q]; [now left|]. rewrite <- (app_nil_r (c :: q)). now apply fstart_filler.
  - destruct q as [|c q]; [right; cbn; eauto|]. now apply fstart_filler.
Qed.
Lemma fstart_ints zs r tail : ints zs r -> fstart tail -> fstart (r ++ tail).
Proof. intros [|s t z zs' q [N G] I1 Hq] H; [exact H|]. destruct s as [|c s]; [easy|]. inversion G; subst. right. cbn. eauto. Qed.
Lemma fstart_no_digit t : fstart t -> no_digit t.
Proof. intros [->|(c & q & -> & [W| ->])]; [exact I|now apply (wstart_not_digit (c :: q)), wstart_cons|cbn; lia]. Qed.
Lemma tw_cells_at zs : forall r tail f, ints zs r -> fstart tail -> at_ f (r ++ tail) -> exists g, tw_cells (List.length zs) f = Ok (zs, g) /\ at_ g tail.
Proof.
  induction zs as [|z zs IH]; intros r tail f Hr Ht Hat.
  - inversion Hr; subst. exists f. auto.
  - apply ints_inv in Hr. destruct Hr as (s & t & q & G & I1 & Hr & ->). cbn [List.length tw_cells]. rewrite <- !app_assoc in Hat.
    rewrite (get_double_at f s t z (q ++ tail)); [|exact Hat|apply G|exact I1|now apply (fstart_ints zs)]. cbn [val bind].
    destruct (IH q tail _ Hr Ht (at_mk _)) as (g & -> & A). cbn [bind]. eauto.
Qed.
(** the newline before the first number is part of what precedes *)
Lemma first_num z zs r : ints (z :: zs) (nl :: r) -> exists s t q, whites s /\ integer t z /\ ints zs q /\ r = s ++ t ++ q.
Proof.
  intros Hr. apply ints_inv in Hr. destruct Hr as (s & t & q & [N G] & I1 & Hr & E). destruct s as [|c s]; [easy|]. cbn [app] in E. injection E as <- ->. inversion G; subst. eauto 8.
Qed.
Lemma tw_cells_nl z zs r tail f : ints (z :: zs) (nl :: r) -> fstart tail -> at_ f (r ++ tail) -> exists g, tw_cells (List.length (z :: zs)) f = Ok (z :: zs, g) /\ at_ g tail.
Proof.
  intros Hr Ht Hat. destruct (first_num z zs r Hr) as (s & t & q & G & I1 & Hq & ->). cbn [List.length tw_cells]. rewrite <- !app_assoc in Hat.
  rewrite (get_double_at f s t z (q ++ tail)); [|exact Hat|exact G|exact I1|now apply (fstart_ints zs)]. cbn [val bind].
  destruct (tw_cells_at zs q tail _ Hq Ht (at_mk _)) as (g & -> & A). cbn [bind]. eauto.
Qed.
Lemma tw_wins_at ws : forall r tail f, ints (flat_pairs ws) r -> no_digit tail -> at_ f (r ++ tail) -> tw_wins (List.length ws) f = Ok ws.
Proof.
  induction ws as [|[a b] ws IH]; intros r tail f Hr Ht Hat; [reflexivity|]. cbn [flat_pairs flat_map app fst snd] in Hr. change (flat_map _ ws) with (flat_pairs ws) in Hr.
  apply ints_inv in Hr. destruct Hr as (s & t & q & G & I1 & Hr & ->). apply ints_inv in Hr. destruct Hr as (s' & t' & q' & G' & I1' & Hr' & ->).
  cbn [List.length tw_wins]. rewrite <- !app_assoc in Hat.
  rewrite (get_int_at f s t a (s' ++ t' ++ q' ++ tail)); [|exact Hat|apply G|exact I1|apply wstart_not_digit; now apply wstart_gap].
  rewrite (get_int_at _ s' t' b (q' ++ tail) (at_mk _)); [|apply G'|exact I1'|now apply (ints_start _ _ _ Hr')]. cbn [val bind].
  now rewrite (IH q' tail _ Hr' Ht (at_mk _)).
Qed.
Lemma tw_wins_nl w ws r tail f : ints (flat_pairs (w :: ws)) (nl :: r) -> no_digit tail -> at_ f (r ++ tail) -> tw_wins (List.length (w :: ws)) f = Ok (w :: ws).
Proof.
  destruct w as [a b]. intros Hr Ht Hat. cbn [flat_pairs flat_map app fst snd] in Hr. change (flat_map _ ws) with (flat_pairs ws) in Hr.
  destruct (first_num _ _ r Hr) as (s & t & q & G & I1 & Hq & ->). apply ints_inv in Hq. destruct Hq as (s' & t' & q' & G' & I1' & Hr' & ->).
  cbn [List.length tw_wins]. rewrite <- !app_assoc in Hat.
  rewrite (get_int_at f s t a (s' ++ t' ++ q' ++ tail)); [|exact Hat|exact G|exact I1|apply wstart_not_digit; now apply wstart_gap].
  rewrite (get_int_at _ s' t' b (q' ++ tail) (at_mk _)); [|apply G'|exact I1'|now apply (ints_start _ _ _ Hr')]. cbn [val bind].
  now rewrite (tw_wins_at ws q' tail _ Hr' Ht (at_mk _)).
Qed.

(** ** the file *)
Lemma int_head t z : integer t z -> exists c r, t = c :: r /\ ~ white c /\ c <> "#".
Proof.
  intros [_ [H|(t' & -> & H)]].
  - destruct (numeral_head _ _ H) as (c & r & -> & D). exists c, r. csplit; auto; [now apply digit_not_white|intros ->; discriminate].
  - exists "-", t'. csplit; auto; [intros W; apply is_space_white in W; discriminate|discriminate].
Qed.
(** white space before the first number belongs to the filler *)
Lemma filler_app a b : filler a -> filler b -> filler (a ++ b).
Proof. induction 1; intros; cbn [app]; auto; [constructor; auto|]. rewrite <- app_assoc. cbn [app]. apply fl_comment; auto. Qed.
Lemma filler_whites s : whites s -> filler s.
Proof. induction 1; constructor; auto. Qed.
(** skip stops at the first number *)
Lemma skip_to fl z zs r tail f : filler fl -> ints (z :: zs) (nl :: r) -> at_ f (fl ++ r ++ tail) ->
  exists r', tw_skip (fuel_of f) f = Ok (mkI (r' ++ tail) false false) /\ ints (z :: zs) (nl :: r').
Proof.
  intros Hf Hr Hat. destruct (first_num z zs r Hr) as (s & t & q & G & I1 & Hq & ->). destruct (int_head t z I1) as (c & u & Et & W & N).
  exists (t ++ q). split.
  - subst t. assert (Hat' : at_ f ((fl ++ s) ++ c :: (u ++ q ++ tail))).
    { replace ((fl ++ s) ++ c :: (u ++ q ++ tail)) with (fl ++ (s ++ (c :: u) ++ q) ++ tail); [exact Hat|]. now rewrite <- !app_assoc. }
    rewrite (tw_skip_at (fl ++ s)) with (c := c) (r := u ++ q ++ tail); auto.
    + now rewrite <- app_assoc.
    + apply filler_app; [exact Hf|now apply filler_whites].
    + unfold fuel_of. destruct Hat' as [-> _]. rewrite !app_length. cbn. lia.
  - change (nl :: t ++ q) with ([nl] ++ t ++ q). constructor; auto. split; [discriminate|]. constructor; [exact nl_white|constructor].
Qed.

Lemma numeral_start t n r : numeral t n -> exists c q, t ++ r = c :: q /\ ~ white c /\ c <> "#".
Proof. intros H. destruct (numeral_head _ _ H) as (c & q & -> & D). exists c, (q ++ r). csplit; auto; [now apply digit_not_white|intros ->; discriminate]. Qed.
(** the part of the reader before the windows *)
Lemma read_head n d f1 tn f2 td rest : filler f1 -> numeral tn n -> filler f2 -> f2 <> [] -> ints d (nl :: td) -> fstart rest -> (1 <= n <= size_max)%Z -> Z.of_nat (List.length d) = (n * n)%Z ->
  exists g, at_ g rest /\ readTw (Some (f1 ++ tn ++ f2 ++ td ++ rest)) = do f5 <- tw_skip (fuel_of g) g ; do w <- tw_wins (Z.to_nat n) f5 ; Ok (mkTw n d w).
Proof.
  intros F1 N1 F2 Ne D1 Hr Hn Hl. unfold readTw. cbv zeta. destruct (numeral_start tn n (f2 ++ td ++ rest) N1) as (c & q & Ec & W & X).
  assert (S1 : tw_skip (fuel_of (opened (Some (f1 ++ tn ++ f2 ++ td ++ rest)))) (opened (Some (f1 ++ tn ++ f2 ++ td ++ rest))) = Ok (mkI (tn ++ f2 ++ td ++ rest) false false)).
  { rewrite Ec. apply (tw_skip_at f1); auto; [apply at_mk0|]. unfold fuel_of. cbn [opened i_rest]. rewrite app_length. cbn. lia. }
  rewrite S1. cbn [bind]. rewrite (get_size_at _ [] tn n (f2 ++ td ++ rest)); [|apply at_mk0|constructor|exact N1|apply fstart_no_digit; now apply fstart_filler|apply Hn].
  cbn [val bind]. destruct d as [|z d]; [cbn in Hl; nia|].
  destruct (skip_to f2 z d td rest _ F2 D1 (at_mk _)) as (r' & -> & D2). cbn [bind].
  replace (Z.to_nat n * Z.to_nat n) with (List.length (z :: d)) by nia. destruct (tw_cells_nl z d r' rest _ D2 Hr (at_mk0 _)) as (g & -> & G). cbn [bind]. exists g. split; auto.
Qed.
Theorem readTw_ok n d win t : twfile n d win t -> (1 <= n <= size_max)%Z -> Z.of_nat (List.length d) = (n * n)%Z -> Z.of_nat (List.length win) = n -> readTw (Some t) = Ok (mkTw n d win).
Proof.
  intros H Hn Hd Hw. destruct H as [f1 tn f2 td f3 tw tail F1 N1 F2 Ne2 D1 F3 Ne3 W1 Ht].
  destruct (read_head n d f1 tn f2 td (f3 ++ tw ++ tail) F1 N1 F2 Ne2 D1 (fstart_filler _ _ F3 Ne3) Hn Hd) as (g & G & ->).
  destruct win as [|w0 win]; [cbn in Hw; lia|]. destruct w0 as [a b].
  assert (S1 : exists r', tw_skip (fuel_of g) g = Ok (mkI (r' ++ tail) false false) /\ ints (flat_pairs ((a, b) :: win)) (nl :: r')) by exact (skip_to f3 a _ tw tail g F3 W1 G).
  destruct S1 as (r' & -> & W2). cbn [bind]. replace (Z.to_nat n) with (List.length ((a, b) :: win)) by lia. now rewrite (tw_wins_nl (a, b) win r' tail _ W2 Ht (at_mk0 _)).
Qed.
(** a file without windows *)
Theorem readTw_no_windows n d t : matrix_only n d t -> (1 <= n <= size_max)%Z -> Z.of_nat (List.length d) = (n * n)%Z -> readTw (Some t) = Err UB.
Proof.
  intros H Hn Hd. destruct H as [f1 tn f2 td f3 F1 N1 F2 Ne2 D1 F3].
  destruct (read_head n d f1 tn f2 td f3 F1 N1 F2 Ne2 D1 (fstart_end _ F3) Hn Hd) as (g & G & ->).
  destruct (tw_skip_end f3 g (fuel_of g) F3 G) as (h & -> & B); [unfold fuel_of; destruct G as [-> _]; lia|]. cbn [bind].
  destruct (Z.to_nat n) as [|k] eqn:E; [lia|]. cbn [tw_wins].
  assert (Q : exists h', get_int h = (None, h')). { unfold get_int, get_num, sentry. rewrite B. eauto. }
  destruct Q as (h' & ->). destruct (get_int h'). reflexivity.
Qed.
Theorem readTw_missing : readTw None = Err UB.
Proof. reflexivity. Qed.

(** ** the reader ends *)
Lemma get_raw_some f c g : get_raw f = (Some c, g) -> List.length (i_rest g) < List.length (i_rest f).
Proof. unfold get_raw. destruct (good f); [|discriminate]. destruct (i_rest f); [discriminate|]. intros [= <- <-]. cbn. lia. Qed.
Lemma tw_skip_ends n : forall f, List.length (i_rest f) < n -> tw_skip n f <> Err OutOfFuel.
Proof.
  induction n as [|n IH]; intros f Hf; [lia|]. cbn [tw_skip]. destruct (get_raw f) as [[c|] g] eqn:E; [|discriminate]. apply get_raw_some in E.
  destruct (ascii_dec c "#").
  - cbv zeta. destruct (i_eof (getline g)); [discriminate|]. apply IH. pose proof (suf_len _ _ (getline_suf g)). lia.
  - destruct (is_space c); [apply IH; lia|discriminate].
Qed.
Lemma tw_cells_ends n : forall f, tw_cells n f <> Err OutOfFuel.
Proof.
  induction n as [|n IH]; intros f; cbn [tw_cells]; [discriminate|]. unfold get_double. destruct (get_num conv_dbl f) as [[z|] g].
  - destruct (_ <? _)%Z; [discriminate|]. assert (Q : forall f', (do q <- tw_cells n f' ; let '(vs, f2) := q in Ok (z :: vs, f2)) <> Err OutOfFuel).
    { intros f'. specialize (IH f'). destruct (tw_cells n f') as [[vs f2]|]; cbn; [discriminate|congruence]. }
    destruct (i_rest g) as [|c r]; [|destruct (frac_char c); [discriminate|]]; cbn [bind val]; apply Q.
  - discriminate.
Qed.
Lemma tw_wins_ends n : forall f, tw_wins n f <> Err OutOfFuel.
Proof.
  induction n as [|n IH]; intros f; cbn [tw_wins]; [discriminate|]. destruct (get_int f) as [a f1]. destruct (get_int f1) as [b f2]. destruct a as [x|]; [|discriminate]. cbn [val bind].
  destruct b as [y|]; [|discriminate]. cbn [val bind]. specialize (IH f2). destruct (tw_wins n f2); cbn; [discriminate|congruence].
Qed.
Theorem readTw_ends file : readTw file <> Err OutOfFuel.
Proof.
  assert (SK : forall f, tw_skip (fuel_of f) f <> Err OutOfFuel) by (intros f; apply tw_skip_ends; unfold fuel_of; lia).
  unfold readTw. cbv zeta. pose proof (SK (opened file)) as S1. destruct (tw_skip _ (opened file)) as [f1|e]; cbn [bind]; [|congruence].
  destruct (get_size f1) as [x f2]. destruct x as [nv|]; [|discriminate]. cbn [val bind]. pose proof (SK f2) as S2. destruct (tw_skip _ f2) as [f3|e]; cbn [bind]; [|congruence].
  pose proof (tw_cells_ends (Z.to_nat nv * Z.to_nat nv) f3) as S3. destruct (tw_cells _ f3) as [[d f4]|e]; cbn [bind]; [|congruence].
  pose proof (SK f4) as S4. destruct (tw_skip _ f4) as [f5|e]; cbn [bind]; [|congruence].
  pose proof (tw_wins_ends (Z.to_nat nv) f5) as S5. destruct (tw_wins _ f5); cbn [bind]; [discriminate|congruence].
Qed.

(** ** from the file to the result *)
Lemma good_tw n hi junk srt dfuel w lim : (1 <= n <= 2147483647)%Z -> (forall dd l, Permutation (srt dd l) l) -> Z.to_nat n < dfuel -> (N.of_nat w < 4294967296)%N ->
  forall ds win t, twfile n ds win t -> cells_ok n hi ds -> Z.of_nat (List.length win) = n -> (forall r, round_trip (Z.to_nat n) r -> (junk <= trip_length (full_entry (Z.to_nat n) ds) r)%Z) ->
  good_run n (fun k => 2 ^ k * k * k) w lim (fun fuel => main_tw srt dfuel lim fuel w junk (Some t)) (full_entry (Z.to_nat n) ds).
Proof.
  intros Hn Hs Hd Hw ds win t HF C Lw J.
  pose proof (good_matrix n hi junk (fun k => 2 ^ k * k * k) Hn (fun k d => tw_prob k d junk) (fun k d => tp_w k d junk) srt dfuel w lim Hs Hd Hw ds C J) as G.
  unfold good_run, main_tw in *. assert (E : readTw (Some t) = Ok (mkTw n ds win)) by (apply readTw_ok; auto; [unfold size_max; lia|apply C]). rewrite E. cbn [bind tw_nv tw_d].
  destruct (Z.to_nat n =? 0) eqn:Z0; [apply Nat.eqb_eq in Z0; lia|]. exact G.
Qed.
(** the windows make no difference *)
Lemma tw_same n ds win win' t t' srt dfuel lim fuel w junk : twfile n ds win t -> twfile n ds win' t' -> (1 <= n <= size_max)%Z -> Z.of_nat (List.length ds) = (n * n)%Z ->
  Z.of_nat (List.length win) = n -> Z.of_nat (List.length win') = n -> main_tw srt dfuel lim fuel w junk (Some t) = main_tw srt dfuel lim fuel w junk (Some t').
Proof. intros H H' Hn Hd L L'. unfold main_tw. now rewrite (readTw_ok _ _ _ _ H Hn Hd L), (readTw_ok _ _ _ _ H' Hn Hd L'). Qed.
