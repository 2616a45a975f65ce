(** Proofs about ReadModel.v: operations of the stream on well-formed text, the DIMACS reader. *)
From Coq Require Import Ascii String Sorted.
From Verif Require Import Base TspModel MispModel MSortModel ReadModel ReadSpec.
Local Open Scope char_scope.
Local Open Scope nat_scope.
Local Open Scope list_scope.

(** ** Characters *)
Lemma ascii_nat c d : nat_of_ascii c = nat_of_ascii d -> c = d.
Proof. intros H. rewrite <- (ascii_nat_embedding c), <- (ascii_nat_embedding d). now f_equal. Qed.

Lemma is_space_white c : is_space c = true <-> white c.
Proof.
  unfold is_space, white, blank, nl. split; intros H.
  - assert (nat_of_ascii c = 32 \/ nat_of_ascii c = 9 \/ nat_of_ascii c = 13 \/ nat_of_ascii c = 10 \/ nat_of_ascii c = 11 \/ nat_of_ascii c = 12) as K by lia.
    destruct K as [K|[K|[K|[K|[K|K]]]]].
    + left. left. now apply (ascii_nat c " ").
    + left. right. left. now apply (ascii_nat c "009").
    + left. right. right. now apply (ascii_nat c "013").
    + right. left. now apply (ascii_nat c "010").
    + right. right. left. now apply (ascii_nat c "011").
    + right. right. right. now apply (ascii_nat c "012").
  - decompose [or] H; subst; reflexivity.
Qed.
Lemma is_space_not c : is_space c = false <-> ~ white c.
Proof. rewrite <- is_space_white. destruct (is_space c); split; intros H; try congruence; exfalso; auto. Qed.

Lemma nl_white : white nl.
Proof. right. now left. Qed.
Lemma blank_white c : blank c -> white c.
Proof. now left. Qed.
Lemma blanks_whites t : blanks t -> whites t.
Proof. apply Forall_impl, blank_white. Qed.
Lemma gap_wgap t : gap t -> wgap t.
Proof. intros [H1 H2]. split; auto using blanks_whites. Qed.
Lemma blank_not_nl c : blank c -> c <> nl.
Proof. unfold blank, nl. intros [H|[H|H]]; subst; discriminate. Qed.
Lemma blanks_one_line t : blanks t -> ~ In nl t.
Proof. intros H K. apply (proj1 (Forall_forall _ _) H) in K. exact (blank_not_nl _ K eq_refl). Qed.

(** first character of what follows a token *)
Definition wstart (t : text) : Prop := t = [] \/ exists c r, t = c :: r /\ white c.
Lemma wstart_nil : wstart [].
Proof. now left. Qed.
Lemma wstart_cons c r : white c -> wstart (c :: r).
Proof. right. eauto. Qed.
Lemma wstart_gap g r : wgap g -> wstart (g ++ r).
Proof. intros [H1 H2]. destruct g as [|c g]; [easy|]. inversion H2; subst. right. exists c, (g ++ r). auto. Qed.
Lemma wstart_app s r : whites s -> wstart r -> wstart (s ++ r).
Proof. intros H K. destruct s as [|c s]; [exact K|]. apply wstart_gap. now split. Qed.
Lemma wstart_not_digit t : wstart t -> no_digit t.
Proof.
  intros [->|(c & r & -> & H)]; [exact Logic.I|]. cbn. apply is_space_white in H. unfold is_space in H. lia.
Qed.

(** ** The stream *)
(** the stream has read everything before [r] *)
Definition at_ (f : istr) (r : text) : Prop := i_rest f = r /\ i_fail f = false /\ (i_eof f = true -> r = []).
Lemma at_mk r : at_ (mkI r (is_nil r) false) r.
Proof. repeat split. destruct r; [auto|discriminate]. Qed.
Lemma at_mk0 r : at_ (mkI r false false) r.
Proof. now repeat split. Qed.
Lemma at_cons f c r : at_ f (c :: r) -> f = mkI (c :: r) false false.
Proof. destruct f as [l e b]. intros (H1 & H2 & H3). cbn in *. subst. destruct e; [now specialize (H3 eq_refl)|reflexivity]. Qed.
Lemma at_eof_cons f c r : at_ f (c :: r) -> i_eof f = false.
Proof. intros H. apply at_cons in H. now subst. Qed.

Lemma drop_ws_app s t : whites s -> drop_ws (s ++ t) = drop_ws t.
Proof. induction 1 as [|c s Hc Hs IH]; [reflexivity|]. cbn. apply is_space_white in Hc. now rewrite Hc. Qed.
Lemma drop_ws_stop c r : ~ white c -> drop_ws (c :: r) = c :: r.
Proof. intros H. cbn. apply is_space_not in H. now rewrite H. Qed.
Lemma drop_ws_white s : whites s -> drop_ws s = [].
Proof. intros H. rewrite <- (app_nil_r s). now rewrite drop_ws_app. Qed.

Lemma sentry_at f s c r : at_ f (s ++ c :: r) -> whites s -> ~ white c -> sentry f = (true, mkI (c :: r) false false).
Proof.
  intros H Hs Hc. destruct (s ++ c :: r) as [|x q] eqn:E; [destruct s; discriminate|].
  apply at_cons in H. subst f. unfold sentry, good. cbn [i_eof i_fail orb negb i_rest]. rewrite <- E, (drop_ws_app _ _ Hs), (drop_ws_stop _ _ Hc). reflexivity.
Qed.
Lemma sentry_end f s : at_ f s -> whites s -> exists f', sentry f = (false, f') /\ i_eof f' = true.
Proof.
  intros (H1 & H2 & H3) Hs. unfold sentry, good. rewrite H2. destruct (i_eof f) eqn:E; cbn [orb negb].
  - eexists. split; [reflexivity|]. reflexivity.
  - rewrite H1, drop_ws_white by assumption. eexists. split; reflexivity.
Qed.

Lemma get_char_at f s c r : at_ f (s ++ c :: r) -> whites s -> ~ white c -> get_char f = (Some c, mkI r false false).
Proof. intros H Hs Hc. unfold get_char. now rewrite (sentry_at _ _ _ _ H Hs Hc). Qed.
Lemma get_char_end f s : at_ f s -> whites s -> i_eof (snd (get_char f)) = true /\ fst (get_char f) = None.
Proof. intros H Hs. unfold get_char. destruct (sentry_end _ _ H Hs) as (f' & -> & E). now split. Qed.

Lemma span_all p a r : Forall (fun c => p c = true) a -> (match r with [] => True | c :: _ => p c = false end) -> span p (a ++ r) = (a, r).
Proof.
  induction 1 as [|c a Hc Ha IH]; intros Hr; cbn.
  - destruct r as [|c r]; [reflexivity|]. cbn. now rewrite Hr.
  - rewrite Hc, IH by assumption. reflexivity.
Qed.

Lemma get_word_at f s w r : at_ f (s ++ w ++ r) -> whites s -> word w -> wstart r -> get_word f = (Some w, mkI r (is_nil r) false).
Proof.
  intros H Hs [Hw1 Hw2] Hr. destruct w as [|c w]; [easy|]. inversion Hw2 as [|? ? Hc Hw]; subst.
  unfold get_word. rewrite (sentry_at f s c (w ++ r) H Hs Hc). cbn [i_rest].
  change (c :: w ++ r) with ((c :: w) ++ r). rewrite span_all; [reflexivity| |].
  - apply Forall_impl with (2 := Hw2). intros x Hx. apply is_space_not in Hx. now rewrite Hx.
  - destruct Hr as [->|(x & q & -> & Hx)]; [exact Logic.I|]. apply is_space_white in Hx. now rewrite Hx.
Qed.

(** ** Numbers *)
Lemma digit_char c d : (0 <= d <= 9)%Z -> (Z.of_nat (nat_of_ascii c) = 48 + d)%Z -> is_digit c = true /\ digit_val c = d.
Proof. unfold is_digit, digit_val. intros. lia. Qed.
Lemma decimal_dec t n : decimal t n -> Forall (fun c => is_digit c = true) t /\ dec t = n /\ (0 <= n)%Z.
Proof.
  induction 1 as [|t n c d H IH Hd Hc]; [repeat split; auto; easy|]. destruct IH as (I1 & I2 & I3).
  destruct (digit_char _ _ Hd Hc) as [D1 D2]. repeat split.
  - apply Forall_app. split; [exact I1|]. constructor; auto.
  - unfold dec in *. rewrite fold_left_app, I2. cbn [fold_left]. now rewrite D2.
  - lia.
Qed.
Lemma digit_not_white c : is_digit c = true -> ~ white c.
Proof. intros H K. apply is_space_white in K. unfold is_digit, is_space in *. lia. Qed.
Lemma digit_not_sign c : is_digit c = true -> c <> "-" /\ c <> "+".
Proof. intros H. split; intros ->; discriminate H. Qed.
Lemma numeral_head t n : numeral t n -> exists c r, t = c :: r /\ is_digit c = true.
Proof. intros [H1 H2]. destruct t as [|c r]; [easy|]. apply decimal_dec in H2. destruct H2 as (H2 & _). inversion H2; subst. eauto. Qed.
Lemma no_digit_span r : no_digit r -> match r with [] => True | c :: _ => is_digit c = false end.
Proof. destruct r as [|c r]; [auto|]. cbn. unfold is_digit. lia. Qed.

Lemma num_at conv f s t n r : at_ f (s ++ t ++ r) -> whites s -> numeral t n -> no_digit r ->
  get_num conv f = (Some (fst (conv false n)), mkI r (is_nil r) (negb (snd (conv false n)))).
Proof.
  intros H Hs Hn Hr. destruct (numeral_head _ _ Hn) as (c & q & -> & Hc). destruct Hn as [_ Hn]. apply decimal_dec in Hn. destruct Hn as (N1 & N2 & _).
  unfold get_num. rewrite (sentry_at f s c (q ++ r) H Hs (digit_not_white _ Hc)). cbn [i_rest].
  destruct (digit_not_sign _ Hc) as [D1 D2]. destruct (ascii_dec c "-") as [E|_]; [easy|]. destruct (ascii_dec c "+") as [E|_]; [easy|].
  change (c :: q ++ r) with ((c :: q) ++ r). rewrite span_all; [|exact N1|now apply no_digit_span]. rewrite N2.
  now destruct (conv false n).
Qed.
Lemma num_at_neg conv f s t n r : at_ f (s ++ "-" :: t ++ r) -> whites s -> numeral t n -> no_digit r ->
  get_num conv f = (Some (fst (conv true n)), mkI r (is_nil r) (negb (snd (conv true n)))).
Proof.
  intros H Hs Hn Hr. destruct (numeral_head _ _ Hn) as (c & q & -> & Hc). destruct Hn as [_ Hn]. apply decimal_dec in Hn. destruct Hn as (N1 & N2 & _).
  unfold get_num. rewrite (sentry_at f s "-" ((c :: q) ++ r) H Hs) by (intros K; apply is_space_white in K; discriminate K). cbn [i_rest].
  destruct (ascii_dec "-" "-") as [_|E]; [|easy].
  rewrite span_all; [|exact N1|now apply no_digit_span]. rewrite N2. now destruct (conv true n).
Qed.
Lemma get_int_at f s t z r : at_ f (s ++ t ++ r) -> whites s -> integer t z -> no_digit r -> get_int f = (Some z, mkI r (is_nil r) false).
Proof.
  intros H Hs [Hz [Hn|(t' & -> & Hn)]] Hr; unfold get_int.
  - rewrite (num_at _ _ _ _ _ _ H Hs Hn Hr). unfold conv_int, int_min, int_max.
    destruct (Z.ltb_spec z (-2147483648)); [lia|]. destruct (Z.ltb_spec 2147483647 z); [lia|]. reflexivity.
  - rewrite (num_at_neg _ _ _ _ _ _ H Hs Hn Hr). unfold conv_int, int_min, int_max. rewrite Z.opp_involutive.
    destruct (Z.ltb_spec z (-2147483648)); [lia|]. destruct (Z.ltb_spec 2147483647 z); [lia|]. reflexivity.
Qed.
Lemma get_size_at f s t n r : at_ f (s ++ t ++ r) -> whites s -> numeral t n -> no_digit r -> (n <= size_max)%Z -> get_size f = (Some n, mkI r (is_nil r) false).
Proof.
  intros H Hs Hn Hr Hz. unfold get_size. rewrite (num_at _ _ _ _ _ _ H Hs Hn Hr). unfold conv_size. destruct (Z.ltb_spec size_max n); [lia|]. reflexivity.
Qed.
Lemma numeral_nonneg t n : numeral t n -> (0 <= n)%Z.
Proof. intros [_ H]. now apply decimal_dec in H. Qed.
Lemma numeral_integer t n : numeral t n -> (n <= 2147483647)%Z -> integer t n.
Proof. intros H K. split; [|now left]. apply numeral_nonneg in H. lia. Qed.

(** ** Lines *)
Lemma not_nl_spec c : not_nl c = true <-> c <> nl.
Proof.
  unfold not_nl. split; intros H.
  - intros ->. discriminate H.
  - destruct (Nat.eqb_spec (nat_of_ascii c) 10) as [E|]; [|reflexivity]. destruct H. now apply (ascii_nat c nl).
Qed.
Lemma not_in_nl t : ~ In nl t -> Forall (fun c => not_nl c = true) t.
Proof. intros H. apply Forall_forall. intros c Hc. apply not_nl_spec. now intros ->. Qed.
Lemma getline_at f l r : at_ f (l ++ nl :: r) -> ~ In nl l -> getline f = mkI r false false.
Proof.
  intros H Hl. destruct (l ++ nl :: r) as [|x q] eqn:E; [destruct l; discriminate|]. apply at_cons in H. subst f.
  unfold getline, good. cbn [i_eof i_fail orb negb i_rest]. rewrite <- E, span_all; [reflexivity|now apply not_in_nl|reflexivity].
Qed.
Lemma getline_end f l : at_ f l -> ~ In nl l -> i_eof (getline f) = true.
Proof.
  intros (H1 & H2 & H3) Hl. unfold getline, good. rewrite H2, H1. destruct (i_eof f); cbn [orb negb]; [reflexivity|].
  rewrite <- (app_nil_r l), span_all; [reflexivity|now apply not_in_nl|exact Logic.I].
Qed.

(** ** The DIMACS reader *)
Lemma letter_not_white c : 65 <= nat_of_ascii c -> ~ white c.
Proof. intros H K. apply is_space_white in K. unfold is_space in K. lia. Qed.
Lemma letter_not_digit c r : 65 <= nat_of_ascii c -> no_digit (c :: r).
Proof. cbn. lia. Qed.

Definition dm_acc (l : dline) (a : option Z * option Z * list (Z * Z)) : option Z * option Z * list (Z * Z) :=
  let '(nv, ne, es) := a in
  match l with
  | DProblem n m => (Some n, Some m, es)
  | DEdge x y => (nv, ne, es ++ [(x - 1, y - 1)%Z])
  | _ => a
  end.
Definition dm_small (l : dline) : Prop :=
  match l with DProblem n m => (n <= int_max /\ m <= int_max)%Z | DEdge x y => (x <= int_max /\ y <= int_max)%Z | _ => True end.

Ltac lt := first [ assumption | apply blanks_whites; assumption | apply letter_not_white; cbn; lia | apply letter_not_digit; cbn; lia ].

Ltac lens := repeat match goal with H : context [List.length (_ ++ _)] |- _ => rewrite app_length in H | |- context [List.length (_ ++ _)] => rewrite app_length | _ => progress cbn [List.length] in * end; lia.

(** the stream is before [r], or has ended *)
Definition pos (f : istr) (r : text) : Prop := at_ f r \/ (i_eof f = true /\ r = []).
Lemma pos_cons f s c r : pos f (s ++ c :: r) -> at_ f (s ++ c :: r).
Proof. intros [H|[_ H]]; [exact H|]. destruct s; discriminate. Qed.
Lemma at_eof_app f s c r : at_ f (s ++ c :: r) -> i_eof f = false.
Proof. destruct s; apply at_eof_cons. Qed.
Lemma pos_end f s fuel nv ne es : pos f s -> whites s -> List.length s < fuel -> dm_loop fuel f nv ne es = Ok (nv, ne, es).
Proof.
  intros [H|[H _]] Hs Hf.
  - destruct fuel as [|n]; [lia|]. cbn. destruct (i_eof f) eqn:E; [reflexivity|].
    destruct (get_char_end _ _ H Hs) as [G1 G2]. destruct (get_char f) as [c g]. cbn in *. now rewrite G1.
  - destruct fuel; cbn; now rewrite H.
Qed.

Definition dm_run (fuel : nat) (f : istr) (a : option Z * option Z * list (Z * Z)) := let '(nv, ne, es) := a in dm_loop fuel f nv ne es.

(** one line *)
Lemma dm_line_step l t f s rest acc fuel : line_text l t -> dm_small l -> pos f (s ++ t ++ rest) -> whites s -> (rest = [] \/ exists q, rest = nl :: q) ->
  List.length (s ++ t ++ rest) < fuel ->
  exists f' s' fuel', whites s' /\ pos f' (s' ++ tl rest) /\ List.length (s' ++ tl rest) < fuel' /\ dm_run fuel f acc = dm_run fuel' f' (dm_acc l acc).
Proof.
  intros Hl Hsm Hat Hs Hrest Hfuel. destruct acc as [[nv ne] es].
  assert (Hw : wstart rest). { destruct Hrest as [->|(q & ->)]; [now left|]. right. exists nl, q. split; [reflexivity|exact nl_white]. }
  destruct fuel as [|n]; [lia|].
  destruct Hl as [t Ht|pre t Hpre Ht|pre b0 w b1 tn nv' b2 tm ne' post Hpre Hb0 Hw' Hb1 Hn Hb2 Hm Hpost|pre b1 ta a b2 tb b post Hpre Hb1 Ha Hb2 Hb Hpost].
  - destruct Hrest as [->|(q & ->)].
    + exists f, (s ++ t), (S n). rewrite app_nil_r in Hat, Hfuel. cbn [tl]. rewrite app_nil_r. split; [apply Forall_app; split; [exact Hs|lt]|]. auto.
    + exists f, (s ++ t ++ [nl]), (S n). cbn [tl]. rewrite <- !app_assoc. cbn [app]. split; [|auto].
      apply Forall_app; split; [exact Hs|]. apply Forall_app; split; [lt|]. constructor; [exact nl_white|constructor].
  - rewrite <- app_assoc in Hat, Hfuel. rewrite app_assoc in Hat, Hfuel. cbn [app] in Hat, Hfuel.
    apply pos_cons in Hat. pose proof (at_eof_app _ _ _ _ Hat) as Ec.
    assert (G : get_char f = (Some "c", mkI (t ++ rest) false false)) by (apply (get_char_at f (s ++ pre)); [exact Hat|apply Forall_app; split; lt|lt]).
    exists (getline (mkI (t ++ rest) false false)), [], n. split; [constructor|].
    assert (E : dm_run (S n) f (nv, ne, es) = dm_run n (getline (mkI (t ++ rest) false false)) (dm_acc DComment (nv, ne, es))).
    { cbn [dm_run dm_loop dm_acc]. rewrite Ec, G. cbn [i_eof snd val bind]. reflexivity. }
    destruct Hrest as [->|(q & ->)]; cbn [app tl] in *.
    + split; [right|]; [split; [|reflexivity]|split; [|exact E]].
      * apply (getline_end _ (t ++ [])); [apply at_mk0|]. now rewrite app_nil_r.
      * lens.
    + split; [left|split; [|exact E]].
      * rewrite (getline_at _ t q); [apply at_mk0|apply at_mk0|exact Ht].
      * lens.
  - exists (mkI (post ++ rest) (is_nil (post ++ rest)) false), (match rest with [] => post | _ => post ++ [nl] end), n.
    assert (E1 : (match rest with [] => post | _ => post ++ [nl] end) ++ tl rest = post ++ rest).
    { destruct Hrest as [->|(q & ->)]; [reflexivity|]. cbn [tl]. now rewrite <- app_assoc. }
    rewrite E1. split.
    { destruct rest; [lt|]. apply Forall_app. split; [lt|]. constructor; [exact nl_white|constructor]. }
    split; [left; apply at_mk|]. split.
    { clear - Hfuel. lens. }
    repeat (rewrite <- app_assoc in Hat; cbn [app] in Hat). rewrite app_assoc in Hat. cbn [dm_small] in Hsm.
    apply pos_cons in Hat. pose proof (at_eof_app _ _ _ _ Hat) as Ec.
    cbn [dm_run dm_loop dm_acc]. rewrite Ec, (get_char_at f (s ++ pre) "p" _ Hat) by (try (apply Forall_app; split); lt). cbn [i_eof snd val bind].
    destruct (ascii_dec "p" "c") as [E|_]; [discriminate E|]. destruct (ascii_dec "p" "p") as [_|E]; [|easy].
    rewrite (get_word_at _ b0 w (b1 ++ tn ++ b2 ++ tm ++ post ++ rest)); [|apply at_mk0|apply blanks_whites, Hb0|exact Hw'|apply wstart_gap, gap_wgap, Hb1].
    rewrite (get_int_at _ b1 tn nv' (b2 ++ tm ++ post ++ rest)); [|apply at_mk|apply blanks_whites, Hb1|apply numeral_integer; [assumption|exact (proj1 Hsm)]|apply wstart_not_digit, wstart_gap, gap_wgap, Hb2].
    rewrite (get_int_at _ b2 tm ne' (post ++ rest)); [|apply at_mk|apply blanks_whites, Hb2|apply numeral_integer; [assumption|exact (proj2 Hsm)]|apply wstart_not_digit, wstart_app; [lt|exact Hw]].
    reflexivity.
  - exists (mkI (post ++ rest) (is_nil (post ++ rest)) false), (match rest with [] => post | _ => post ++ [nl] end), n.
    assert (E1 : (match rest with [] => post | _ => post ++ [nl] end) ++ tl rest = post ++ rest).
    { destruct Hrest as [->|(q & ->)]; [reflexivity|]. cbn [tl]. now rewrite <- app_assoc. }
    rewrite E1. split.
    { destruct rest; [lt|]. apply Forall_app. split; [lt|]. constructor; [exact nl_white|constructor]. }
    split; [left; apply at_mk|]. split.
    { clear - Hfuel. lens. }
    repeat (rewrite <- app_assoc in Hat; cbn [app] in Hat). rewrite app_assoc in Hat. cbn [dm_small] in Hsm.
    apply pos_cons in Hat. pose proof (at_eof_app _ _ _ _ Hat) as Ec.
    cbn [dm_run dm_loop dm_acc]. rewrite Ec, (get_char_at f (s ++ pre) "e" _ Hat) by (try (apply Forall_app; split); lt). cbn [i_eof snd val bind].
    destruct (ascii_dec "e" "c") as [E|_]; [discriminate E|]. destruct (ascii_dec "e" "p") as [E|_]; [discriminate E|]. destruct (ascii_dec "e" "e") as [_|E]; [|easy].
    rewrite (get_int_at _ b1 ta a (b2 ++ tb ++ post ++ rest)); [|apply at_mk0|apply blanks_whites, Hb1|apply numeral_integer; [assumption|exact (proj1 Hsm)]|apply wstart_not_digit, wstart_gap, gap_wgap, Hb2].
    rewrite (get_int_at _ b2 tb b (post ++ rest)); [|apply at_mk|apply blanks_whites, Hb2|apply numeral_integer; [assumption|exact (proj2 Hsm)]|apply wstart_not_digit, wstart_app; [lt|exact Hw]].
    cbn [val bind]. apply numeral_nonneg in Ha, Hb. unfold int_min.
    destruct (Z.eqb_spec a (-2147483648)); [lia|]. destruct (Z.eqb_spec b (-2147483648)); [lia|]. reflexivity.
Qed.

Lemma dm_run_lines ls r : dimacs ls r -> Forall dm_small ls -> forall f s acc fuel, pos f (s ++ r) -> whites s -> List.length (s ++ r) < fuel ->
  dm_run fuel f acc = Ok (fold_left (fun a l => dm_acc l a) ls acc).
Proof.
  induction 1 as [|l t Hl|l t ls r Hl Hr IH]; intros Hsm f s acc fuel Hp Hs Hf; cbn [fold_left].
  - rewrite app_nil_r in *. destruct acc as [[nv ne] es]. cbn [dm_run]. now apply (pos_end f s).
  - inversion Hsm as [|? ? Hl1 _]; subst. rewrite <- (app_nil_r t) in Hp, Hf.
    destruct (dm_line_step l t f s [] acc fuel Hl Hl1 Hp Hs (or_introl eq_refl) Hf) as (f' & s' & fuel' & A & B & C & ->).
    cbn [tl] in *. rewrite app_nil_r in *. destruct (dm_acc l acc) as [[nv ne] es]. cbn [dm_run]. now apply (pos_end f' s').
  - inversion Hsm as [|? ? Hl1 Hsm']; subst.
    destruct (dm_line_step l t f s (nl :: r) acc fuel Hl Hl1 Hp Hs (or_intror (ex_intro _ r eq_refl)) Hf) as (f' & s' & fuel' & A & B & C & ->).
    cbn [tl] in *. now apply (IH Hsm' f' s').
Qed.

Lemma dm_fold ls nv ne es : fold_left (fun a l => dm_acc l a) ls (nv, ne, es) =
  (fold_left (fun a p => Some (fst p)) (problems ls) nv, fold_left (fun a p => Some (snd p)) (problems ls) ne, es ++ edges0 ls).
Proof.
  revert nv ne es. induction ls as [|l ls IH]; intros nv ne es; cbn [fold_left problems edges0 edges1 flat_map map].
  - now rewrite app_nil_r.
  - destruct l as [| |n m|a b]; cbn [dm_acc]; rewrite IH; unfold problems, edges0, edges1; cbn [flat_map app fold_left fst snd map]; try reflexivity.
    now rewrite <- app_assoc.
Qed.

Lemma dm_loop_file ls t : dimacs ls t -> Forall dm_small ls -> 
  dm_loop (fuel_of (opened (Some t))) (opened (Some t)) None None [] =
  Ok (fold_left (fun a p => Some (fst p)) (problems ls) None, fold_left (fun a p => Some (snd p)) (problems ls) None, edges0 ls).
Proof.
  intros H Hs. pose proof (dm_run_lines ls t H Hs (opened (Some t)) [] (None, None, []) (fuel_of (opened (Some t)))) as K.
  cbn [dm_run] in K. rewrite K.
  - now rewrite dm_fold.
  - left. apply at_mk0.
  - constructor.
  - unfold fuel_of. cbn. lia.
Qed.

(** *** the adjacency sets *)
Definition nat_edge (e : Z * Z) : nat * nat := (Z.to_nat (fst e), Z.to_nat (snd e)).
Lemma conv_edges_ok size es : Forall (fun e => 0 <= fst e < size /\ 0 <= snd e < size)%Z es -> forall adj,
  exists adj', conv_edges size es adj = Ok adj' /\
    forall i, adj' i = fold_left (fun acc e => let acc1 := if fst e =? i then badd acc (snd e) else acc in if snd e =? i then badd acc1 (fst e) else acc1) (map nat_edge es) (adj i).
Proof.
  induction 1 as [|[a b] es [Ha Hb] Hes IH]; intros adj; cbn [conv_edges map fold_left nat_edge fst snd] in *.
  - eauto.
  - destruct (Z.leb_spec 0 a); [|lia]. destruct (Z.ltb_spec a size); [|lia]. destruct (Z.leb_spec 0 b); [|lia]. destruct (Z.ltb_spec b size); [|lia]. cbn [andb].
    edestruct IH as (adj' & E & F). exists adj'. split; [exact E|]. intros i. rewrite F. f_equal.
    unfold fupd. rewrite (Nat.eqb_sym (Z.to_nat a) i), (Nat.eqb_sym (Z.to_nat b) i).
    destruct (Nat.eqb_spec i (Z.to_nat b)) as [E1|N1], (Nat.eqb_spec i (Z.to_nat a)) as [E2|N2], (Nat.eqb_spec (Z.to_nat b) (Z.to_nat a)) as [E3|N3]; congruence.
Qed.
Lemma conv_edges_bad size es : Exists (fun e => ~ (0 <= fst e < size /\ 0 <= snd e < size))%Z es -> forall adj, conv_edges size es adj = Err UB.
Proof.
  induction 1 as [[a b] es H|[a b] es H IH]; intros adj; cbn [conv_edges fst snd] in *.
  - destruct (Z.leb_spec 0 a), (Z.ltb_spec a size), (Z.leb_spec 0 b), (Z.ltb_spec b size); cbn [andb]; try reflexivity. lia.
  - destruct ((0 <=? a) && (a <? size) && (0 <=? b) && (b <? size))%Z; [apply IH|reflexivity].
Qed.

(** *** the whole reader *)
(** in_adj is the function of MispModel.v *)
Theorem readMisp_ok ls t nv ne :
  dimacs ls t -> problems ls = [(nv, ne)] -> (nv < int_max)%Z -> (ne <= int_max)%Z ->
  Forall (fun e => 1 <= fst e <= nv /\ 1 <= snd e <= nv)%Z (edges1 ls) ->
  exists i, readMisp (Some t) = Ok i /\ in_nv i = nv /\ in_ne i = Some ne /\ in_edges i = edges0 ls /\
    (forall v, in_adj i v = adjs (map nat_edge (edges0 ls)) v).
Proof.
  intros H Hp Hnv Hne He.
  assert (Hnv0 : (0 <= nv)%Z).
  { clear - H Hp. assert (K : In (nv, ne) (problems ls)) by (rewrite Hp; now left). clear Hp. unfold problems in K. apply in_flat_map in K. destruct K as (l & K1 & K2).
    induction H as [|l' t Hl|l' t ls r Hl Hr IH]; [easy| |].
    - destruct K1 as [->|[]]. destruct l; cbn in K2; try easy. destruct K2 as [K2|[]]. injection K2 as -> ->. inversion Hl; subst. eapply numeral_nonneg; eassumption.
    - destruct K1 as [->|K1]; [|now apply IH]. destruct l; cbn in K2; try easy. destruct K2 as [K2|[]]. injection K2 as -> ->. inversion Hl; subst. eapply numeral_nonneg; eassumption. }
  assert (Hs : Forall dm_small ls).
  { apply Forall_forall. intros l Hl. destruct l as [| |n m|a b]; cbn; auto.
    - assert (In (n, m) (problems ls)) as K by (apply in_flat_map; exists (DProblem n m); split; [exact Hl|now left]).
      rewrite Hp in K. destruct K as [K|[]]. injection K as <- <-. lia.
    - assert (In (a, b) (edges1 ls)) as K by (apply in_flat_map; exists (DEdge a b); split; [exact Hl|now left]).
      apply (proj1 (Forall_forall _ _) He) in K. cbn in K. lia. }
  unfold readMisp. cbv zeta. rewrite (dm_loop_file _ _ H Hs), Hp. cbn [fold_left fst snd bind]. unfold convert. cbn [val bind].
  destruct (Z.ltb_spec int_max (nv + 1)); [lia|]. destruct (Z.ltb_spec (nv + 1) 0); [lia|].
  destruct (conv_edges_ok (nv + 1) (edges0 ls)) with (adj := fun _ : nat => 0%N) as (adj & -> & F).
  { unfold edges0. apply Forall_map. apply Forall_impl with (2 := He). intros [a b]. cbn. lia. }
  cbn [bind fst snd]. eexists. split; [reflexivity|]. cbn. repeat split. exact F.
Qed.

(** an edge with a vertex that does not exist; vertex nv+1 is accepted because the array has nv+1 cells *)
Theorem readMisp_bad_vertex ls t nv ne :
  dimacs ls t -> Forall dm_small ls -> problems ls = [(nv, ne)] -> (nv < int_max)%Z ->
  Exists (fun e => ~ (1 <= fst e <= nv + 1 /\ 1 <= snd e <= nv + 1))%Z (edges1 ls) ->
  readMisp (Some t) = Err UB.
Proof.
  intros H Hs Hp Hnv He. unfold readMisp. cbv zeta. rewrite (dm_loop_file _ _ H Hs), Hp. cbn [fold_left fst snd bind]. unfold convert. cbn [val bind].
  destruct (Z.ltb_spec int_max (nv + 1)); [lia|].
  assert (0 <= nv)%Z.
  { clear - H Hp. assert (K : In (nv, ne) (problems ls)) by (rewrite Hp; now left). clear Hp. unfold problems in K. apply in_flat_map in K. destruct K as (l & K1 & K2).
    induction H as [|l' t Hl|l' t ls r Hl Hr IH]; [easy| |].
    - destruct K1 as [->|[]]. destruct l; cbn in K2; try easy. destruct K2 as [K2|[]]. injection K2 as -> ->. inversion Hl; subst. eapply numeral_nonneg; eassumption.
    - destruct K1 as [->|K1]; [|now apply IH]. destruct l; cbn in K2; try easy. destruct K2 as [K2|[]]. injection K2 as -> ->. inversion Hl; subst. eapply numeral_nonneg; eassumption. }
  destruct (Z.ltb_spec (nv + 1) 0); [lia|]. rewrite conv_edges_bad; [reflexivity|].
  unfold edges0. apply Exists_exists in He. destruct He as (e & He1 & He2). apply Exists_exists. exists (fst e - 1, snd e - 1)%Z. split.
  - apply in_map_iff. eauto.
  - cbn. lia.
Qed.
