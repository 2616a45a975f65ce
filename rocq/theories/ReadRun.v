(** Proofs about ReadModel.v: the colouring and knapsack readers on well-formed files. *)
From Coq Require Import Ascii String Sorted.
From Verif Require Import Base TspModel MispModel MSortModel MSortProofs ReadModel ReadSpec ReadProofs.
Local Open Scope char_scope.
Local Open Scope nat_scope.
Local Open Scope list_scope.

(** ** std::set of edges *)
Lemma edge_ltb_spec e1 e2 : edge_ltb e1 e2 = true <-> edge_lt e1 e2.
Proof. unfold edge_ltb, edge_lt. destruct e1, e2; cbn. lia. Qed.
Lemma edge_lt_trans a b c : edge_lt a b -> edge_lt b c -> edge_lt a c.
Proof. unfold edge_lt. destruct a, b, c; cbn. lia. Qed.
Lemma edge_tri a b : edge_ltb a b = false -> edge_ltb b a = false -> a = b.
Proof. unfold edge_ltb. destruct a, b; cbn. intros. f_equal; lia. Qed.
Lemma set_ins_in e s x : In x (set_ins e s) <-> x = e \/ In x s.
Proof.
  induction s as [|y s IH]; cbn; [intuition|]. destruct (edge_ltb e y) eqn:E1; [cbn; intuition|]. destruct (edge_ltb y e) eqn:E2; cbn.
  - rewrite IH. intuition.
  - rewrite (edge_tri _ _ E1 E2). intuition. 
Qed.
Lemma set_ins_sorted e s : StronglySorted edge_lt s -> StronglySorted edge_lt (set_ins e s).
Proof.
  induction 1 as [|y s Hs IH Hy]; cbn; [repeat constructor|]. destruct (edge_ltb e y) eqn:E1.
  - apply edge_ltb_spec in E1. constructor; [constructor; auto|]. constructor; [exact E1|]. apply Forall_impl with (2 := Hy). intros z Hz. eapply edge_lt_trans; eassumption.
  - destruct (edge_ltb y e) eqn:E2; [|constructor; auto]. apply edge_ltb_spec in E2. constructor; [exact IH|]. apply Forall_forall. intros z Hz. apply set_ins_in in Hz.
    destruct Hz as [->|Hz]; [exact E2|]. exact (proj1 (Forall_forall _ _) Hy z Hz).
Qed.
Definition set_of (es acc : list (Z * Z)) : list (Z * Z) := fold_left (fun a e => set_ins e a) es acc.
Lemma set_of_in es : forall acc x, In x (set_of es acc) <-> In x es \/ In x acc.
Proof. induction es as [|e es IH]; intros acc x; cbn; [intuition|]. unfold set_of in IH. rewrite IH, set_ins_in. intuition. Qed.
Lemma set_of_sorted es : forall acc, StronglySorted edge_lt acc -> StronglySorted edge_lt (set_of es acc).
Proof. induction es as [|e es IH]; intros acc H; cbn; [exact H|]. apply IH. now apply set_ins_sorted. Qed.

(** ** The edges of a colouring file *)
Lemma no_digit_ws s c r : whites s -> no_digit (c :: r) -> no_digit (s ++ c :: r).
Proof. intros H K. destruct s as [|x s]; [exact K|]. apply wstart_not_digit. apply wstart_gap. now split. Qed.
Lemma sym_not_white c : 33 <= nat_of_ascii c -> ~ white c.
Proof. intros H K. apply is_space_white in K. unfold is_space in K. lia. Qed.
Ltac nw := apply sym_not_white; cbn; lia.

Lemma py_edges_at es r : pedges es r -> forall f rest last acc nbe fuel, at_ f (r ++ rest) -> last <> "}" -> List.length (r ++ rest) < fuel ->
  py_edges fuel f (Some last) acc nbe = Ok (mkI rest false false, set_of es acc, nbe + List.length es).
Proof.
  induction 1 as [u v s1 s2 tu s3 s4 tv s5 s6 H1 H2 Hu H3 H4 Hv H5 H6|u v s1 s2 tu s3 s4 tv s5 s6 es r H1 H2 Hu H3 H4 Hv H5 H6 Hr IH];
    intros f rest last acc nbe fuel Hat Hl Hf; (destruct fuel as [|n]; [lia|]); cbn [py_edges val bind]; (destruct (ascii_dec last "}") as [E|_]; [easy|]).
  - repeat (rewrite <- app_assoc in Hat; cbn [app] in Hat).
    rewrite (get_char_at f s1 "(" _ Hat) by (assumption || nw).
    rewrite (get_int_at _ s2 tu u _ (at_mk0 _)) by (assumption || (apply no_digit_ws; [assumption|cbn; lia])).
    rewrite (get_char_at _ s3 "," _ (at_mk _)) by (assumption || nw).
    rewrite (get_int_at _ s4 tv v _ (at_mk0 _)) by (assumption || (apply no_digit_ws; [assumption|cbn; lia])).
    rewrite (get_char_at _ s5 ")" _ (at_mk _)) by (assumption || nw).
    rewrite (get_char_at _ s6 "}" rest (at_mk0 _)) by (assumption || nw).
    cbn [val bind assign]. assert (0 < n) by lens. destruct n as [|n]; [lia|]. cbn [py_edges val bind].
    destruct (ascii_dec "}" "}") as [_|E]; [|easy]. cbn. repeat f_equal. lia.
  - repeat (rewrite <- app_assoc in Hat; cbn [app] in Hat).
    rewrite (get_char_at f s1 "(" _ Hat) by (assumption || nw).
    rewrite (get_int_at _ s2 tu u _ (at_mk0 _)) by (assumption || (apply no_digit_ws; [assumption|cbn; lia])).
    rewrite (get_char_at _ s3 "," _ (at_mk _)) by (assumption || nw).
    rewrite (get_int_at _ s4 tv v _ (at_mk0 _)) by (assumption || (apply no_digit_ws; [assumption|cbn; lia])).
    rewrite (get_char_at _ s5 ")" _ (at_mk _)) by (assumption || nw).
    rewrite (get_char_at _ s6 "," (r ++ rest) (at_mk0 _)) by (assumption || nw).
    cbn [val bind assign]. rewrite (IH _ rest "," (set_ins (u, v) acc) (S nbe) n (at_mk0 _)); [|discriminate|lens].
    cbn. repeat f_equal. lia.
Qed.

(** ** The items *)
Definition py_acc (i : pitem) (a : option Z * option Z * list (Z * Z) * nat) : option Z * option Z * list (Z * Z) * nat :=
  let '(nv, ub, es, nbe) := a in
  match i with PN n => (Some n, ub, es, nbe) | PK k => (nv, Some k, es, nbe) | PE l => (nv, ub, set_of l es, nbe + List.length l) end.
Definition py_run (fuel : nat) (f : istr) (a : option Z * option Z * list (Z * Z) * nat) := let '(nv, ub, es, nbe) := a in py_loop fuel f nv ub es nbe.

Lemma eq_word : word ["="].
Proof. split; [discriminate|]. constructor; [nw|constructor]. Qed.

Lemma py_item_step i t f s r acc fuel : pitem_text i t -> whites s -> at_ f (s ++ t ++ r) -> wstart r -> List.length (s ++ t ++ r) < fuel ->
  exists f' fuel', at_ f' r /\ List.length r < fuel' /\ py_run fuel f acc = py_run fuel' f' (py_acc i acc).
Proof.
  intros Hi Hs Hat Hw Hf. destruct acc as [[[nv ub] es] nbe]. destruct fuel as [|n]; [lia|].
  destruct Hi as [s1 s2 t z H1 H2 Hz|s1 s2 t z H1 H2 Hz|s1 s2 l q H1 H2 Hq].
  - exists (mkI r (is_nil r) false), n. split; [apply at_mk|]. split; [lens|].
    cbn [app] in Hat. repeat (rewrite <- app_assoc in Hat; cbn [app] in Hat). pose proof (at_eof_app _ _ _ _ Hat) as Ec.
    cbn [py_run py_loop py_acc]. rewrite Ec, (get_char_at f s "N" _ Hat) by (assumption || nw). cbn [i_eof snd val bind].
    destruct (ascii_dec "N" "N") as [_|E]; [|easy].
    rewrite (get_word_at _ s1 ["="] (s2 ++ t ++ r)); [|apply at_mk0|exact H1|exact eq_word|now apply wstart_gap].
    rewrite (get_int_at _ s2 t z r); [|apply at_mk|apply H2|exact Hz|now apply wstart_not_digit]. reflexivity.
  - exists (mkI r (is_nil r) false), n. split; [apply at_mk|]. split; [lens|].
    cbn [app] in Hat. repeat (rewrite <- app_assoc in Hat; cbn [app] in Hat). pose proof (at_eof_app _ _ _ _ Hat) as Ec.
    cbn [py_run py_loop py_acc]. rewrite Ec, (get_char_at f s "K" _ Hat) by (assumption || nw). cbn [i_eof snd val bind].
    destruct (ascii_dec "K" "N") as [E|_]; [discriminate E|]. destruct (ascii_dec "K" "E") as [E|_]; [discriminate E|]. destruct (ascii_dec "K" "K") as [_|E]; [|easy].
    rewrite (get_word_at _ s1 ["="] (s2 ++ t ++ r)); [|apply at_mk0|exact H1|exact eq_word|now apply wstart_gap].
    rewrite (get_int_at _ s2 t z r); [|apply at_mk|apply H2|exact Hz|now apply wstart_not_digit]. reflexivity.
  - exists (mkI r false false), n. split; [apply at_mk0|]. split; [lens|].
    cbn [app] in Hat. repeat (rewrite <- app_assoc in Hat; cbn [app] in Hat). pose proof (at_eof_app _ _ _ _ Hat) as Ec.
    cbn [py_run py_loop py_acc]. rewrite Ec, (get_char_at f s "E" _ Hat) by (assumption || nw). cbn [i_eof snd val bind].
    destruct (ascii_dec "E" "N") as [E|_]; [discriminate E|]. destruct (ascii_dec "E" "E") as [_|E]; [|easy].
    rewrite (get_word_at _ s1 ["="] (s2 ++ "{" :: q ++ r)); [|apply at_mk0|exact H1|exact eq_word|now apply wstart_gap].
    rewrite (get_char_at _ s2 "{" (q ++ r)); [|apply at_mk|apply H2|nw].
    rewrite (py_edges_at l q Hq _ r "{" es nbe); [|apply at_mk0|discriminate|unfold fuel_of; cbn; lia]. reflexivity.
Qed.

Lemma py_run_items is t : pfile is t -> forall f acc fuel, at_ f t -> List.length t < fuel -> py_run fuel f acc = Ok (fold_left (fun a i => py_acc i a) is acc).
Proof.
  induction 1 as [s Hs|s i t is r Hs Hi Hr IH Hw]; intros f acc fuel Hat Hf; cbn [fold_left].
  - destruct acc as [[[nv ub] es] nbe]. destruct fuel as [|n]; [lia|]. cbn [py_run py_loop]. destruct (i_eof f) eqn:E; [reflexivity|].
    destruct (get_char_end _ _ Hat Hs) as [G1 G2]. destruct (get_char f) as [c g]. cbn [snd fst] in *. now rewrite G1.
  - destruct (py_item_step i t f s r acc fuel Hi Hs Hat Hw Hf) as (f' & fuel' & A & B & ->). now apply IH.
Qed.
Lemma py_fold is nv ub es nbe : fold_left (fun a i => py_acc i a) is (nv, ub, es, nbe) =
  (fold_left (fun _ n => Some n) (pN is) nv, fold_left (fun _ n => Some n) (pK is) ub, set_of (pE is) es, nbe + List.length (pE is)).
Proof.
  revert nv ub es nbe. induction is as [|i is IH]; intros nv ub es nbe; cbn [fold_left pN pK pE flat_map].
  - cbn. repeat f_equal. lia.
  - destruct i as [n|l|k]; cbn [py_acc]; rewrite IH; unfold pN, pK, pE; cbn [flat_map app fold_left]; try reflexivity.
    unfold set_of. rewrite fold_left_app, app_length, Nat.add_assoc. reflexivity.
Qed.

(** the whole file; [ub0] stays when there is no K *)
Theorem readPy_ok is t nv ub0 :
  pfile is t -> pN is = [nv] -> (0 <= nv <= int_max)%Z -> Forall (fun e => 0 <= fst e < nv /\ 0 <= snd e < nv)%Z (pE is) ->
  exists i, readPy ub0 (Some t) = Ok (i, last (pK is) ub0) /\ in_nv i = nv /\ in_ne i = Some (Z.of_nat (List.length (pE is))) /\
    StronglySorted edge_lt (in_edges i) /\ (forall e, In e (in_edges i) <-> In e (pE is)) /\
    (forall v, in_adj i v = adjs (map nat_edge (in_edges i)) v).
Proof.
  intros H HN Hnv He. unfold readPy. cbv zeta.
  pose proof (py_run_items is t H (opened (Some t)) (None, Some ub0, [], 0) (fuel_of (opened (Some t)))) as K. cbn [py_run] in K.
  rewrite K; [|apply at_mk0|unfold fuel_of; cbn; lia]. rewrite py_fold, HN. cbn [bind fold_left]. unfold convert. cbn [val bind].
  destruct (Z.ltb_spec int_max (nv + 0)); [lia|]. destruct (Z.ltb_spec (nv + 0) 0); [lia|].
  destruct (conv_edges_ok (nv + 0) (set_of (pE is) [])) with (adj := fun _ : nat => 0%N) as (adj & -> & F).
  { apply Forall_forall. intros e Hin. apply set_of_in in Hin. destruct Hin as [Hin|[]]. apply (proj1 (Forall_forall _ _) He) in Hin. lia. }
  cbn [bind fst snd].
  assert (L : forall l u, fold_left (fun (_ : option Z) (n : Z) => Some n) l (Some u) = Some (last l u)).
  { clear. induction l as [|x l IH]; intros u; [reflexivity|]. cbn [fold_left]. rewrite IH. f_equal. destruct l; [reflexivity|]. cbn. clear. revert z. induction l; intros; [reflexivity|]. cbn. destruct l; auto. }
  rewrite L. cbn [val bind]. eexists. split; [reflexivity|]. cbn. repeat split.
  - apply set_of_sorted. constructor.
  - intros Hin. apply set_of_in in Hin. now destruct Hin as [Hin|[]].
  - intros Hin. apply set_of_in. now left.
  - exact F.
Qed.

(** a well-formed beginning of a file *)
Lemma py_run_prefix is t : pfile is t -> forall rest f acc fuel, wstart rest -> at_ f (t ++ rest) -> List.length (t ++ rest) < fuel ->
  exists s' f' fuel', whites s' /\ at_ f' (s' ++ rest) /\ List.length (s' ++ rest) < fuel' /\ py_run fuel f acc = py_run fuel' f' (fold_left (fun a i => py_acc i a) is acc).
Proof.
  induction 1 as [s Hs|s i t is r Hs Hi Hr IH Hw]; intros rest f acc fuel Hrest Hat Hf; cbn [fold_left].
  - exists s, f, fuel. auto.
  - rewrite <- !app_assoc in Hat, Hf.
    destruct (py_item_step i t f s (r ++ rest) acc fuel Hi Hs Hat) as (f' & fuel' & A & B & ->); [|exact Hf|now apply IH].
    destruct Hw as [->|(c & q & -> & Hc)]; [exact Hrest|]. right. exists c, (q ++ rest). auto.
Qed.

(** what cannot be the start of a number *)
Definition not_number (r : text) : Prop := whites r \/ exists s c q, whites s /\ ~ white c /\ no_digit (c :: q) /\ c <> "-" /\ c <> "+" /\ r = s ++ c :: q.
Lemma get_int_not f r : at_ f r -> not_number r -> fst (get_int f) = None \/ (fst (get_int f) = Some 0%Z /\ i_fail (snd (get_int f)) = true).
Proof.
  intros Hat [Hr|(s & c & q & Hs & Hc & Hd & H1 & H2 & ->)]; unfold get_int, get_num.
  - destruct (sentry_end _ _ Hat Hr) as (f' & -> & _). now left.
  - rewrite (sentry_at _ _ _ _ Hat Hs Hc). cbn [i_rest]. destruct (ascii_dec c "-"); [easy|]. destruct (ascii_dec c "+"); [easy|].
    cbn [span]. apply no_digit_span in Hd. rewrite Hd. right. now split.
Qed.

(** a graph without edges: E = {} *)
Theorem readPy_empty_edges is p ub0 s s1 s2 s3 r : pfile is p -> wgap s -> whites s1 -> wgap s2 -> whites s3 -> not_number r ->
  readPy ub0 (Some (p ++ s ++ "E" :: s1 ++ "=" :: s2 ++ "{" :: s3 ++ "}" :: r)) = Err UB.
Proof.
  intros Hp Hs H1 H2 H3 Hr. set (t := p ++ s ++ "E" :: s1 ++ "=" :: s2 ++ "{" :: s3 ++ "}" :: r).
  unfold readPy. cbv zeta.
  destruct (py_run_prefix is p Hp (s ++ "E" :: s1 ++ "=" :: s2 ++ "{" :: s3 ++ "}" :: r) (opened (Some t)) (None, Some ub0, [], 0) (fuel_of (opened (Some t)))) as (s' & f' & fuel' & A & B & C & E).
  { now apply wstart_gap. } { apply at_mk0. } { unfold fuel_of, t. cbn. lia. }
  cbn [py_run] in E. rewrite E. clear E. destruct (fold_left (fun a i => py_acc i a) is (None, Some ub0, [], 0)) as [[[nv ub] es] nbe]. cbn [py_run].
  rewrite app_assoc in B. destruct fuel' as [|n]; [lia|]. cbn [py_loop]. rewrite (at_eof_app _ _ _ _ B), (get_char_at f' (s' ++ s) "E" _ B); [|apply Forall_app; split; [exact A|apply Hs]|nw].
  cbn [i_eof val bind]. destruct (ascii_dec "E" "N") as [E|_]; [discriminate E|]. destruct (ascii_dec "E" "E") as [_|E]; [|easy].
  rewrite (get_word_at _ s1 ["="] (s2 ++ "{" :: s3 ++ "}" :: r)); [|apply at_mk0|exact H1|exact eq_word|now apply wstart_gap].
  rewrite (get_char_at _ s2 "{" (s3 ++ "}" :: r)); [|apply at_mk|apply H2|nw].
  unfold fuel_of. cbn [py_edges val bind i_rest]. destruct (ascii_dec "{" "}") as [E|_]; [discriminate E|].
  rewrite (get_char_at _ s3 "}" r); [|apply at_mk0|exact H3|nw].
  pose proof (get_int_not (mkI r false false) r (at_mk0 _) Hr) as G. destruct (get_int (mkI r false false)) as [u f2]. cbn [fst snd] in G.
  destruct G as [->|[-> Hf]].
  - destruct (get_char f2) as [? f3], (get_int f3) as [? f4], (get_char f4) as [? f5], (get_char f5) as [? f6]. reflexivity.
  - assert (G3 : i_fail (snd (get_char f2)) = true). { unfold get_char, sentry, good. rewrite Hf, orb_true_r. reflexivity. }
    destruct (get_char f2) as [? f3]. cbn [snd] in G3.
    assert (G4 : fst (get_int f3) = None). { unfold get_int, get_num, sentry, good. rewrite G3, orb_true_r. reflexivity. }
    destruct (get_int f3) as [v f4]. cbn [fst] in G4. subst v.
    destruct (get_char f4) as [? f5], (get_char f5) as [? f6]. reflexivity.
Qed.

(** ** Knapsack *)
Definition flat_items (items : list (Z * Z)) : list Z := flat_map (fun i => [fst i; snd i]) items.
Lemma ints_start zs r tail : ints zs r -> no_digit tail -> no_digit (r ++ tail).
Proof.
  intros H K. inversion H; subst; [exact K|]. rewrite <- app_assoc. apply wstart_not_digit. now apply wstart_gap.
Qed.
Lemma ints_inv z zs r : ints (z :: zs) r -> exists s t q, wgap s /\ integer t z /\ ints zs q /\ r = s ++ t ++ q.
Proof. intros H. inversion H; subst. eauto 10. Qed.
Lemma integer_len t z : integer t z -> 0 < List.length t.
Proof. intros [_ [[H _]|(t' & -> & _)]]; [|cbn; lia]. destruct t; [easy|cbn; lia]. Qed.

Lemma kn_loop_at items : forall r tail f ni count acc fuel, ints (flat_items items) r -> no_digit tail -> at_ f (r ++ tail) -> (i_eof f = true <-> r ++ tail = []) ->
  Z.of_nat (count + List.length items) = ni -> List.length (r ++ tail) < fuel -> kn_loop fuel f (Some ni) count acc = Ok (acc ++ items).
Proof.
  induction items as [|[p w] items IH]; intros r tail f ni count acc fuel Hr Ht Hat He Hn Hf; (destruct fuel as [|n]; [lia|]); cbn [kn_loop].
  - rewrite app_nil_r. destruct (i_eof f); [reflexivity|]. destruct (get_int f) as [? f1], (get_int f1) as [? f2]. cbn [val bind].
    cbn [List.length] in Hn. destruct (Z.leb_spec ni (Z.of_nat count)); [reflexivity|lia].
  - cbn [flat_items flat_map app fst snd] in Hr. apply ints_inv in Hr. destruct Hr as (s1 & t1 & q1 & G1 & I1 & Hr & ->).
    apply ints_inv in Hr. destruct Hr as (s2 & t2 & q2 & G2 & I2 & Hr & ->). pose proof (integer_len _ _ I1) as L1.
    assert (Ef : i_eof f = false). { destruct (i_eof f); [|reflexivity]. pose proof (proj1 He eq_refl) as X. destruct s1; [now destruct G1|discriminate X]. }
    rewrite Ef. rewrite <- !app_assoc in *.
    rewrite (get_int_at f s1 t1 p (s2 ++ t2 ++ q2 ++ tail)); [|exact Hat|apply G1|exact I1|apply wstart_not_digit; now apply wstart_gap].
    rewrite (get_int_at _ s2 t2 w (q2 ++ tail)); [|apply at_mk|apply G2|exact I2|now apply (ints_start _ _ _ Hr)].
    cbn [val bind]. cbn [List.length] in Hn. destruct (Z.leb_spec ni (Z.of_nat count)); [lia|].
    rewrite (IH q2 tail _ ni (S count) (acc ++ [(p, w)]) n); [now rewrite <- app_assoc|exact Hr|exact Ht|apply at_mk| |lia|].
    + cbn. destruct (q2 ++ tail); cbn; split; congruence.
    + lens.
Qed.

(** both numbers of the first line *)
Lemma knap_first capa items t tail : ints (knap_nums capa items) (nl :: t) -> no_digit tail ->
  exists f2 r, at_ f2 (r ++ tail) /\ (i_eof f2 = true <-> r ++ tail = []) /\ ints (flat_items items) r /\
    get_int (opened (Some (t ++ tail))) = (Some (Z.of_nat (List.length items)), snd (get_int (opened (Some (t ++ tail))))) /\
    get_int (snd (get_int (opened (Some (t ++ tail))))) = (Some capa, f2) /\ i_rest f2 = r ++ tail.
Proof.
  intros H Ht. unfold knap_nums in H. apply ints_inv in H. destruct H as (s1 & t1 & q1 & G1 & I1 & H & E1).
  apply ints_inv in H. destruct H as (s2 & t2 & q2 & G2 & I2 & H & ->).
  destruct s1 as [|c s1]; [destruct G1; easy|]. injection E1 as <- ->. rewrite <- !app_assoc.
  exists (mkI (q2 ++ tail) (is_nil (q2 ++ tail)) false), q2. split; [apply at_mk|]. split. { cbn. destruct (q2 ++ tail); cbn; split; congruence. }
  split; [exact H|].
  assert (G : get_int (opened (Some (s1 ++ t1 ++ s2 ++ t2 ++ q2 ++ tail))) = (Some (Z.of_nat (List.length items)), mkI (s2 ++ t2 ++ q2 ++ tail) (is_nil (s2 ++ t2 ++ q2 ++ tail)) false)).
  { apply (get_int_at _ s1 t1); [apply at_mk0| |exact I1|apply wstart_not_digit; now apply wstart_gap]. destruct G1 as [_ G1]. now inversion G1. }
  rewrite G. cbn [snd]. split; [reflexivity|]. split; [|reflexivity].
  apply (get_int_at _ s2 t2); [apply at_mk|apply G2|exact I2|now apply (ints_start _ _ _ H)].
Qed.

Theorem readKnap_ok capa items t tail : ints (knap_nums capa items) (nl :: t) -> no_digit tail ->
  readKnap (Some (t ++ tail)) = Ok (mkK (Some (Z.of_nat (List.length items))) (Some capa) items).
Proof.
  intros H Ht. destruct (knap_first _ _ _ _ H Ht) as (f2 & r & Hat & He & Hr & G1 & G2 & Hrest). unfold readKnap. cbv zeta. rewrite G1, G2.
  rewrite (kn_loop_at items r tail); [reflexivity|exact Hr|exact Ht|exact Hat|exact He|reflexivity|]. unfold fuel_of. rewrite Hrest. lia.
Qed.

Lemma kn2_loop_at items : forall r tail f ni count acc fuel, ints (flat_items items) r -> no_digit tail -> at_ f (r ++ tail) -> (i_eof f = true <-> r ++ tail = []) ->
  Z.of_nat (count + List.length items) = ni -> List.length (r ++ tail) < fuel ->
  kn2_loop fuel f ni count acc = match tail with [] => Ok (acc ++ items) | _ => Err UB end.
Proof.
  induction items as [|[p w] items IH]; intros r tail f ni count acc fuel Hr Ht Hat He Hn Hf; (destruct fuel as [|n]; [lia|]); cbn [kn2_loop].
  - inversion Hr; subst r. cbn [app] in He. cbn [List.length] in Hn. destruct (i_eof f) eqn:Ef.
    + rewrite app_nil_r. destruct tail; [reflexivity|]. now pose proof (proj1 He eq_refl).
    + destruct tail as [|c tail]; [now specialize (proj2 He eq_refl)|]. destruct (get_int f) as [? f1], (get_int f1) as [? f2].
      destruct (Z.leb_spec ni (Z.of_nat count)); [reflexivity|lia].
  - cbn [flat_items flat_map app fst snd] in Hr. apply ints_inv in Hr. destruct Hr as (s1 & t1 & q1 & G1 & I1 & Hr & ->).
    apply ints_inv in Hr. destruct Hr as (s2 & t2 & q2 & G2 & I2 & Hr & ->). pose proof (integer_len _ _ I1) as L1.
    assert (Ef : i_eof f = false). { destruct (i_eof f); [|reflexivity]. pose proof (proj1 He eq_refl) as X. destruct s1; [now destruct G1|discriminate X]. }
    rewrite Ef. rewrite <- !app_assoc in *.
    rewrite (get_int_at f s1 t1 p (s2 ++ t2 ++ q2 ++ tail)); [|exact Hat|apply G1|exact I1|apply wstart_not_digit; now apply wstart_gap].
    rewrite (get_int_at _ s2 t2 w (q2 ++ tail)); [|apply at_mk|apply G2|exact I2|now apply (ints_start _ _ _ Hr)].
    cbn [val bind]. cbn [List.length] in Hn. destruct (Z.leb_spec ni (Z.of_nat count)); [lia|].
    rewrite (IH q2 tail _ ni (S count) (acc ++ [(p, w)]) n); [now rewrite <- app_assoc|exact Hr|exact Ht|apply at_mk| |lia|].
    + cbn. destruct (q2 ++ tail); cbn; split; congruence.
    + lens.
Qed.

(** knapsack2: right when the file ends with the last digit, otherwise a write past the end of the array *)
Theorem readKnap2_exact le capa items t tail : ints (knap_nums capa items) (nl :: t) -> no_digit tail ->
  readKnap2 le (Some (t ++ tail)) = match tail with [] => Ok (mkK (Some (Z.of_nat (List.length items))) (Some capa) (msort_list le (0, 0)%Z items)) | _ => Err UB end.
Proof.
  intros H Ht. destruct (knap_first _ _ _ _ H Ht) as (f2 & r & Hat & He & Hr & G1 & G2 & Hrest). unfold readKnap2. cbv zeta. rewrite G1, G2. cbn [val bind].
  destruct (Z.ltb_spec (Z.of_nat (List.length items)) 0); [lia|].
  rewrite (kn2_loop_at items r tail f2 _ 0 []); [|exact Hr|exact Ht|exact Hat|exact He|reflexivity|unfold fuel_of; rewrite Hrest; lia].
  destruct tail; [|reflexivity]. cbn [bind app]. destruct (Z.ltb_spec (Z.of_nat (List.length items)) (Z.of_nat (List.length items))); [lia|reflexivity].
Qed.
