(** Concrete models for C81: one whose values stay small, and one whose values leave the range in which doubles add without error. *)
From Verif Require Import Base HeapModel DDModel DDSpec DDFrame DDRestricted TabModel DDExamples DDRelaxedEnd DDWide SearchModel SearchProofs SearchEx RoundModel RoundSearch.

Definition tab_small (T : tab) (A C : Z) : bool :=
  forallb (fun x => (Z.abs (r_cost x) <=? C)%Z) (t_rows T) && match t_local T with None => true | Some tl => forallb (fun z => (Z.abs z <=? A)%Z) tl end.
Lemma tab_sized T N A C M : (2147483647 <= A)%Z -> (0 <= C)%Z -> (2 * A + C * (2 * Z.of_nat N + 4) <= M)%Z -> tab_small T A C = true -> sized (tabP T) (inTab T) N A C M.
Proof.
  intros HA HC HM H. apply andb_prop in H as [H1 H2]. rewrite forallb_forall in H1. constructor; auto.
  - intros s l _ _ _. cbn. destruct (look T s l) as [x|] eqn:L; [|lia]. apply find_some in L as [L _]. specialize (H1 _ L). lia.
  - intros loc s x E _. cbn in E. destruct (t_local T) as [tl|]; [|discriminate]. injection E as <-. rewrite forallb_forall in H2.
    destruct (le_lt_dec (length tl) s) as [Q|Q]; [rewrite nth_overflow by exact Q; lia|]. specialize (H2 _ (nth_In tl 0%Z Q)). lia.
Qed.

Lemma good_sized : sized goodP (inTab t_good) 3 (2 ^ 51) (2 ^ 31) (2 ^ 53).
Proof. apply tab_sized; vm_compute; congruence. Qed.
Lemma good_runF : exists s, searchF dbl_add goodP (exSrt goodP) 20 nolim 100 2 None = Ok (s, Emptied) /\ b_primal (s_b s) = 9%Z /\ b_inc (s_b s) = [0; 1; 0]%Z.
Proof.
  destruct (so_inv goodP (searchF dbl_add goodP (exSrt goodP) 20 nolim 100 2 None) (mkObs 9 [0; 1; 0] [[0; 1; 0]; [0; 0; 0]] 2 0 0 0 false 1 false true None)%Z) as (s & H & H1 & H2 & _);
    [apply Nat.eqb_refl|vm_compute; reflexivity|]. exists s. csplit; auto.
Qed.

(** the labels 0 0 0 0 0 cost -2^53, -1, -1, -1, 2^53: -3 in all; the labels 1 0 cost 0, -2 *)
Definition t_big := mkTab [rw 0 0 1 (-9007199254740992); rw 0 1 5 0; rw 1 0 2 (-1); rw 2 0 3 (-1); rw 3 0 4 (-1); rw 4 0 6 9007199254740992; rw 5 0 6 (-2)]%Z 6 [0; 1; 2; 3; 4; 1; 0]
  [] None None true.
Notation bigP := (tabP t_big).
Lemma big_setting w : (N.of_nat w < 4294967296)%N -> setting bigP (inTab t_big) (tabRank t_big) 4 (exSrt bigP) 20 w.
Proof.
  constructor; [apply tab_valid; vm_compute; reflexivity|discriminate|unfold inTab; cbn; lia|apply tab_range; vm_compute; reflexivity|apply exSrt_perm|lia|lia].
Qed.
Lemma big_worst V : solution bigP (p_init bigP) 0 V -> be bigP (initialWorst bigP) V.
Proof.
  intros (v & C & ->). apply (proj1 (compls_iff t_big eq_refl _ _)) in C. vm_compute in C. unfold be, val. cbn. intuition (subst; lia).
Qed.
Lemma big_narrow : narrow bigP (p_init bigP) 4.
Proof.
  intros k l ND Hl. assert (H : incl l (filter (fun x => tabRank t_big x =? k) (seq 0 6))).
  { assert (I0 : inTab t_big (p_init bigP)) by (unfold inTab; cbn; lia).
    intros x Hx. destruct (Hl x Hx) as (Nt & ls & v & Pt & <-).
    pose proof (path_rank bigP (inTab t_big) (tabRank t_big) 4 (se_model _ _ _ _ _ _ _ (big_setting 2 eq_refl)) _ _ _ _ I0 Pt Nt) as R.
    pose proof (path_closed bigP (inTab t_big) _ _ _ _ (tab_closed t_big eq_refl) I0 Pt) as Ix. unfold inTab in Ix. cbn in Nt, Ix, R.
    apply filter_In. split; [apply in_seq; lia|apply Nat.eqb_eq; exact R]. }
  apply NoDup_incl_length in H; auto. transitivity (length (filter (fun x => tabRank t_big x =? k) (seq 0 6))); auto.
  destruct k as [|[|[|[|[|k]]]]]; cbn; lia.
Qed.
Lemma big_runF : exists s, searchF dbl_add bigP (exSrt bigP) 20 nolim 100 4 None = Ok (s, Emptied) /\ b_primal (s_b s) = (-2)%Z /\ b_inc (s_b s) = [1; 0]%Z.
Proof.
  destruct (so bigP (searchF dbl_add bigP (exSrt bigP) 20 nolim 100 4 None)) as [o|] eqn:E; [|vm_compute in E; discriminate].
  destruct (so_inv bigP _ o Nat.eqb_refl E) as (s & H & H1 & H2 & _). exists s. vm_compute in E. injection E as <-. csplit; auto.
Qed.
Lemma big_better : solution bigP (p_init bigP) 0 (-3)%Z.
Proof. apply tab_solution; [reflexivity|vm_compute; auto]. Qed.
Lemma big_run : exists s, search bigP (exSrt bigP) 20 nolim 100 4 None = Ok (s, Emptied) /\ b_primal (s_b s) = (-3)%Z.
Proof.
  destruct (so bigP (search bigP (exSrt bigP) 20 nolim 100 4 None)) as [o|] eqn:E; [|vm_compute in E; discriminate].
  destruct (so_inv bigP _ o Nat.eqb_refl E) as (s & H & H1 & H2 & _). exists s. vm_compute in E. injection E as <-. csplit; auto.
Qed.
(** the only solution costs -2^53 - 1 + 2^53 = -1; the value reported is another one *)
Definition t_off := mkTab [rw 0 0 1 (-9007199254740992); rw 1 0 2 (-1); rw 2 0 3 9007199254740992]%Z 3 [0; 1; 2; 0] [] None None true.
Notation offP := (tabP t_off).
Lemma off_setting w : (N.of_nat w < 4294967296)%N -> setting offP (inTab t_off) (tabRank t_off) 2 (exSrt offP) 20 w.
Proof.
  constructor; [apply tab_valid; vm_compute; reflexivity|discriminate|unfold inTab; cbn; lia|apply tab_range; vm_compute; reflexivity|apply exSrt_perm|lia|lia].
Qed.
Lemma off_runF : exists s, searchF dbl_add offP (exSrt offP) 20 nolim 100 4 None = Ok (s, Emptied) /\ b_primal (s_b s) = 0%Z /\ b_inc (s_b s) = [0; 0; 0]%Z.
Proof.
  destruct (so offP (searchF dbl_add offP (exSrt offP) 20 nolim 100 4 None)) as [o|] eqn:E; [|vm_compute in E; discriminate].
  destruct (so_inv offP _ o Nat.eqb_refl E) as (s & H & H1 & H2 & _). exists s. vm_compute in E. injection E as <-. csplit; auto.
Qed.
Lemma off_only V : solution offP (p_init offP) 0 V -> V = (-1)%Z.
Proof. intros (v & C & ->). apply (proj1 (compls_iff t_off eq_refl _ _)) in C. vm_compute in C. intuition (subst; lia). Qed.

(** ** the statements of PropRound.v *)
Lemma double_search {St} (P : prob St) I rank N A C srt dfuel mxw : setting P I rank N srt dfuel mxw -> sized P I N A C (2 ^ 53) ->
  forall lim fuel user, be P (match user with Some p => p | None => sentinel P end) (sentinel P) ->
  searchF dbl_add P srt dfuel lim fuel mxw user = search P srt dfuel lim fuel mxw user.
Proof. intros SE SZ lim fuel user H. eapply searchF_eq; eauto using dbl_exact. Qed.
Lemma double_search_int {St} (P : prob St) I rank N srt dfuel mxw : setting P I rank N srt dfuel mxw ->
  (forall s l, I s -> s <> p_target P -> In l (p_labels P s) -> (-2147483648 <= p_cost P s l <= 2147483647)%Z) ->
  (forall local s x, p_local P = Some local -> I s -> (Z.abs (local s x) <= 2 ^ 51)%Z) -> (Z.of_nat N <= 1000000)%Z ->
  forall lim fuel user, be P (match user with Some p => p | None => sentinel P end) (sentinel P) ->
  searchF dbl_add P srt dfuel lim fuel mxw user = search P srt dfuel lim fuel mxw user.
Proof.
  intros SE Hc Hl HN. apply (double_search P I rank N (2 ^ 51) 2147483648); auto. constructor; auto; try lia. intros s l H1 H2 H3. specialize (Hc s l H1 H2 H3). lia.
Qed.
Lemma double_narrow {St} (P : prob St) I rank N A C srt dfuel mxw : setting P I rank N srt dfuel mxw -> sized P I N A C (2 ^ 53) ->
  forall lim user, let p0 := match user with Some p => p | None => sentinel P end in be P p0 (sentinel P) ->
  forall fuel, lim 0 = false -> narrow P (p_init P) mxw -> (forall V, solution P (p_init P) 0 V -> be P (initialWorst P) V) -> 1 <= fuel ->
  exists s, searchF dbl_add P srt dfuel lim fuel mxw user = Ok (s, Emptied) /\ (forall V, solution P (p_init P) 0 V -> be P (b_primal (s_b s)) V) /\
    (b_primal (s_b s) <> p0 -> genuine P (p_init P) 0 [] (p_target P) (b_primal (s_b s)) (b_inc (s_b s))).
Proof.
  intros SE SZ lim user p0 H fuel L0 Nw HL F. destruct (search_narrow P I rank N srt dfuel mxw SE lim user H fuel L0 Nw HL F) as (s & E & _ & H1 & H2).
  exists s. rewrite (double_search P I rank N A C srt dfuel mxw SE SZ lim fuel user H). auto.
Qed.
Lemma double_compile {St} (P : prob St) I rank N A C M fadd : valid_model P I rank N -> sized P I N A C M -> exact_upto M fadd ->
  forall rs rb rl, rs <> p_target P -> I rs -> in_range P rs rb -> (Z.abs rb <= C * Z.of_nat (rank rs))%Z ->
  forall fuel d primal w, started d rs rb rl -> N + 1 < fuel + rank rs ->
  ((N.of_nat w < 4294967296)%N -> rs_computeF fadd P fuel d primal w = rs_compute P fuel d primal w) /\
  (forall srt, (forall d l, Permutation (srt d l) l) -> rx_computeF fadd P srt fuel d primal w = rx_compute P srt fuel d primal w).
Proof.
  intros VM SZ HF rs rb rl H1 H2 H3 H4 fuel d primal w S F. split.
  - intros W. eapply rs_computeF_eq; eauto.
  - intros srt Hs. eapply (rx_computeF_eq P I rank N A C M fadd); eauto.
Qed.
Lemma round53_error z : (2 * Z.abs (round53 z - z) <= 2 ^ Z.max 0 (Z.log2 (Z.abs z) - 52) /\ exists m e, round53 z = m * 2 ^ e /\ 0 <= e /\ Z.abs m <= 2 ^ 53)%Z.
Proof.
  unfold round53. cbn zeta. destruct (Z.leb_spec (Z.log2 (Z.abs z) - 52) 0) as [L|L].
  - rewrite Z.sub_diag. split; [pose proof (Z.pow_nonneg 2 (Z.max 0 (Z.log2 (Z.abs z) - 52))); lia|]. exists z, 0%Z. csplit; try lia.
    destruct (Z.eq_dec z 0) as [->|Nz]; [cbn; lia|]. pose proof (Z.log2_spec (Z.abs z) ltac:(lia)) as [_ Q].
    pose proof (Z.pow_le_mono_r 2 (Z.succ (Z.log2 (Z.abs z))) 53 ltac:(lia) ltac:(lia)). lia.
  - set (e := (Z.log2 (Z.abs z) - 52)%Z) in *. rewrite Z.max_r by lia. set (u := (2 ^ e)%Z). assert (U : (0 < u)%Z) by (apply Z.pow_pos_nonneg; lia).
    pose proof (Z.div_mod (Z.abs z) u ltac:(lia)) as D. pose proof (Z.mod_pos_bound (Z.abs z) u U) as R.
    set (q := (Z.abs z / u)%Z) in *. set (r := (Z.abs z mod u)%Z) in *.
    assert (Nz : (0 < Z.abs z)%Z). { destruct (Z.eq_dec (Z.abs z) 0) as [E|]; [|lia]. unfold e in L. rewrite E in L. cbn in L. lia. }
    assert (Q : (0 <= q < 2 ^ 53)%Z).
    { split; [apply Z.div_pos; lia|]. apply Z.div_lt_upper_bound; [lia|]. pose proof (Z.log2_spec (Z.abs z) Nz) as [_ Q].
      replace (Z.succ (Z.log2 (Z.abs z))) with (e + 53)%Z in Q by (unfold e; lia). rewrite Z.pow_add_r in Q by lia. exact Q. }
    set (q' := if (r * 2 <? u)%Z then q else if (u <? r * 2)%Z then (q + 1)%Z else if Z.even q then q else (q + 1)%Z).
    assert (X : (q' = q /\ 2 * r <= u \/ q' = q + 1 /\ u <= 2 * r)%Z).
    { unfold q'. destruct (Z.ltb_spec (r * 2) u); [left; lia|]. destruct (Z.ltb_spec u (r * 2)); [right; lia|]. destruct (Z.even q); [left|right]; lia. }
    clearbody q'. split.
    + assert (Y : (Z.abs (Z.sgn z * (q' * u) - z) = Z.abs (q' * u - Z.abs z))%Z).
      { destruct (Z.sgn_spec z) as [[E ->]|[[E ->]|[E ->]]]; lia. }
      rewrite Y, D. destruct X as [[-> X]|[-> X]].
      * replace (q * u - (u * q + r))%Z with (- r)%Z by lia. lia.
      * replace ((q + 1) * u - (u * q + r))%Z with (u - r)%Z by lia. lia.
    + exists (Z.sgn z * q')%Z, e. csplit; [fold u; lia|lia|]. rewrite Z.abs_mul. destruct (Z.sgn_spec z) as [[E ->]|[[E ->]|[E ->]]]; cbn [Z.abs]; lia.
Qed.
Lemma rounding_facts : exact_upto (2 ^ 53) dbl_add /\ dbl_add (2 ^ 53) 1 = (2 ^ 53)%Z /\ dbl_add (2 ^ 53 + 2) 1 = (2 ^ 53 + 4)%Z /\
  forall a b, (2 * Z.abs (dbl_add a b - (a + b)) <= 2 ^ Z.max 0 (Z.log2 (Z.abs (a + b)) - 52))%Z /\
    exists m e, (dbl_add a b = m * 2 ^ e /\ 0 <= e /\ Z.abs m <= 2 ^ 53)%Z.
Proof. csplit; [exact dbl_exact|reflexivity|reflexivity|]. intros a b. apply round53_error. Qed.
Lemma double_wrong_optimum : exists (P : prob nat) I rank N, setting P I rank N (exSrt P) 20 4 /\ narrow P (p_init P) 4 /\
  (forall V, solution P (p_init P) 0 V -> be P (initialWorst P) V) /\ p_min P = true /\ solution P (p_init P) 0 (-3) /\
  (exists s, search P (exSrt P) 20 nolim 100 4 None = Ok (s, Emptied) /\ b_primal (s_b s) = (-3)%Z) /\
  (exists s, searchF dbl_add P (exSrt P) 20 nolim 100 4 None = Ok (s, Emptied) /\ b_primal (s_b s) = (-2)%Z).
Proof.
  exists bigP, (inTab t_big), (tabRank t_big), 4. destruct big_runF as (s & H & H1 & _).
  csplit; [now apply big_setting|exact big_narrow|exact big_worst|reflexivity|exact big_better|exact big_run|exists s; auto].
Qed.
Lemma double_wrong_value : exists (P : prob nat) I rank N, setting P I rank N (exSrt P) 20 4 /\ (forall V, solution P (p_init P) 0 V -> V = (-1)%Z) /\
  exists s, searchF dbl_add P (exSrt P) 20 nolim 100 4 None = Ok (s, Emptied) /\ b_primal (s_b s) = 0%Z /\ b_inc (s_b s) = [0; 0; 0]%Z.
Proof. exists offP, (inTab t_off), (tabRank t_off), 2. csplit; [now apply off_setting|exact off_only|exact off_runF]. Qed.
