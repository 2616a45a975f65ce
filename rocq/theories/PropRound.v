(** C81: the costs and bounds of the library are doubles.  As long as no value can pass 2^53, every sum they take part in is exact and the whole search
    with double arithmetic is the search with unbounded integers; beyond that the search reports wrong optima and values no solution has.
      [fadd]: the addition used wherever src/*.cpp adds two doubles; [dbl_add] rounds the sum to 53 significant bits, ties to even;
      [exact_upto M fadd]: no error as long as the arguments and the sum are at most M in absolute value;
      [sized P I N A C M]: costs of at most C, local bounds of at most A, at most N layers, 2 A + C (2 N + 4) <= M (A also covers +-2147483647). *)
From Verif Require Import Base DDModel DDSpec DDRestricted TabModel DDExamples DDRelaxedEnd DDWide SearchModel SearchProofs SearchEx RoundModel RoundSearch RoundEx.

(** the whole search: same final state, same ending, same failures *)
Theorem C81_double_search_is_exact : forall St (P : prob St) I rank N A C srt dfuel mxw, setting P I rank N srt dfuel mxw -> sized P I N A C (2 ^ 53) ->
  forall lim fuel user, be P (match user with Some p => p | None => sentinel P end) (sentinel P) ->
  searchF dbl_add P srt dfuel lim fuel mxw user = search P srt dfuel lim fuel mxw user.
Proof. exact @double_search. Qed.
Print Assumptions C81_double_search_is_exact.
(** costs that are ints, local bounds up to 2^51, up to a million layers *)
Theorem C81_int_costs : forall St (P : prob St) I rank N srt dfuel mxw, setting P I rank N srt dfuel mxw ->
  (forall s l, I s -> s <> p_target P -> In l (p_labels P s) -> (-2147483648 <= p_cost P s l <= 2147483647)%Z) ->
  (forall local s x, p_local P = Some local -> I s -> (Z.abs (local s x) <= 2 ^ 51)%Z) -> (Z.of_nat N <= 1000000)%Z ->
  forall lim fuel user, be P (match user with Some p => p | None => sentinel P end) (sentinel P) ->
  searchF dbl_add P srt dfuel lim fuel mxw user = search P srt dfuel lim fuel mxw user.
Proof. exact @double_search_int. Qed.
Print Assumptions C81_int_costs.
(** hence, with double arithmetic: a wide enough search ends with the optimum *)
Theorem C81_wide_double_search_is_optimal : forall St (P : prob St) I rank N A C srt dfuel mxw, setting P I rank N srt dfuel mxw -> sized P I N A C (2 ^ 53) ->
  forall lim user, let p0 := match user with Some p => p | None => sentinel P end in be P p0 (sentinel P) ->
  forall fuel, lim 0 = false -> narrow P (p_init P) mxw -> (forall V, solution P (p_init P) 0 V -> be P (initialWorst P) V) -> 1 <= fuel ->
  exists s, searchF dbl_add P srt dfuel lim fuel mxw user = Ok (s, Emptied) /\ (forall V, solution P (p_init P) 0 V -> be P (b_primal (s_b s)) V) /\
    (b_primal (s_b s) <> p0 -> genuine P (p_init P) 0 [] (p_target P) (b_primal (s_b s)) (b_inc (s_b s))).
Proof. exact @double_narrow. Qed.
Print Assumptions C81_wide_double_search_is_optimal.
(** the same for one compilation, from any start that carries at most C per layer, and any addition that is exact up to M *)
Theorem C81_compilations : forall St (P : prob St) I rank N A C M fadd, valid_model P I rank N -> sized P I N A C M -> exact_upto M fadd ->
  forall rs rb rl, rs <> p_target P -> I rs -> in_range P rs rb -> (Z.abs rb <= C * Z.of_nat (rank rs))%Z ->
  forall fuel d primal w, started d rs rb rl -> N + 1 < fuel + rank rs ->
  ((N.of_nat w < 4294967296)%N -> rs_computeF fadd P fuel d primal w = rs_compute P fuel d primal w) /\
  (forall srt, (forall d l, Permutation (srt d l) l) -> rx_computeF fadd P srt fuel d primal w = rx_compute P srt fuel d primal w).
Proof. exact @double_compile. Qed.
Print Assumptions C81_compilations.
(** [dbl_add] rounds to 53 bits: exact up to 2^53, the error is at most half the last of 53 bits, and the result has at most 53 bits (or is a power of two) *)
Theorem C81_rounding : exact_upto (2 ^ 53) dbl_add /\ dbl_add (2 ^ 53) 1 = (2 ^ 53)%Z /\ dbl_add (2 ^ 53 + 2) 1 = (2 ^ 53 + 4)%Z /\
  forall a b, (2 * Z.abs (dbl_add a b - (a + b)) <= 2 ^ Z.max 0 (Z.log2 (Z.abs (a + b)) - 52))%Z /\
    exists m e, (dbl_add a b = m * 2 ^ e /\ 0 <= e /\ Z.abs m <= 2 ^ 53)%Z.
Proof. exact rounding_facts. Qed.
Print Assumptions C81_rounding.
Example C81_nontrivial : setting goodP (inTab t_good) (tabRank t_good) 3 (exSrt goodP) 20 2 /\ sized goodP (inTab t_good) 3 (2 ^ 51) (2 ^ 31) (2 ^ 53) /\
  exists s, searchF dbl_add goodP (exSrt goodP) 20 nolim 100 2 None = Ok (s, Emptied) /\ b_primal (s_b s) = 9%Z /\ b_inc (s_b s) = [0; 1; 0]%Z.
Proof. split; [now apply good_setting|]. split; [exact good_sized|exact good_runF]. Qed.
(** without the size: all hypotheses of C19 hold, the width is enough, every solution has a small value; with integers the search ends with -3, with
    doubles with -2 *)
Theorem C81_double_search_refuted : exists (P : prob nat) I rank N, setting P I rank N (exSrt P) 20 4 /\ narrow P (p_init P) 4 /\
  (forall V, solution P (p_init P) 0 V -> be P (initialWorst P) V) /\ p_min P = true /\ solution P (p_init P) 0 (-3) /\
  (exists s, search P (exSrt P) 20 nolim 100 4 None = Ok (s, Emptied) /\ b_primal (s_b s) = (-3)%Z) /\
  (exists s, searchF dbl_add P (exSrt P) 20 nolim 100 4 None = Ok (s, Emptied) /\ b_primal (s_b s) = (-2)%Z).
Proof. exact double_wrong_optimum. Qed.
Print Assumptions C81_double_search_refuted.
(** a value reported with labels that no solution has *)
Theorem C81_double_value_refuted : exists (P : prob nat) I rank N, setting P I rank N (exSrt P) 20 4 /\ (forall V, solution P (p_init P) 0 V -> V = (-1)%Z) /\
  exists s, searchF dbl_add P (exSrt P) 20 nolim 100 4 None = Ok (s, Emptied) /\ b_primal (s_b s) = 0%Z /\ b_inc (s_b s) = [0; 0; 0]%Z.
Proof. exact double_wrong_value. Qed.
Print Assumptions C81_double_value_refuted.
