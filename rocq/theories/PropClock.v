(** Property C91: elapsed times (src/RuntimeMonitor.cpp) and time limits.  Readings of the clock are nanoseconds; [clk k] is the reading after the k-th extraction of the
    search, [start] the one before its loop.  [setting] as in PropSearch.v. *)
From Coq Require Import QArith.
From Verif Require Import Base DDModel DDSpec DDExamples TabModel SearchModel SearchProofs SearchEx SearchDyn ColorModel ColorSpec ColorProofs ColorTop ColorEnd ClockModel ClockProofs ClockColor.
Local Open Scope Z_scope.

(** C91: the milliseconds reported are the whole milliseconds that passed; seconds likewise *)
Theorem C91_milliseconds : forall s e, s <= e -> ck_milli s e * 1000000 <= e - s < (ck_milli s e + 1) * 1000000.
Proof. exact milli_floor. Qed.
Print Assumptions C91_milliseconds.
Theorem C91_seconds : forall s e, s <= e ->
  (ck_seconds s e * inject_Z 1000000000 <= inject_Z (e - s))%Q /\ (inject_Z (e - s) < (ck_seconds s e + (1 # 1000)) * inject_Z 1000000000)%Q.
Proof. exact seconds_floor. Qed.
Print Assumptions C91_seconds.
(** C91: microseconds likewise, as long as the clock is not set back *)
Theorem C91_microseconds : forall s now, s <= now -> now - s < 18446744073709551616000 -> ck_micro s now * 1000 <= now - s < (ck_micro s now + 1) * 1000.
Proof. exact micro_floor. Qed.
Print Assumptions C91_microseconds.
Example C91_microseconds_case : 4000 <= 7999 /\ 7999 - 4000 < 18446744073709551616000 /\ ck_micro 4000 7999 = 3 /\ ck_milli 4000 7999 = 0.
Proof. split; [lia|]. split; [lia|]. split; reflexivity. Qed.
(** C91: the times of two consecutive intervals add up to the time of both, or to one millisecond less *)
Theorem C91_pieces : forall a b c, a <= b -> b <= c -> 0 <= ck_milli a c - (ck_milli a b + ck_milli b c) <= 1.
Proof. exact milli_pieces. Qed.
Print Assumptions C91_pieces.
(** C91: once the clock shows the limit, the search ends: at the latest with the extraction after which it is read, whatever the model and however many nodes are left *)
Theorem C91_limit_ends_search : forall St (P : prob St) I rank N srt dfuel mxw, setting P I rank N srt dfuel mxw ->
  forall user, let p0 := match user with Some p => p | None => sentinel P end in be P p0 (sentinel P) ->
  forall T start clk K, 1 <= T -> start + T * 1000000 <= clk K ->
  exists s e, search P srt dfuel (ck_limit T start clk) (S K) mxw user = Ok (s, e).
Proof. exact @limit_ends. Qed.
Print Assumptions C91_limit_ends_search.
(** C91: it is stopped for no other reason: the clock showed the limit, for the first time *)
Theorem C91_limit_is_the_reason : forall St (P : prob St) srt dfuel mxw user T start clk fuel s q, 1 <= T ->
  search P srt dfuel (ck_limit T start clk) fuel mxw user = Ok (s, Limited q) ->
  exists k, (k < fuel)%nat /\ start + T * 1000000 <= clk k /\ forall i, (i < k)%nat -> clk i < start + T * 1000000.
Proof. exact @limit_reason. Qed.
Print Assumptions C91_limit_is_the_reason.
(** C91: both for labels that read the primal bound *)
Theorem C91_limit_ends_search_bound_labels : forall St (P : prob St) lab I rank N srt dfuel mxw, setting P I rank N srt dfuel mxw ->
  forall user, be P (start_bound P user) (sentinel P) -> dyn_ok P lab (start_bound P user) I rank N ->
  forall T start clk K, 1 <= T -> start + T * 1000000 <= clk K ->
  exists s e, searchD P lab srt dfuel (ck_limit T start clk) (S K) mxw user = Ok (s, e).
Proof. exact @limitD_ends. Qed.
Print Assumptions C91_limit_ends_search_bound_labels.
Theorem C91_limit_is_the_reason_bound_labels : forall St (P : prob St) lab srt dfuel mxw user T start clk fuel s q, 1 <= T ->
  searchD P lab srt dfuel (ck_limit T start clk) fuel mxw user = Ok (s, Limited q) ->
  exists k, (k < fuel)%nat /\ start + T * 1000000 <= clk k /\ forall i, (i < k)%nat -> clk i < start + T * 1000000.
Proof. exact @limitD_reason. Qed.
Print Assumptions C91_limit_is_the_reason_bound_labels.
(** C91: the colouring programs, the only ones that set a limit: they end once the clock shows it, and what they report then is a colouring with that many colours *)
Theorem C91_colouring_limit : forall K es UB, simple_graph K es -> (1 <= K)%nat -> Z.of_nat UB < 2147483647 -> forall St (PP : option Z -> prob St), program K es UB PP ->
  forall srt dfuel mxw, (forall d l, Permutation (srt d l) l) -> (K + 1 < dfuel)%nat -> (N.of_nat mxw < 4294967296)%N ->
  forall T start clk k, 1 <= T -> start + T * 1000000 <= clk k ->
  exists s e, csearch PP srt dfuel (ck_limit T start clk) (S k) mxw None = Ok (s, e) /\
    (b_primal (s_b s) <> 2147483647 -> colouring K es (b_inc (s_b s)) /\ uses (b_inc (s_b s)) (Z.to_nat (b_primal (s_b s)))).
Proof. exact color_limit. Qed.
Print Assumptions C91_colouring_limit.
(** five vertices, width 1, two minutes over at the second extraction: one node was expanded and three colours were found (two suffice) *)
Example C91_colouring_case : simple_graph 5 g5 /\ program 5 g5 5 (co_prob 5 g5 5) /\ 0 + 120000 * 1000000 <= Z.of_nat 1 * 120000000000 /\
  exists s, csearch (co_prob 5 g5 5) (exSrt (co_prob 5 g5 5 None)) 40 (ck_limit 120000 0 (fun k => Z.of_nat k * 120000000000)) 2 1 None = Ok (s, Limited (1%nat, 2)) /\
    b_primal (s_b s) = 3 /\ b_inc (s_b s) = [1; 2; 1; 3; 1] /\ s_ttl s = 1%nat.
Proof.
  split; [exact g5_graph|]. split; [constructor|]. split; [lia|].
  destruct (so_inv (co_prob 5 g5 5 None) (csearch (co_prob 5 g5 5) (exSrt (co_prob 5 g5 5 None)) 40 (ck_limit 120000 0 (fun k => Z.of_nat k * 120000000000)) 2 1 None)
    (mkObs 3 [1; 2; 1; 3; 1] [[1; 2; 1; 3; 1]] 1 0 0 0 false 1 false true (Some (1%nat, 2))) (pr_refl 5 g5 5 _ (coloring1 5 g5 5))) as (s & H & H1 & H2 & _ & H3 & _);
    [vm_compute; reflexivity|]. exists s. split; [exact H|]. split; [exact H1|]. split; [exact H2|exact H3].
Qed.
(** C91, refuted: "microseconds reported are at most the time that passed".  A clock set back by a microsecond (high_resolution_clock need not be steady) gives 2^64-1. *)
Theorem C91_micro_refuted : exists s now, now < s /\ ck_micro s now = 18446744073709551615.
Proof. exists 5000, 4000. split; [lia|reflexivity]. Qed.
Print Assumptions C91_micro_refuted.

(** a search of two nodes, with the limit of coloring.cpp reached after the second extraction; the limit is not reached a nanosecond earlier *)
Example C91_nontrivial : setting goodP (inTab t_good) (tabRank t_good) 3 (exSrt goodP) 20 2 /\ be goodP (sentinel goodP) (sentinel goodP) /\
  (let clk := fun k => Z.of_nat k * 120000000000 in 0 + 120000 * 1000000 <= clk 1%nat /\
   exists s, search goodP (exSrt goodP) 20 (ck_limit 120000 0 clk) 2 2 None = Ok (s, Limited (1%nat, 9)) /\ s_ttl s = 1%nat /\ b_primal (s_b s) = 11) /\
  (exists s, search goodP (exSrt goodP) 20 (ck_limit 120000 1 (fun k => Z.of_nat k * 120000000000)) 3 2 None = Ok (s, Emptied) /\ s_ttl s = 2%nat /\ b_primal (s_b s) = 9).
Proof.
  split; [apply good_setting; reflexivity|]. split; [apply be_refl|]. split.
  - cbn zeta. split; [lia|].
    destruct (so_inv goodP (search goodP (exSrt goodP) 20 (ck_limit 120000 0 (fun k => Z.of_nat k * 120000000000)) 2 2 None)
      (mkObs 11 [0; 0; 0] [[0; 0; 0]] 1 0 0 0 false 1 false true (Some (1%nat, 9)))) as (s & H & H1 & _ & _ & H2 & _); [apply Nat.eqb_refl|vm_compute; reflexivity|].
    exists s. split; [exact H|]. split; [exact H2|exact H1].
  - destruct (so_inv goodP (search goodP (exSrt goodP) 20 (ck_limit 120000 1 (fun k => Z.of_nat k * 120000000000)) 3 2 None)
      (mkObs 9 [0; 1; 0] [[0; 1; 0]; [0; 0; 0]] 2 0 0 0 false 1 false true None)) as (s & H & H1 & _ & _ & H2 & _); [apply Nat.eqb_refl|vm_compute; reflexivity|].
    exists s. split; [exact H|]. split; [exact H2|exact H1].
Qed.
