(** Property C80: tsptw.cpp from the instance file to the reported result. *)
From Coq Require Import Ascii.
From Verif Require Import Base DDModel SearchModel TspModel TourModel DDExamples DDRelaxedEnd SearchEx ReadModel ReadSpec ProgModel ProgSpec ProgTsp ReadTwModel ReadTwSpec ReadTwProofs ReadTwEx.

(** ** C80: the reader gives the numbers of the file, *)
Theorem C80_file : forall n d win t, twfile n d win t -> (1 <= n <= 18446744073709551615)%Z -> Z.of_nat (length d) = (n * n)%Z -> Z.of_nat (length win) = n ->
  readTw (Some t) = Ok (mkTw n d win).
Proof. exact readTw_ok. Qed.
Print Assumptions C80_file.
(** and always ends; *)
Theorem C80_reader_ends : forall file, readTw file <> Err OutOfFuel.
Proof. exact readTw_ends. Qed.
Print Assumptions C80_reader_ends.
(** a file with a matrix and no windows is undefined behaviour (the variables a and b have no values), and so is a file that cannot be opened *)
Theorem C80_no_windows_refuted : forall n d t, matrix_only n d t -> (1 <= n <= 18446744073709551615)%Z -> Z.of_nat (length d) = (n * n)%Z -> readTw (Some t) = Err UB.
Proof. exact readTw_no_windows. Qed.
Print Assumptions C80_no_windows_refuted.
Example C80_no_windows_case : readTw (Some f_mat) = Err UB /\ readTw None = Err UB.
Proof. split; [exact (C80_no_windows_refuted 2 _ f_mat f_mat_ok ltac:(lia) eq_refl)|exact readTw_missing]. Qed.
(** the program ends; it reports only lengths of round trips, with the cities in order; with a sufficient width the shortest one.  [junk] as in C78 *)
Theorem C80_program : forall n hi junk srt dfuel w lim, (1 <= n <= 2147483647)%Z -> (forall dd l, Permutation (srt dd l) l) -> Z.to_nat n < dfuel -> (N.of_nat w < 4294967296)%N ->
  forall ds win t, twfile n ds win t -> cells_ok n hi ds -> Z.of_nat (length win) = n -> (forall r, round_trip (Z.to_nat n) r -> (junk <= trip_length (full_entry (Z.to_nat n) ds) r)%Z) ->
  (forall fuel, 2 ^ Z.to_nat n * Z.to_nat n * Z.to_nat n + 1 <= fuel -> exists s e, main_tw srt dfuel lim fuel w junk (Some t) = Ok (s, e)) /\
  (forall fuel s e, main_tw srt dfuel lim fuel w junk (Some t) = Ok (s, e) -> b_primal (s_b s) <> 2147483647%Z ->
    exists r, round_trip (Z.to_nat n) (0 :: r) /\ b_inc (s_b s) = map Z.of_nat (r ++ [0]) /\ b_primal (s_b s) = trip_length (full_entry (Z.to_nat n) ds) (0 :: r)) /\
  (forall fuel, lim 0 = false -> 1 <= fuel -> 2 ^ Z.to_nat n * Z.to_nat n * Z.to_nat n <= w -> exists s, main_tw srt dfuel lim fuel w junk (Some t) = Ok (s, Emptied) /\
    (exists r, round_trip (Z.to_nat n) (0 :: r) /\ b_inc (s_b s) = map Z.of_nat (r ++ [0]) /\ b_primal (s_b s) = trip_length (full_entry (Z.to_nat n) ds) (0 :: r)) /\
    forall t', round_trip (Z.to_nat n) t' -> (b_primal (s_b s) <= trip_length (full_entry (Z.to_nat n) ds) t')%Z).
Proof. exact good_tw. Qed.
Print Assumptions C80_program.
(** the time windows make no difference, *)
Theorem C80_windows_ignored : forall n ds win win' t t' srt dfuel lim fuel w junk, twfile n ds win t -> twfile n ds win' t' -> (1 <= n <= 18446744073709551615)%Z ->
  Z.of_nat (length ds) = (n * n)%Z -> Z.of_nat (length win) = n -> Z.of_nat (length win') = n ->
  main_tw srt dfuel lim fuel w junk (Some t) = main_tw srt dfuel lim fuel w junk (Some t').
Proof. exact tw_same. Qed.
Print Assumptions C80_windows_ignored.
(** finding: so the reported trip need not respect them, although some trip does.  [in_time d win 0 0 l]: from city 0 at time 0 through the cities of l *)
Theorem C80_windows_refuted : twfile 3 m_tw w_tw f_tw /\ round_trip 3 [0; 2; 1] /\ in_time (full_entry 3 m_tw) (fun c => nth c w_tw (0, 0)%Z) 0 0 [2; 1; 0] /\
  forall srt w, (forall dd l, Permutation (srt dd l) l) -> 100 <= w -> (N.of_nat w < 4294967296)%N ->
    exists s, main_tw srt 20 nolim 1 w 0 (Some f_tw) = Ok (s, Emptied) /\ b_inc (s_b s) = [1; 2; 0]%Z /\ b_primal (s_b s) = 3%Z /\
      ~ in_time (full_entry 3 m_tw) (fun c => nth c w_tw (0, 0)%Z) 0 0 [1; 2; 0].
Proof. exact (conj f_tw_ok tw_windows). Qed.
Print Assumptions C80_windows_refuted.
Example C80_case : exists s, main_tw (exSrt (tw_prob 3 (full_entry 3 m_tw) 0)) 20 nolim 1 100 0 (Some f_tw) = Ok (s, Emptied) /\ b_inc (s_b s) = [1; 2; 0]%Z.
Proof.
  destruct C80_windows_refuted as (_ & _ & _ & G). destruct (G (exSrt (tw_prob 3 (full_entry 3 m_tw) 0)) 100) as (s & E & I & _); [intros; apply exSrt_perm|lia|lia|]. eauto.
Qed.
