(** An instance file for tsptw.cpp in which the time windows rule out the shortest trip. *)
From Coq Require Import Ascii String.
From Verif Require Import Base DDModel DDSpec DDFrame DDExamples SearchModel SearchEx TspModel TourModel TourTop ReadModel ReadSpec ReadProofs ReadRun ReadTsp ReadEx ProgModel ProgSpec ProgTsp ReadTwModel ReadTwSpec ReadTwProofs.
Local Open Scope char_scope.
Local Open Scope nat_scope.
Local Open Scope list_scope.

Definition f_tw : text := chars "# three cities
3
# distances
0 1 5
5 0 1
1 5 0
# windows
0 100
10 20
0 6
".
Definition m_tw : list Z := [0; 1; 5; 5; 0; 1; 1; 5; 0]%Z.
Definition w_tw : list (Z * Z) := [(0, 100); (10, 20); (0, 6)]%Z.
Ltac nums := repeat match goal with |- ints (?z :: _) _ => apply (ints_cons _ _ z); [tx| |] | |- ints [] _ => constructor end;
  match goal with |- integer ?t ?z => change z with (dec t); tx end.
Ltac nonl := unfold one_line; let E := fresh in intros E; vm_compute in E; repeat (destruct E as [E|E]; [discriminate E|]); exact E.
Lemma f_tw_ok : twfile 3 m_tw w_tw f_tw.
Proof.
  change f_tw with (("#" :: chars " three cities" ++ nl :: []) ++ chars "3" ++ (nl :: "#" :: chars " distances" ++ nl :: []) ++
    (chars "0" ++ [" "] ++ chars "1" ++ [" "] ++ chars "5" ++ [nl] ++ chars "5" ++ [" "] ++ chars "0" ++ [" "] ++ chars "1" ++ [nl] ++ chars "1" ++ [" "] ++ chars "5" ++ [" "] ++ chars "0" ++ []) ++
    (nl :: "#" :: chars " windows" ++ nl :: []) ++ (chars "0" ++ [" "] ++ chars "100" ++ [nl] ++ chars "10" ++ [" "] ++ chars "20" ++ [nl] ++ chars "0" ++ [" "] ++ chars "6" ++ []) ++ [nl]).
  apply twfile_intro.
  - apply fl_comment; [nonl|constructor].
  - change 3%Z with (dec (chars "3")). tx.
  - apply fl_white; [exact nl_white|]. apply fl_comment; [nonl|constructor].
  - discriminate.
  - change (nl :: chars "0" ++ ?r) with ([nl] ++ chars "0" ++ r). unfold m_tw. nums.
  - apply fl_white; [exact nl_white|]. apply fl_comment; [nonl|constructor].
  - discriminate.
  - change (nl :: chars "0" ++ ?r) with ([nl] ++ chars "0" ++ r). change (flat_pairs w_tw) with [0; 100; 10; 20; 0; 6]%Z. nums.
  - cbn. lia.
Qed.
Lemma f_tw_cells : cells_ok 3 5 m_tw.
Proof. split; [reflexivity|]. split; [repeat (constructor; [lia|]); constructor|lia]. Qed.
(** [win]: windows as a function *)
Definition win_tw (c : nat) : Z * Z := nth c w_tw (0, 0)%Z.
Lemma tw_windows : round_trip 3 [0; 2; 1] /\ in_time (full_entry 3 m_tw) win_tw 0 0 [2; 1; 0] /\
  forall srt w, (forall dd l, Permutation (srt dd l) l) -> 100 <= w -> (N.of_nat w < 4294967296)%N ->
    exists s, main_tw srt 20 nolim 1 w 0 (Some f_tw) = Ok (s, Emptied) /\ b_inc (s_b s) = [1; 2; 0]%Z /\ b_primal (s_b s) = 3%Z /\ ~ in_time (full_entry 3 m_tw) win_tw 0 0 [1; 2; 0].
Proof.
  split; [|split].
  - split; [repeat constructor; cbn; intuition discriminate|]. intros c. cbn. lia.
  - cbn. lia.
  - intros srt w Hs Hw1 Hw2. destruct (good_tw 3 5 0 srt 20 w nolim ltac:(lia) Hs ltac:(cbn; lia) Hw2 m_tw w_tw f_tw f_tw_ok f_tw_cells eq_refl) as (_ & _ & G).
    { intros r R. refine (trip_nonneg 3 (full_entry 3 m_tw) 5 r _ R). intros i j Hi Hj. destruct i as [|[|[|i]]]; try lia; destruct j as [|[|[|j]]]; try lia; cbn; lia. }
    destruct (G 1 eq_refl (le_n _)) as (s & E & (r & R & I & P) & B); [cbn; lia|]. exists s. split; [exact E|].
    assert (Q : round_trip 3 [0; 1; 2]) by (split; [repeat constructor; cbn; intuition discriminate|]; intros c; cbn; lia). apply B in Q. cbn in Q. clear B E G. cbn [Z.to_nat] in R.
    assert (Er : r = [1; 2]).
    { destruct R as [N A]. change (Z.to_nat 3) with 3 in *. rewrite P in Q. clear P I s.
      assert (L : List.length (0 :: r) <= List.length (seq 0 3)). { apply NoDup_incl_length; auto. intros x Hx. apply in_seq. apply A in Hx. lia. }
      assert (A1 : In 1 (0 :: r)) by (apply A; lia). assert (A2 : In 2 (0 :: r)) by (apply A; lia). cbn in L.
      assert (A3 : forall x, In x r -> x < 3) by (intros x Hx; apply A; now right).
      destruct A1 as [A1|A1]; [discriminate|]. destruct A2 as [A2|A2]; [discriminate|].
      destruct r as [|a [|b [|c r]]]; cbn in A1, A2, L; try lia.
      destruct A1 as [A1|[A1|[]]], A2 as [A2|[A2|[]]]; try lia; subst; [reflexivity|]. vm_compute in Q. exfalso. now apply Q. }
    subst r. csplit; [exact I|exact P|]. cbn. lia.
Qed.
(** a matrix without windows *)
Definition f_mat : text := chars "2
0 3
4 0
# no windows".
Lemma f_mat_ok : matrix_only 2 [0; 3; 4; 0]%Z f_mat.
Proof.
  change f_mat with ([] ++ chars "2" ++ [nl] ++ (chars "0" ++ [" "] ++ chars "3" ++ [nl] ++ chars "4" ++ [" "] ++ chars "0" ++ []) ++ [nl] ++ "#" :: chars " no windows").
  apply matrix_only_intro.
  - constructor.
  - change 2%Z with (dec (chars "2")). tx.
  - apply fl_white; [exact nl_white|constructor].
  - discriminate.
  - change (nl :: chars "0" ++ ?r) with ([nl] ++ chars "0" ++ r). nums.
  - apply (fe_last [nl]); [apply fl_white; [exact nl_white|constructor]|nonl].
Qed.
