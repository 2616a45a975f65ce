(** Files on which the programs give a wrong answer, and files for the examples in PropProg.v. *)
From Coq Require Import Ascii String.
From Verif Require Import Base DDModel DDSpec DDFrame DDExamples SearchModel SearchProofs SearchEx SearchDyn MSortModel KnapModel KnapEnd TspModel TspProofs TourModel TourTop TourEnd MispModel MispSpec MispProofs MispEnd ColorModel ColorSpec ColorEnd
  ReadModel ReadSpec ReadProofs ReadRun ReadTsp ReadEx ProgModel ProgSpec ProgProofs ProgKnap ProgTsp ProgColor.
Local Open Scope char_scope.
Local Open Scope nat_scope.
Local Open Scope list_scope.

(** ** MISP *)
Definition f_misp : text := chars "p edge 4 3
e 1 3
e 2 3
e 3 4
".
Definition l_misp : list dline := [DProblem 4 3; DEdge 1 3; DEdge 2 3; DEdge 3 4].
Lemma f_misp_ok : dimacs l_misp f_misp.
Proof.
  change f_misp with (([] ++ "p" :: [" "] ++ chars "edge" ++ [" "] ++ chars "4" ++ [" "] ++ chars "3" ++ []) ++ nl ::
    ([] ++ "e" :: [" "] ++ chars "1" ++ [" "] ++ chars "3" ++ []) ++ nl :: ([] ++ "e" :: [" "] ++ chars "2" ++ [" "] ++ chars "3" ++ []) ++ nl ::
    ([] ++ "e" :: [" "] ++ chars "3" ++ [" "] ++ chars "4" ++ []) ++ nl :: []).
  apply dm_line; [apply (lt_problem [] [" "] (chars "edge") [" "] (chars "4") 4 [" "] (chars "3") 3 []); tx|].
  apply dm_line; [apply (lt_edge [] [" "] (chars "1") 1 [" "] (chars "3") 3 []); tx|]. apply dm_line; [apply (lt_edge [] [" "] (chars "2") 2 [" "] (chars "3") 3 []); tx|].
  apply dm_line; [apply (lt_edge [] [" "] (chars "3") 3 [" "] (chars "4") 4 []); tx|]. constructor.
Qed.
Lemma f_misp_edges : Forall (fun e => 1 <= fst e <= 4 /\ 1 <= snd e <= 4)%Z (edges1 l_misp).
Proof. cbn. repeat (constructor; [cbn; lia|]). constructor. Qed.
(** width 1: misp4 reports 1, but {1, 2, 4} is independent *)
Lemma misp_wrong : dimacs_set 4 l_misp [1; 2; 4]%Z /\
  exists s, main_misp (exSrt (misp4p 4 MispEnd.g5 one)) 20 nolim 100 1 misp4p (Some f_misp) = Ok (s, Emptied) /\ b_primal (s_b s) = 1%Z.
Proof.
  split.
  - unfold dimacs_set. csplit; [repeat constructor; cbn; intuition discriminate|cbn; intros v [<-|[<-|[<-|[]]]]; lia|].
    cbn. intros a b E N A B. destruct E as [E|[E|[E|[]]]]; injection E as <- <-; repeat (destruct A as [A|A]; [try discriminate A|]); try contradiction; repeat (destruct B as [B|B]; [try discriminate B|]); contradiction.
  - destruct misp_misses as (_ & _ & _ & _ & _ & s & E & P & _). exists s. split; [|exact P].
    assert (Ne : (3 <= 2147483647)%Z) by lia. assert (Hnv : (1 <= 4 < 2147483647)%Z) by lia.
    rewrite (misp_reads l_misp f_misp 4 3 f_misp_ok eq_refl Hnv Ne f_misp_edges misp4p (exSrt (misp4p 4 MispEnd.g5 one)) 20 1 nolim ltac:(cbn; lia) ltac:(lia)). exact E.
Qed.

(** ** knapsack2 *)
Definition f_knap2 : text := chars "5 23
16 11
18 13
13 10
6 8
5 7".
Definition i_knap2 : list (Z * Z) := [(16, 11); (18, 13); (13, 10); (6, 8); (5, 7)]%Z.
Lemma f_knap2_ok : ints (knap_nums 23 i_knap2) (nl :: f_knap2).
Proof.
  change (nl :: f_knap2) with ([nl] ++ chars "5" ++ [" "] ++ chars "23" ++ [nl] ++ chars "16" ++ [" "] ++ chars "11" ++ [nl] ++ chars "18" ++ [" "] ++ chars "13" ++ [nl] ++ chars "13" ++ [" "] ++ chars "10"
    ++ [nl] ++ chars "6" ++ [" "] ++ chars "8" ++ [nl] ++ chars "5" ++ [" "] ++ chars "7" ++ []).
  change (knap_nums 23 i_knap2) with [5; 23; 16; 11; 18; 13; 13; 10; 6; 8; 5; 7]%Z.
  repeat match goal with |- ints (?z :: _) _ => apply (ints_cons _ _ z); [tx| |] | |- ints [] _ => constructor end.
  all: match goal with |- integer ?t ?z => change z with (dec t); tx end.
Qed.
(** the comparison of lines 75-79 with exact ratios; on this file doubles order the items in the same way *)
Definition ratio_le (a b : Z * Z) : bool := let x := (fst b * snd a)%Z in let y := (fst a * snd b)%Z in if (x =? y)%Z then (fst a <=? fst b)%Z else (x <? y)%Z.
Lemma knap2_wrong : packing 23 i_knap2 [false; true; true; false; false] /\ taken fst i_knap2 [false; true; true; false; false] = 31%Z /\
  exists s, main_knap2 (exSrt (knC frac_double)) 20 nolim 100 2 ratio_le (Some f_knap2) = Ok (s, Emptied) /\ b_primal (s_b s) = 29%Z.
Proof.
  split; [split; [reflexivity|cbn; lia]|]. split; [reflexivity|]. destruct search_exact_path_refuted as (_ & G & R). destruct (R frac_double (or_intror eq_refl)) as (s & E & _ & _ & _ & _ & P & _).
  exists s. split; [|exact P]. rewrite (knap2_reads ratio_le 23 i_knap2 f_knap2 f_knap2_ok). cbv zeta.
  assert (M : msort_list ratio_le (0, 0)%Z i_knap2 = i_knap2) by (vm_compute; reflexivity). rewrite M.
  change (map snd i_knap2) with knW. change (map fst i_knap2) with knP. rewrite G. exact E.
Qed.

(** ** colouring *)
Definition f_col : text := chars "N = 5
E = {(2, 3), (1, 3), (0, 1)}
".
Definition l_col : list pitem := [PN 5; PE [(2, 3); (1, 3); (0, 1)]%Z].
Lemma f_col_ok : pfile l_col f_col.
Proof.
  change f_col with ([] ++ ("N" :: [" "] ++ "=" :: [" "] ++ chars "5") ++ [nl] ++ ("E" :: [" "] ++ "=" :: [" "] ++ "{" ::
    ([] ++ "(" :: [] ++ chars "2" ++ [] ++ "," :: [" "] ++ chars "3" ++ [] ++ ")" :: [] ++ "," :: ([" "] ++ "(" :: [] ++ chars "1" ++ [] ++ "," :: [" "] ++ chars "3" ++ [] ++ ")" :: [] ++ "," ::
     ([" "] ++ "(" :: [] ++ chars "0" ++ [] ++ "," :: [" "] ++ chars "1" ++ [] ++ ")" :: [] ++ ["}"])))) ++ [nl]).
  apply pf_item; [tx|apply (pt_N [" "] [" "] (chars "5") 5); tx| |right; eexists _, _; split; [reflexivity|exact nl_white]].
  apply pf_item; [tx| |apply pf_nil; tx|right; eexists _, _; split; [reflexivity|exact nl_white]].
  apply pt_E; [tx|tx|]. apply (pe_cons 2 3 [] [] (chars "2") [] [" "] (chars "3") [] []); try tx.
  apply (pe_cons 1 3 [" "] [] (chars "1") [] [" "] (chars "3") [] []); try tx. apply (pe_last 0 1 [" "] [] (chars "0") [] [" "] (chars "1") [] []); tx.
Qed.
(** width 1: coloring reports 3 colours, 2 are enough *)
Definition two_col (v : Z) : Z := if ((v =? 1) || (v =? 2))%Z then 2%Z else 1%Z.
Lemma color_wrong : file_colouring (pE l_col) two_col /\ colours_used 5 two_col 2 /\
  exists s, main_color (exSrt (co_prob 5 [(0, 1); (1, 3); (2, 3)] 5 None)) 40 nolim 400 1 co_prob (Some f_col) = Ok (s, Emptied) /\ b_primal (s_b s) = 3%Z.
Proof.
  split; [|split].
  - intros a b [E|[E|[E|[]]]]; injection E as <- <-; vm_compute; discriminate.
  - exists [1; 2]%Z. csplit; [repeat constructor; cbn; intuition discriminate|reflexivity|]. intros x. split.
    + intros [<-|[<-|[]]]; [exists 0%Z|exists 1%Z]; split; try reflexivity; lia.
    + intros (v & _ & <-). unfold two_col. cbn. destruct ((v =? 1) || (v =? 2))%Z; auto.
  - destruct (so_inv (co_prob 5 [(0, 1); (1, 3); (2, 3)] 5 None) (main_color (exSrt (co_prob 5 [(0, 1); (1, 3); (2, 3)] 5 None)) 40 nolim 400 1 co_prob (Some f_col))
      (c_obs 3 [1; 2; 1; 3; 1]%Z [[1; 2; 1; 3; 1]]%Z 2 1 2)) as (s & H & H1 & _); [exact color_refl|vm_compute; reflexivity|]. exists s. auto.
Qed.

(** ** TSP *)
Definition f_tsp : text := chars "NAME: five
TYPE: ATSP
COMMENT: five cities
DIMENSION: 5
EDGE_WEIGHT_TYPE: EXPLICIT
EDGE_WEIGHT_SECTION
 0 4 26 15 29
 29 0 12 18 16
 21 25 0 16 13
 4 10 25 0 16
 8 26 3 29 0
EOF
".
Definition m_tsp : list Z := [0; 4; 26; 15; 29; 29; 0; 12; 18; 16; 21; 25; 0; 16; 13; 4; 10; 25; 0; 16; 8; 26; 3; 29; 0]%Z.
Lemma f_tsp_ints : ints m_tsp (nl :: chars " 0 4 26 15 29
 29 0 12 18 16
 21 25 0 16 13
 4 10 25 0 16
 8 26 3 29 0").
Proof.
  change (nl :: chars " 0 4 26 15 29
 29 0 12 18 16
 21 25 0 16 13
 4 10 25 0 16
 8 26 3 29 0") with ([nl; " "] ++ chars "0" ++ [" "] ++ chars "4" ++ [" "] ++ chars "26" ++ [" "] ++ chars "15" ++ [" "] ++ chars "29" ++
   [nl; " "] ++ chars "29" ++ [" "] ++ chars "0" ++ [" "] ++ chars "12" ++ [" "] ++ chars "18" ++ [" "] ++ chars "16" ++
   [nl; " "] ++ chars "21" ++ [" "] ++ chars "25" ++ [" "] ++ chars "0" ++ [" "] ++ chars "16" ++ [" "] ++ chars "13" ++
   [nl; " "] ++ chars "4" ++ [" "] ++ chars "10" ++ [" "] ++ chars "25" ++ [" "] ++ chars "0" ++ [" "] ++ chars "16" ++
   [nl; " "] ++ chars "8" ++ [" "] ++ chars "26" ++ [" "] ++ chars "3" ++ [" "] ++ chars "29" ++ [" "] ++ chars "0" ++ []).
  unfold m_tsp. repeat match goal with |- ints (?z :: _) _ => apply (ints_cons _ _ z); [tx| |] | |- ints [] _ => constructor end.
  all: match goal with |- integer ?t ?z => change z with (dec t); tx end.
Qed.
Lemma f_tsp_ok : tsplib 5 m_tsp f_tsp.
Proof.
  change f_tsp with (chars "NAME: five" ++ nl :: chars "TYPE: ATSP" ++ nl :: chars "COMMENT: five cities" ++ nl :: [] ++ chars "DIMENSION:" ++ [" "] ++ chars "5" ++ nl ::
    (chars "EDGE_WEIGHT_TYPE: EXPLICIT" ++ nl :: []) ++ chars "EDGE_WEIGHT_SECTION" ++ nl :: chars " 0 4 26 15 29
 29 0 12 18 16
 21 25 0 16 13
 4 10 25 0 16
 8 26 3 29 0" ++ (nl :: chars "EOF
")).
  apply (tsplib_intro 5 _ (chars "NAME") _ (chars "TYPE:") _ (chars "COMMENT:")).
  - hl (chars "NAME" ++ [":"]) (chars " five").
  - hl (chars "TYPE:") (chars " ATSP").
  - hl (chars "COMMENT:") (chars " five cities").
  - tx.
  - tx.
  - tx.
  - change 5%Z with (dec (chars "5")). tx.
  - apply (hl_cons (chars "EDGE_WEIGHT_TYPE:")); [hl (chars "EDGE_WEIGHT_TYPE:") (chars " EXPLICIT")|discriminate|constructor].
  - hl section (@nil ascii).
  - exact f_tsp_ints.
  - cbn. lia.
Qed.
Lemma f_tsp_cells : cells_ok 5 30 m_tsp.
Proof. split; [reflexivity|]. split; [repeat (constructor; [lia|]); constructor|lia]. Qed.
(** width 1: tsp_test2 reports 56, a tour of length 43 exists *)
Lemma tsp_wrong : round_trip 5 [0; 1; 4; 2; 3] /\ trip_length (full_entry 5 m_tsp) [0; 1; 4; 2; 3] = 43%Z /\
  exists s, main_tsp (exSrt (t2_prob 5 (cell 5 m_tsp) 0)) 40 nolim 400 1 (fun n d => t2_prob n d 0) 200 (Some f_tsp) = Ok (s, Emptied) /\ b_primal (s_b s) = 56%Z.
Proof.
  split; [|split].
  - split; [repeat constructor; cbn; intuition discriminate|]. intros c. cbn. lia.
  - reflexivity.
  - assert (E : forall srt, main_tsp srt 40 nolim 400 1 (fun n d => t2_prob n d 0) 200 (Some f_tsp) = search (t2_prob 5 (cell 5 m_tsp) 0) srt 40 nolim 400 1 None).
    { intros srt. unfold main_tsp. assert (R : readTsp 200 (Some f_tsp) = Ok (mkT 5 m_tsp)) by (apply readTsp_ok; [exact f_tsp_ok|unfold size_max; lia|reflexivity|vm_compute; lia]). rewrite R. reflexivity. }
    rewrite E. destruct (so_inv (t2_prob 5 (cell 5 m_tsp) 0) (search (t2_prob 5 (cell 5 m_tsp) 0) (exSrt (t2_prob 5 (cell 5 m_tsp) 0)) 40 nolim 400 1 None)
      (mkObs 56 [1; 2; 3; 4; 0] [[1; 2; 3; 4; 0]] 5 0 0 0 false 3 false false None)%Z) as (s & H & H1 & _); [exact tsp_eqb_refl|vm_compute; reflexivity|]. exists s. auto.
Qed.
