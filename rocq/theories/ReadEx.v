(** Concrete files for the theorems about the readers. *)
From Coq Require Import Ascii String Sorted.
From Verif Require Import Base TspModel MispModel MSortModel ReadModel ReadSpec ReadProofs ReadTerm ReadRun ReadTsp.
Local Open Scope char_scope.
Local Open Scope nat_scope.
Local Open Scope list_scope.

Lemma numeral_dec t : t <> [] -> forallb is_digit t = true -> numeral t (dec t).
Proof.
  intros H K. split; [exact H|]. clear H. induction t as [|c t IH] using rev_ind; [constructor|].
  rewrite forallb_app in K. apply andb_prop in K. destruct K as [K1 K2]. cbn in K2. rewrite andb_true_r in K2.
  unfold dec. rewrite fold_left_app. cbn [fold_left]. apply dec_snoc; [now apply IH| |]; unfold digit_val, is_digit in *; lia.
Qed.
Lemma integer_dec t : t <> [] -> forallb is_digit t = true -> (dec t <=? 2147483647)%Z = true -> integer t (dec t).
Proof. intros H1 H2 H3. apply numeral_integer; [now apply numeral_dec|lia]. Qed.
Lemma blanks_b t : forallb (fun c => is_space c && (nat_of_ascii c <? 10) || (nat_of_ascii c =? 32) || (nat_of_ascii c =? 13)) t = true -> blanks t.
Proof.
  intros H. apply Forall_forall. intros c Hc. apply (proj1 (forallb_forall _ _) H) in Hc. unfold blank, is_space in *.
  assert (nat_of_ascii c = 9 \/ nat_of_ascii c = 32 \/ nat_of_ascii c = 13) as K by lia. destruct K as [K|[K|K]].
  - right. left. now apply (ascii_nat c "009").
  - left. now apply (ascii_nat c " ").
  - right. right. now apply (ascii_nat c "013").
Qed.
Lemma whites_b t : forallb is_space t = true -> whites t.
Proof. intros H. apply Forall_forall. intros c Hc. apply (proj1 (forallb_forall _ _) H) in Hc. now apply is_space_white. Qed.
Lemma word_b t : t <> [] -> forallb (fun c => negb (is_space c)) t = true -> word t.
Proof. intros H1 H2. split; [exact H1|]. apply Forall_forall. intros c Hc. apply (proj1 (forallb_forall _ _) H2) in Hc. apply is_space_not. now destruct (is_space c). Qed.
Lemma one_line_b t : forallb not_nl t = true -> one_line t.
Proof. intros H K. apply (proj1 (forallb_forall _ _) H) in K. discriminate K. Qed.
Lemma lab_b l : forallb (fun c => negb (is_space c) && negb (if ascii_dec c ":" then true else false)) l = true -> Forall (fun c => ~ white c /\ c <> ":") l.
Proof. exact (key_chars l). Qed.

Ltac tx := first
  [ apply blanks_b; reflexivity | apply whites_b; reflexivity | split; [discriminate|apply blanks_b; reflexivity] | split; [discriminate|apply whites_b; reflexivity]
  | apply word_b; [discriminate|reflexivity] | apply numeral_dec; [discriminate|reflexivity] | apply integer_dec; [discriminate|reflexivity|reflexivity]
  | apply one_line_b; reflexivity | apply lab_b; reflexivity ].

(** ** DIMACS *)
Definition ex_dimacs : text := chars "c e 1 2 is a comment
p edge 3 2
e 1 2

  e 2  3 ".
Lemma ex_dimacs_ok : dimacs [DComment; DProblem 3 2; DEdge 1 2; DBlank; DEdge 2 3] ex_dimacs.
Proof.
  change ex_dimacs with (([] ++ "c" :: chars " e 1 2 is a comment") ++ nl :: ([] ++ "p" :: [" "] ++ chars "edge" ++ [" "] ++ chars "3" ++ [" "] ++ chars "2" ++ []) ++ nl ::
    ([] ++ "e" :: [" "] ++ chars "1" ++ [" "] ++ chars "2" ++ []) ++ nl :: [] ++ nl :: ([" "; " "] ++ "e" :: [" "] ++ chars "2" ++ [" "; " "] ++ chars "3" ++ [" "])).
  apply dm_line; [apply lt_comment; tx|]. apply dm_line; [apply (lt_problem [] [" "] (chars "edge") [" "] (chars "3") 3 [" "] (chars "2") 2 []); tx|].
  apply dm_line; [apply (lt_edge [] [" "] (chars "1") 1 [" "] (chars "2") 2 []); tx|]. apply dm_line; [apply lt_blank; tx|].
  apply dm_last. apply (lt_edge [" "; " "] [" "] (chars "2") 2 [" "; " "] (chars "3") 3 [" "]); tx.
Qed.
(** vertex 0 *)
Definition ex_zero : text := chars "p edge 3 1
e 0 2
".
Lemma ex_zero_ok : dimacs [DProblem 3 1; DEdge 0 2] ex_zero.
Proof.
  change ex_zero with (([] ++ "p" :: [" "] ++ chars "edge" ++ [" "] ++ chars "3" ++ [" "] ++ chars "1" ++ []) ++ nl :: ([] ++ "e" :: [" "] ++ chars "0" ++ [" "] ++ chars "2" ++ []) ++ nl :: []).
  apply dm_line; [apply (lt_problem [] [" "] (chars "edge") [" "] (chars "3") 3 [" "] (chars "1") 1 []); tx|].
  apply dm_line; [apply (lt_edge [] [" "] (chars "0") 0 [" "] (chars "2") 2 []); tx|]. constructor.
Qed.
(** the beginning of the files data/coloring/DIMACS/*.col *)
Definition ex_col : text := chars "c FILE: myciel.col
p edge 3 2
e 1 2
e 2 3
".
Lemma ex_col_ok : dimacs [DComment; DProblem 3 2; DEdge 1 2; DEdge 2 3] ex_col.
Proof.
  change ex_col with (([] ++ "c" :: chars " FILE: myciel.col") ++ nl :: ([] ++ "p" :: [" "] ++ chars "edge" ++ [" "] ++ chars "3" ++ [" "] ++ chars "2" ++ []) ++ nl ::
    ([] ++ "e" :: [" "] ++ chars "1" ++ [" "] ++ chars "2" ++ []) ++ nl :: ([] ++ "e" :: [" "] ++ chars "2" ++ [" "] ++ chars "3" ++ []) ++ nl :: []).
  apply dm_line; [apply lt_comment; tx|]. apply dm_line; [apply (lt_problem [] [" "] (chars "edge") [" "] (chars "3") 3 [" "] (chars "2") 2 []); tx|].
  apply dm_line; [apply (lt_edge [] [" "] (chars "1") 1 [" "] (chars "2") 2 []); tx|]. apply dm_line; [apply (lt_edge [] [" "] (chars "2") 2 [" "] (chars "3") 3 []); tx|]. constructor.
Qed.
(** Small data for the colouring programs, in the format of the files in data/ *)
Theorem ex_col_undefined : dimacs [DComment; DProblem 3 2; DEdge 1 2; DEdge 2 3] ex_col /\ (exists i, readMisp (Some ex_col) = Ok i) /\ readPy (-1) (Some ex_col) = Err UB.
Proof. split; [exact ex_col_ok|]. split; [eexists; vm_compute; reflexivity|vm_compute; reflexivity]. Qed.

(** ** Colouring *)
Definition ex_py : text := chars "N = 3
E = {(1, 2), (0,1), (1,2)}
K = 2
".
Lemma ex_py_ok : pfile [PN 3; PE [(1, 2); (0, 1); (1, 2)]%Z; PK 2] ex_py.
Proof.
  change ex_py with ([] ++ ("N" :: [" "] ++ "=" :: [" "] ++ chars "3") ++ [nl] ++ ("E" :: [" "] ++ "=" :: [" "] ++ "{" ::
    ([] ++ "(" :: [] ++ chars "1" ++ [] ++ "," :: [" "] ++ chars "2" ++ [] ++ ")" :: [] ++ "," :: ([" "] ++ "(" :: [] ++ chars "0" ++ [] ++ "," :: [] ++ chars "1" ++ [] ++ ")" :: [] ++ "," ::
     ([" "] ++ "(" :: [] ++ chars "1" ++ [] ++ "," :: [] ++ chars "2" ++ [] ++ ")" :: [] ++ ["}"])))) ++ [nl] ++ ("K" :: [" "] ++ "=" :: [" "] ++ chars "2") ++ [nl]).
  apply pf_item; [tx|apply (pt_N [" "] [" "] (chars "3") 3); tx| |right; eexists _, _; split; [reflexivity|exact nl_white]].
  apply pf_item; [tx| | |right; eexists _, _; split; [reflexivity|exact nl_white]].
  - apply pt_E; [tx|tx|]. apply (pe_cons 1 2 [] [] (chars "1") [] [" "] (chars "2") [] []); try tx.
    apply (pe_cons 0 1 [" "] [] (chars "0") [] [] (chars "1") [] []); try tx. apply (pe_last 1 2 [" "] [] (chars "1") [] [] (chars "2") [] []); tx.
  - apply pf_item; [tx|apply (pt_K [" "] [" "] (chars "2") 2); tx|apply pf_nil; tx|right; eexists _, _; split; [reflexivity|exact nl_white]].
Qed.
Lemma ex_py_n : pfile [PN 3] (chars "N = 3").
Proof. change (chars "N = 3") with ([] ++ ("N" :: [" "] ++ "=" :: [" "] ++ chars "3") ++ []). apply pf_item; [tx|apply (pt_N [" "] [" "] (chars "3") 3); tx|apply pf_nil; tx|now left]. Qed.
Lemma ex_not_number : not_number (nl :: chars "K = 2").
Proof. right. exists [nl], "K", (chars " = 2"). split; [tx|]. split; [nw|]. cbn. repeat split; try discriminate. lia. Qed.

(** ** Knapsack: data/knapsack/f4_l-d_kp_4_11 *)
Definition ex_knap : text := chars "4 11
6 2
10 4
12 6
13 7".
Definition ex_items : list (Z * Z) := [(6, 2); (10, 4); (12, 6); (13, 7)]%Z.
Lemma ex_knap_ok : ints (knap_nums 11 ex_items) (nl :: ex_knap).
Proof.
  change (nl :: ex_knap) with ([nl] ++ chars "4" ++ [" "] ++ chars "11" ++ [nl] ++ chars "6" ++ [" "] ++ chars "2" ++ [nl] ++ chars "10" ++ [" "] ++ chars "4" ++ [nl] ++ chars "12" ++ [" "] ++ chars "6"
    ++ [nl] ++ chars "13" ++ [" "] ++ chars "7" ++ []).
  change (knap_nums 11 ex_items) with [4; 11; 6; 2; 10; 4; 12; 6; 13; 7]%Z.
  repeat match goal with |- ints (?z :: _) _ => apply (ints_cons _ _ z); [tx| |] | |- ints [] _ => constructor end.
  all: match goal with |- integer ?t ?z => change z with (dec t); tx end.
Qed.

(** ** TSP: data/atsp in small *)
Definition ex_tsp : text := chars "NAME: br17
TYPE: ATSP
COMMENT: 17 city problem (Repetto)
DIMENSION: 2
EDGE_WEIGHT_TYPE: EXPLICIT
EDGE_WEIGHT_FORMAT: FULL_MATRIX 
EDGE_WEIGHT_SECTION
 9999 3
 5 9999
EOF
".
Lemma hline_mk w r : word w -> rest_of_line r -> hline w (w ++ r).
Proof. intros H H0. exists [], r. split; [constructor|]. split; [exact H|]. now split. Qed.
Ltac hl w r := change (hline w (w ++ r)); apply hline_mk; [tx|split; [tx|first [now left|right; eexists _, _; split; [reflexivity|now left]]]].
Lemma ex_tsp_ints : ints [9999; 3; 5; 9999]%Z (nl :: chars " 9999 3
 5 9999").
Proof.
  change (nl :: chars " 9999 3
 5 9999") with ([nl; " "] ++ chars "9999" ++ [" "] ++ chars "3" ++ [nl; " "] ++ chars "5" ++ [" "] ++ chars "9999" ++ []).
  repeat match goal with |- ints (?z :: _) _ => apply (ints_cons _ _ z); [tx| |] | |- ints [] _ => constructor end.
  all: match goal with |- integer ?t ?z => change z with (dec t); tx end.
Qed.
Lemma ex_tsp_ok : tsplib 2 [9999; 3; 5; 9999]%Z ex_tsp.
Proof.
  change ex_tsp with (chars "NAME: br17" ++ nl :: chars "TYPE: ATSP" ++ nl :: chars "COMMENT: 17 city problem (Repetto)" ++ nl :: [] ++ chars "DIMENSION:" ++ [" "] ++ chars "2" ++ nl ::
    (chars "EDGE_WEIGHT_TYPE: EXPLICIT" ++ nl :: chars "EDGE_WEIGHT_FORMAT: FULL_MATRIX " ++ nl :: []) ++ chars "EDGE_WEIGHT_SECTION" ++ nl :: chars " 9999 3
 5 9999" ++ (nl :: chars "EOF
")).
  apply (tsplib_intro 2 _ (chars "NAME") _ (chars "TYPE:") _ (chars "COMMENT:")).
  - hl (chars "NAME" ++ [":"]) (chars " br17").
  - hl (chars "TYPE:") (chars " ATSP").
  - hl (chars "COMMENT:") (chars " 17 city problem (Repetto)").
  - tx.
  - tx.
  - tx.
  - change 2%Z with (dec (chars "2")). tx.
  - apply (hl_cons (chars "EDGE_WEIGHT_TYPE:")); [hl (chars "EDGE_WEIGHT_TYPE:") (chars " EXPLICIT")|discriminate|].
    apply (hl_cons (chars "EDGE_WEIGHT_FORMAT:")); [hl (chars "EDGE_WEIGHT_FORMAT:") (chars " FULL_MATRIX ")|discriminate|constructor].
  - hl section (@nil ascii).
  - exact ex_tsp_ints.
  - cbn. lia.
Qed.
Definition ex_old : text := chars "NAME : gr2
COMMENT : two cities
TYPE : TSP
DIMENSION : 2
EDGE_WEIGHT_TYPE : EXPLICIT
EDGE_WEIGHT_SECTION
 9999 3
 5 9999".
Lemma ex_old_ok : tsplib_old 2 [9999; 3; 5; 9999]%Z ex_old.
Proof.
  change ex_old with (chars "NAME" ++ [" "] ++ [":"] ++ [" "] ++ chars "gr2" ++ nl :: chars "COMMENT" ++ [" "] ++ [":"] ++ chars " two cities" ++ nl :: chars "TYPE" ++ [" "] ++ [":"] ++ chars " TSP" ++ nl ::
    chars "DIMENSION" ++ [" "] ++ [":"] ++ [" "] ++ chars "2" ++ nl :: chars "EDGE_WEIGHT_TYPE" ++ [" "] ++ [":"] ++ chars " EXPLICIT" ++ nl :: section ++ (nl :: chars " 9999 3
 5 9999") ++ []).
  apply tsplib_old_intro; try tx; try exact ex_tsp_ints.
  - discriminate.
  - split; [tx|right; eexists _, _; split; [reflexivity|now left]].
  - split; [tx|right; eexists _, _; split; [reflexivity|now left]].
  - split; [tx|right; eexists _, _; split; [reflexivity|now left]].
  - exact Logic.I.
Qed.
(** the same file for tsp_test4.cpp *)
Lemma ex_tsp4_ok : tsplib4 2 WFull [9999; 3; 5; 9999]%Z ex_tsp.
Proof.
  change ex_tsp with (chars "NAME: br17" ++ nl :: chars "TYPE: ATSP" ++ nl :: chars "COMMENT: 17 city problem (Repetto)" ++ nl :: chars "DIMENSION" ++ chars ": 2" ++ [] ++ nl ::
    (chars "EDGE_WEIGHT_TYPE" ++ chars ": EXPLICIT" ++ [] ++ nl :: chars "EDGE_WEIGHT_FORMAT" ++ chars ": FULL_MATRIX" ++ [" "] ++ nl :: []) ++ section ++ [] ++ nl :: chars " 9999 3
 5 9999" ++ (nl :: chars "EOF
")).
  apply (tsplib4_intro 2 _ _ _ _ _ _ _ (chars "2")); try tx.
  - exists [], [" "]. split; [tx|]. split; [tx|]. split; [tx|reflexivity].
  - split; [tx|now left].
  - apply (h4_type WOther WFull (chars ": EXPLICIT") (chars "EXPLICIT")); [exists [], [" "]; split; [tx|]; split; [tx|]; split; [tx|reflexivity]|split; [tx|now left]|].
    apply (h4_fmt WOther WFull (chars ": FULL_MATRIX") (chars "FULL_MATRIX")); [exists [], [" "]; split; [tx|]; split; [tx|]; split; [tx|reflexivity]|split; [tx|right; exists " ", []; split; [reflexivity|now left]]|].
    constructor.
  - split; [tx|now left].
  - exact ex_tsp_ints.
  - cbn. lia.
Qed.
(** lower triangle, and a header line of another kind *)
Definition ex_low : text := chars "NAME: gr3
TYPE: TSP
COMMENT: three
DIMENSION : 3
EDGE_WEIGHT_FORMAT: LOWER_DIAG_ROW
DISPLAY_DATA_TYPE: NO_DISPLAY
EDGE_WEIGHT_SECTION
 0 1 0 2 3 0".
Lemma ex_low_ok : tsplib4 3 WLowerDiag [0; 1; 0; 2; 3; 0]%Z ex_low.
Proof.
  change ex_low with (chars "NAME: gr3" ++ nl :: chars "TYPE: TSP" ++ nl :: chars "COMMENT: three" ++ nl :: chars "DIMENSION" ++ chars " : 3" ++ [] ++ nl ::
    (chars "EDGE_WEIGHT_FORMAT" ++ chars ": LOWER_DIAG_ROW" ++ [] ++ nl :: chars "DISPLAY_DATA_TYPE: NO_DISPLAY" ++ nl :: []) ++ section ++ [] ++ nl :: chars " 0 1 0 2 3 0" ++ []).
  apply (tsplib4_intro 3 _ _ _ _ _ _ _ (chars "3")); try tx.
  - exists [" "], [" "]. split; [tx|]. split; [tx|]. split; [tx|reflexivity].
  - split; [tx|now left].
  - apply (h4_fmt WOther WLowerDiag (chars ": LOWER_DIAG_ROW") (chars "LOWER_DIAG_ROW")); [exists [], [" "]; split; [tx|]; split; [tx|]; split; [tx|reflexivity]|split; [tx|now left]|].
    apply (h4_line _ _ (chars "DISPLAY_DATA_TYPE")); [tx| |discriminate|discriminate|discriminate|constructor].
    split; [apply lab_b; reflexivity|]. exists ":", (chars " NO_DISPLAY" ++ [nl]). split; [reflexivity|now right].
  - split; [tx|now left].
  - change (nl :: chars " 0 1 0 2 3 0") with ([nl; " "] ++ chars "0" ++ [" "] ++ chars "1" ++ [" "] ++ chars "0" ++ [" "] ++ chars "2" ++ [" "] ++ chars "3" ++ [" "] ++ chars "0" ++ []).
    repeat match goal with |- ints (?z :: _) _ => apply (ints_cons _ _ z); [tx| |] | |- ints [] _ => constructor end.
    all: match goal with |- integer ?t ?z => change z with (dec t); tx end.
  - exact Logic.I.
Qed.
(** data/tsp/berlin52.tsp: coordinates instead of a matrix *)
Definition ex_coord : text := chars " berlin52
TYPE: TSP
COMMENT: 52 locations in Berlin (Groetschel)
DIMENSION: 52
EDGE_WEIGHT_TYPE: EUC_2D
NODE_COORD_SECTION
1 565.0 575.0
EOF
".
Fixpoint infixb (w t : text) : bool :=
  (if list_eq_dec ascii_dec (firstn (List.length w) t) w then true else false) || match t with [] => false | _ :: r => infixb w r end.
Lemma infixb_ok w t : infixb w t = false -> ~ infix w t.
Proof.
  induction t as [|c t IH]; cbn [infixb]; intros H (a & b & E).
  - destruct a; [|discriminate]. destruct w; [|discriminate]. discriminate H.
  - apply orb_false_iff in H. destruct H as [H1 H2]. destruct a as [|x a].
    + cbn [app] in E. rewrite E in H1. rewrite firstn_app, Nat.sub_diag, firstn_all in H1. cbn [firstn] in H1. rewrite app_nil_r in H1. now destruct (list_eq_dec ascii_dec w w).
    + cbn in E. injection E as _ E. apply (IH H2). now exists a, b.
Qed.
