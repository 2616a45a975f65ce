(** What well-formed instance files look like and which instance they denote; independent of the readers. *)
From Coq Require Import Ascii String Sorted.
From Coq Require Import List ZArith.
Import ListNotations.
Local Open Scope char_scope.
Local Open Scope Z_scope.
Local Open Scope list_scope.

(** ** Characters, blanks, numbers *)
Definition nl : ascii := "010".
(** within a line: blank, tab, carriage return *)
Definition blank (c : ascii) : Prop := c = " " \/ c = "009" \/ c = "013".
(** white space of any kind *)
Definition white (c : ascii) : Prop := blank c \/ c = nl \/ c = "011" \/ c = "012".
Definition blanks (t : list ascii) : Prop := Forall blank t.
Definition whites (t : list ascii) : Prop := Forall white t.
(** at least one *)
Definition gap (t : list ascii) : Prop := t <> [] /\ blanks t.
Definition wgap (t : list ascii) : Prop := t <> [] /\ whites t.
(** a word: non-empty, no white space *)
Definition word (t : list ascii) : Prop := t <> [] /\ Forall (fun c => ~ white c) t.
(** decimal numbers, leading zeros allowed *)
Inductive decimal : list ascii -> Z -> Prop :=
| dec_nil : decimal [] 0
| dec_snoc t n c d : decimal t n -> 0 <= d <= 9 -> Z.of_nat (nat_of_ascii c) = 48 + d -> decimal (t ++ [c]) (10 * n + d).
Definition numeral (t : list ascii) (n : Z) : Prop := t <> [] /\ decimal t n.
(** an int: optional minus sign *)
Definition integer (t : list ascii) (z : Z) : Prop :=
  - 2147483648 <= z <= 2147483647 /\ (numeral t z \/ exists t', t = "-" :: t' /\ numeral t' (- z)).

(** ** DIMACS graphs *)
Inductive dline := DBlank | DComment | DProblem (nv ne : Z) | DEdge (a b : Z).
Inductive line_text : dline -> list ascii -> Prop :=
| lt_blank t : blanks t -> line_text DBlank t
| lt_comment pre t : blanks pre -> ~ In nl t -> line_text DComment (pre ++ "c" :: t)
| lt_problem pre b0 w b1 tn nv b2 tm ne post : blanks pre -> gap b0 -> word w -> gap b1 -> numeral tn nv -> gap b2 -> numeral tm ne -> blanks post ->
    line_text (DProblem nv ne) (pre ++ "p" :: b0 ++ w ++ b1 ++ tn ++ b2 ++ tm ++ post)
| lt_edge pre b1 ta a b2 tb b post : blanks pre -> gap b1 -> numeral ta a -> gap b2 -> numeral tb b -> blanks post ->
    line_text (DEdge a b) (pre ++ "e" :: b1 ++ ta ++ b2 ++ tb ++ post).
(** lines ended by newlines, the last one possibly not *)
Inductive dimacs : list dline -> list ascii -> Prop :=
| dm_nil : dimacs [] []
| dm_last l t : line_text l t -> dimacs [l] t
| dm_line l t ls r : line_text l t -> dimacs ls r -> dimacs (l :: ls) (t ++ nl :: r).

Definition problems (ls : list dline) : list (Z * Z) := flat_map (fun l => match l with DProblem n m => [(n, m)] | _ => [] end) ls.
(** the edges as listed, vertices counted from 1 *)
Definition edges1 (ls : list dline) : list (Z * Z) := flat_map (fun l => match l with DEdge a b => [(a, b)] | _ => [] end) ls.
(** counted from 0 *)
Definition edges0 (ls : list dline) : list (Z * Z) := map (fun e => (fst e - 1, snd e - 1)) (edges1 ls).

(** ** The colouring files: N = n, E = {(u,v), ...}, K = k in any order *)
Inductive pitem := PN (n : Z) | PE (es : list (Z * Z)) | PK (k : Z).
(** everything after the opening brace *)
Inductive pedges : list (Z * Z) -> list ascii -> Prop :=
| pe_last u v s1 s2 tu s3 s4 tv s5 s6 : whites s1 -> whites s2 -> integer tu u -> whites s3 -> whites s4 -> integer tv v -> whites s5 -> whites s6 ->
    pedges [(u, v)] (s1 ++ "(" :: s2 ++ tu ++ s3 ++ "," :: s4 ++ tv ++ s5 ++ ")" :: s6 ++ ["}"])
| pe_cons u v s1 s2 tu s3 s4 tv s5 s6 es r : whites s1 -> whites s2 -> integer tu u -> whites s3 -> whites s4 -> integer tv v -> whites s5 -> whites s6 ->
    pedges es r ->
    pedges ((u, v) :: es) (s1 ++ "(" :: s2 ++ tu ++ s3 ++ "," :: s4 ++ tv ++ s5 ++ ")" :: s6 ++ "," :: r).
Inductive pitem_text : pitem -> list ascii -> Prop :=
| pt_N s1 s2 t n : whites s1 -> wgap s2 -> integer t n -> pitem_text (PN n) ("N" :: s1 ++ "=" :: s2 ++ t)
| pt_K s1 s2 t k : whites s1 -> wgap s2 -> integer t k -> pitem_text (PK k) ("K" :: s1 ++ "=" :: s2 ++ t)
| pt_E s1 s2 es r : whites s1 -> wgap s2 -> pedges es r -> pitem_text (PE es) ("E" :: s1 ++ "=" :: s2 ++ "{" :: r).
(** the items, each followed by white space or the end of the file *)
Inductive pfile : list pitem -> list ascii -> Prop :=
| pf_nil s : whites s -> pfile [] s
| pf_item s i t is r : whites s -> pitem_text i t -> pfile is r -> (r = [] \/ exists c q, r = c :: q /\ white c) -> pfile (i :: is) (s ++ t ++ r).

Definition pN (is : list pitem) : list Z := flat_map (fun i => match i with PN n => [n] | _ => [] end) is.
Definition pK (is : list pitem) : list Z := flat_map (fun i => match i with PK n => [n] | _ => [] end) is.
Definition pE (is : list pitem) : list (Z * Z) := flat_map (fun i => match i with PE es => es | _ => [] end) is.

Definition edge_lt (e1 e2 : Z * Z) : Prop := fst e1 < fst e2 \/ (fst e1 = fst e2 /\ snd e1 < snd e2).

(** ** Integers separated by white space: knapsack files and matrices *)
Inductive ints : list Z -> list ascii -> Prop :=
| ints_nil : ints [] []
| ints_cons s t z zs r : wgap s -> integer t z -> ints zs r -> ints (z :: zs) (s ++ t ++ r).
(** number of items, capacity, then profit and weight of each item *)
Definition knap_nums (capa : Z) (items : list (Z * Z)) : list Z :=
  Z.of_nat (List.length items) :: capa :: flat_map (fun i => [fst i; snd i]) items.

(** ** TSPLIB files *)
Definition hword (t : list ascii) : Prop := word t.
(** a line without its newline *)
Definition one_line (t : list ascii) : Prop := ~ In nl t.
(** the rest of a line after a word: nothing, or a blank and anything *)
Definition rest_of_line (t : list ascii) : Prop := one_line t /\ (t = [] \/ exists c r, t = c :: r /\ blank c).
(** a header line with first word [w] *)
Definition hline (w t : list ascii) : Prop := exists pre r, blanks pre /\ word w /\ rest_of_line r /\ t = pre ++ w ++ r.
Definition section : list ascii := list_ascii_of_string "EDGE_WEIGHT_SECTION".
(** lines with first words other than the one that starts the matrix *)
Inductive hlines : list ascii -> Prop :=
| hl_nil : hlines []
| hl_cons w t r : hline w t -> w <> section -> hlines r -> hlines (t ++ nl :: r).
(** the text does not start with a digit *)
Definition no_digit (t : list ascii) : Prop := match t with [] => True | c :: _ => ~ (48 <= Z.of_nat (nat_of_ascii c) <= 57) end.
(** "NAME: ..." lines: three header lines, the dimension, other lines, the section, the matrix row by row, anything *)
Inductive tsplib (n : Z) (d : list Z) : list ascii -> Prop :=
| tsplib_intro w1 t1 w2 t2 w3 t3 pre w4 g tn hs ts tm tail :
    hline (w1 ++ [":"]) t1 -> hline w2 t2 -> hline w3 t3 ->
    blanks pre -> word w4 -> gap g -> numeral tn n ->
    hlines hs -> hline section ts -> ints d (nl :: tm) -> no_digit tail ->
    tsplib n d (t1 ++ nl :: t2 ++ nl :: t3 ++ nl :: pre ++ w4 ++ g ++ tn ++ nl :: hs ++ ts ++ nl :: tm ++ tail).
(** "NAME : ..." lines: name, two lines, the dimension, one line, the section *)
Inductive tsplib_old (n : Z) (d : list Z) : list ascii -> Prop :=
| tsplib_old_intro w1 c1 nm w2 c2 w3 c3 w4 c4 w5 c5 b1 b4 r2 r3 r5 s1 s2 s3 s4 s5 tn tm tail :
    word w1 -> last w1 " " <> ":" -> word c1 -> word nm ->
    word w2 -> word c2 -> word w3 -> word c3 -> word w4 -> word c4 -> word w5 -> word c5 ->
    gap b1 -> gap b4 -> rest_of_line r2 -> rest_of_line r3 -> rest_of_line r5 ->
    gap s1 -> gap s2 -> gap s3 -> gap s4 -> gap s5 ->
    numeral tn n -> ints d tm -> no_digit tail ->
    tsplib_old n d (w1 ++ s1 ++ c1 ++ b1 ++ nm ++ nl :: w2 ++ s2 ++ c2 ++ r2 ++ nl :: w3 ++ s3 ++ c3 ++ r3 ++ nl :: w4 ++ s4 ++ c4 ++ b4 ++ tn ++ nl ::
                    w5 ++ s5 ++ c5 ++ r5 ++ nl :: section ++ tm ++ tail).
(** a label at the start of a line: everything before the first colon or blank *)
Definition label (l t : list ascii) : Prop :=
  Forall (fun c => ~ white c /\ c <> ":") l /\ exists c r, t = l ++ c :: r /\ (white c \/ c = ":").
(** colon and value of "KEY: value" or "KEY : value" *)
Definition colon_value (t v : list ascii) : Prop := exists b0 b1, blanks b0 /\ gap b1 /\ word v /\ t = b0 ++ ":" :: b1 ++ v.
Inductive wfmt := WFull | WLowerDiag | WOther.
Definition wfmt_of (v : list ascii) : wfmt :=
  if list_eq_dec ascii_dec v (list_ascii_of_string "FULL_MATRIX") then WFull
  else if list_eq_dec ascii_dec v (list_ascii_of_string "LOWER_DIAG_ROW") then WLowerDiag else WOther.
(** the header lines between the dimension and the section; the format is the one of the last EDGE_WEIGHT_FORMAT line *)
Inductive header4 : wfmt -> wfmt -> list ascii -> Prop :=
| h4_nil w : header4 w w []
| h4_type w w' cv v r q : colon_value cv v -> rest_of_line r -> header4 w w' q ->
    header4 w w' (list_ascii_of_string "EDGE_WEIGHT_TYPE" ++ cv ++ r ++ nl :: q)
| h4_fmt w w' cv v r q : colon_value cv v -> rest_of_line r -> header4 (wfmt_of v) w' q ->
    header4 w w' (list_ascii_of_string "EDGE_WEIGHT_FORMAT" ++ cv ++ r ++ nl :: q)
| h4_line w w' l t q : one_line t -> label l (t ++ [nl]) ->
    l <> list_ascii_of_string "EDGE_WEIGHT_TYPE" -> l <> list_ascii_of_string "EDGE_WEIGHT_FORMAT" -> l <> section -> header4 w w' q ->
    header4 w w' (t ++ nl :: q).
Inductive tsplib4 (n : Z) (w : wfmt) (d : list Z) : list ascii -> Prop :=
| tsplib4_intro t1 t2 t3 l4 cv tn r hs rs tm tail :
    one_line t1 -> one_line t2 -> one_line t3 -> Forall (fun c => ~ white c /\ c <> ":") l4 -> colon_value cv tn -> numeral tn n -> rest_of_line r ->
    header4 WOther w hs -> rest_of_line rs -> ints d (nl :: tm) -> no_digit tail ->
    tsplib4 n w d (t1 ++ nl :: t2 ++ nl :: t3 ++ nl :: l4 ++ cv ++ r ++ nl :: hs ++ section ++ rs ++ nl :: tm ++ tail).
