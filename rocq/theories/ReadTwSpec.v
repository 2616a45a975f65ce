(** What the instance files of tsptw.cpp look like; independent of the reader. *)
From Coq Require Import Ascii String List ZArith.
From Verif Require Import ReadSpec.
Import ListNotations.
Local Open Scope char_scope.
Local Open Scope Z_scope.
Local Open Scope list_scope.

(** white space and comment lines *)
Inductive filler : list ascii -> Prop :=
| fl_nil : filler []
| fl_white c t : white c -> filler t -> filler (c :: t)
| fl_comment l t : one_line l -> filler t -> filler ("#" :: l ++ nl :: t).
(** the same, where a comment may also end with the file *)
Inductive filler_end : list ascii -> Prop :=
| fe_filler t : filler t -> filler_end t
| fe_last t l : filler t -> one_line l -> filler_end (t ++ "#" :: l).
Definition flat_pairs (ws : list (Z * Z)) : list Z := flat_map (fun i => [fst i; snd i]) ws.
(** number of cities, the matrix row by row, the time windows; comments only between these parts *)
Inductive twfile (n : Z) (d : list Z) (win : list (Z * Z)) : list ascii -> Prop :=
| twfile_intro f1 tn f2 td f3 tw tail :
    filler f1 -> numeral tn n -> filler f2 -> f2 <> [] -> ints d (nl :: td) -> filler f3 -> f3 <> [] -> ints (flat_pairs win) (nl :: tw) -> no_digit tail ->
    twfile n d win (f1 ++ tn ++ f2 ++ td ++ f3 ++ tw ++ tail).
(** a matrix and nothing else *)
Inductive matrix_only (n : Z) (d : list Z) : list ascii -> Prop :=
| matrix_only_intro f1 tn f2 td f3 :
    filler f1 -> numeral tn n -> filler f2 -> f2 <> [] -> ints d (nl :: td) -> filler_end f3 ->
    matrix_only n d (f1 ++ tn ++ f2 ++ td ++ f3).

(** from [a], left at time [now], through the cities of [l]: each is reached before its window closes; one may wait until it opens *)
Fixpoint in_time (d : nat -> nat -> Z) (win : nat -> Z * Z) (a : nat) (now : Z) (l : list nat) : Prop :=
  match l with
  | [] => True
  | c :: l' => now + d a c <= snd (win c) /\ in_time d win c (Z.max (now + d a c) (fst (win c))) l'
  end.
