(** Reading of instance files by /repo/examples/tsptw.cpp and its main function; streams as in ReadModel.v.
    A double is an integer: a number with a decimal point, an exponent or more than 2^53 is not followed ([Err Unmodelled]). *)
From Coq Require Import Ascii String.
From Verif Require Import Base DDModel SearchModel TspModel TourModel ReadModel ProgModel.
Local Open Scope char_scope.
Local Open Scope nat_scope.
Local Open Scope list_scope.

(** istream::get() without argument: no white space is skipped; [None] is EOF *)
Definition get_raw (f : istr) : option ascii * istr :=
  if good f then match i_rest f with c :: r => (Some c, mkI r false false) | [] => (None, mkI [] true true) end
  else (None, mkI (i_rest f) (i_eof f) true).

(** tsptw.cpp:45-57: skip.  EOF becomes the char -1, which is neither '#' nor white space; unget on a failed stream does nothing, otherwise it puts the last
    character back *)
Fixpoint tw_skip (fuel : nat) (f : istr) : res istr :=
  match fuel with
  | 0 => Err OutOfFuel
  | S n =>
      match get_raw f with
      | (None, g) => Ok g
      | (Some c, g) =>
          if ascii_dec c "#" then let h := getline g in if i_eof h then Ok h else tw_skip n h
          else if is_space c then tw_skip n g
          else Ok (mkI (c :: i_rest g) (i_eof g) (i_fail g))
      end
  end.

(** operator>>(double&), integers only; the result is that of get_num as long as neither '.' nor an exponent follows the digits *)
Definition conv_dbl (neg : bool) (z : Z) : Z * bool := ((if neg then - z else z)%Z, true).
Definition frac_char (c : ascii) : bool := if ascii_dec c "." then true else if ascii_dec c "e" then true else if ascii_dec c "E" then true else false.
Definition get_double (f : istr) : res (option Z * istr) :=
  let '(x, g) := get_num conv_dbl f in
  match x with
  | None => Ok (x, g)
  | Some z =>
      if (9007199254740992 <? Z.abs z)%Z then Err Unmodelled
      else match i_rest g with c :: _ => if frac_char c then Err Unmodelled else Ok (x, g) | [] => Ok (x, g) end
  end.
(** tsptw.cpp:69-75: the matrix; the variable d is new in each round *)
Fixpoint tw_cells (n : nat) (f : istr) : res (list Z * istr) :=
  match n with
  | 0 => Ok ([], f)
  | S m => do r <- get_double f ; let '(x, f1) := r in do v <- val x ; do q <- tw_cells m f1 ; let '(vs, f2) := q in Ok (v :: vs, f2)
  end.
(** tsptw.cpp:77-81: the time windows *)
Fixpoint tw_wins (n : nat) (f : istr) : res (list (Z * Z)) :=
  match n with
  | 0 => Ok []
  | S m =>
      let '(a, f1) := get_int f in
      let '(b, f2) := get_int f1 in
      do x <- val a ; do y <- val b ; do r <- tw_wins m f2 ; Ok ((x, y) :: r)
  end.
(** tsptw.cpp:33-36: nv, d and twin *)
Record twinst := mkTw { tw_nv : Z; tw_d : list Z; tw_win : list (Z * Z) }.
(** tsptw.cpp:59-86: readFile *)
Definition readTw (file : option text) : res twinst :=
  let f0 := opened file in
  do f1 <- tw_skip (fuel_of f0) f0 ;
  let '(x, f2) := get_size f1 in
  do nv <- val x ;
  let n := Z.to_nat nv in
  do f3 <- tw_skip (fuel_of f2) f2 ;
  do q <- tw_cells (n * n) f3 ;
  let '(d, f4) := q in
  do f5 <- tw_skip (fuel_of f4) f4 ;
  do w <- tw_wins n f5 ;
  Ok (mkTw nv d w).

(** tsptw.cpp:107-165: main; the time windows are not used.  Without cities GNSet(0,-1) is made (not followed).  [junk]: the bound of the first node (C62) *)
Definition main_tw (srt : dd tsp -> list nat -> list nat) (dfuel : nat) (lim : nat -> bool) (fuel w : nat) (junk : Z) (file : option text) : res (@sst tsp * ending) :=
  do i <- readTw file ;
  let n := Z.to_nat (tw_nv i) in
  if n =? 0 then Err Unmodelled else search (tw_prob n (cell n (tw_d i)) junk) srt dfuel lim fuel w None.
