(** Reading of instance files: readFile of the misp examples (and the same function in coloring*.cpp), readPyFile of the colouring examples, readFile of
    knapsack.cpp, knapsack2.cpp, tsp.cpp (the same code in tsp_test2.cpp and tsp_test3.cpp) and tsp_test4.cpp, all in /repo/examples.

    The std::ifstream is modelled by the characters not yet read and the two state bits; the operations follow the rules of the C++ standard in the "C" locale
    (a failed sentry leaves the variable alone, a failed conversion stores 0, an out-of-range value stores the nearest representable one).  A local variable
    that has not been given a value is [None]; using it is undefined behaviour and gives [Err UB].  Asserts are off (NDEBUG, as in the release build).
    Not modelled: the printing to std::cout, the name of the file, badbit, the limits of GNSet (properties C24 and C25) and the cost of memory. *)
From Coq Require Import Ascii String.
From Verif Require Import Base TspModel MSortModel.

Definition text := list ascii.
(** characters of a literal *)
Definition chars (s : string) : text := list_ascii_of_string s.
Local Open Scope char_scope.
Local Open Scope nat_scope.
Local Open Scope list_scope.

(** ** std::ifstream *)
Record istr := mkI { i_rest : text; i_eof : bool; i_fail : bool }.
(** the constructor (misp.cpp:78 and alike): [None] when the file cannot be opened *)
Definition opened (file : option text) : istr := match file with Some t => mkI t false false | None => mkI [] false true end.
Definition good (f : istr) : bool := negb (i_eof f || i_fail f).

(** isspace in the "C" locale: blank, \t \n \v \f \r *)
Definition is_space (c : ascii) : bool := let n := nat_of_ascii c in (n =? 32) || ((9 <=? n) && (n <=? 13)).
Definition is_digit (c : ascii) : bool := let n := nat_of_ascii c in (48 <=? n) && (n <=? 57).
Definition digit_val (c : ascii) : Z := Z.of_nat (nat_of_ascii c) - 48.

Fixpoint drop_ws (t : text) : text := match t with c :: r => if is_space c then drop_ws r else t | [] => [] end.
Fixpoint span (p : ascii -> bool) (t : text) : text * text :=
  match t with c :: r => if p c then let '(a, b) := span p r in (c :: a, b) else ([], t) | [] => ([], []) end.
Definition is_nil {A} (l : list A) : bool := match l with [] => true | _ => false end.

(** the sentry of formatted input: skips white space; fails at the end of the file or when the stream is not good *)
Definition sentry (f : istr) : bool * istr :=
  if good f then match drop_ws (i_rest f) with [] => (false, mkI [] true true) | r => (true, mkI r false false) end
  else (false, mkI (i_rest f) (i_eof f) true).

(** operator>>(char&); the first component is the stored value, [None] when nothing is stored *)
Definition get_char (f : istr) : option ascii * istr :=
  let '(ok, g) := sentry f in
  if ok then match i_rest g with c :: r => (Some c, mkI r false false) | [] => (None, g) end else (None, g).

(** operator>>(std::string&) *)
Definition get_word (f : istr) : option text * istr :=
  let '(ok, g) := sentry f in
  if ok then let '(w, r) := span (fun c => negb (is_space c)) (i_rest g) in (Some w, mkI r (is_nil r) false) else (None, g).

(** decimal value *)
Definition dec (ds : text) : Z := fold_left (fun a d => 10 * a + digit_val d)%Z ds 0%Z.

(** the integers: optional sign, digits; [conv] gives the stored value and whether it was representable *)
Definition get_num (conv : bool -> Z -> Z * bool) (f : istr) : option Z * istr :=
  let '(ok, g) := sentry f in
  if ok then
    let '(neg, r1) := match i_rest g with c :: r => if ascii_dec c "-" then (true, r) else if ascii_dec c "+" then (false, r) else (false, c :: r) | [] => (false, []) end in
    let '(ds, r2) := span is_digit r1 in
    match ds with
    | [] => (Some 0%Z, mkI r2 (is_nil r2) true)
    | _ => let '(z, okv) := conv neg (dec ds) in (Some z, mkI r2 (is_nil r2) (negb okv))
    end
  else (None, g).
Definition int_max : Z := 2147483647.
Definition int_min : Z := -2147483648.
(** operator>>(int&) *)
Definition conv_int (neg : bool) (z : Z) : Z * bool :=
  let v := (if neg then - z else z)%Z in
  if (v <? int_min)%Z then (int_min, false) else if (int_max <? v)%Z then (int_max, false) else (v, true).
Definition get_int := get_num conv_int.
(** operator>>(unsigned long&): a minus sign negates modulo 2^64 *)
Definition size_max : Z := 18446744073709551615.
Definition conv_size (neg : bool) (z : Z) : Z * bool :=
  if (size_max <? z)%Z then (size_max, false) else ((if neg then (- z) mod (size_max + 1) else z)%Z, true).
Definition get_size := get_num conv_size.

(** std::getline; the line itself is never used by the readers *)
Definition not_nl (c : ascii) : bool := negb (nat_of_ascii c =? 10).
Definition getline (f : istr) : istr :=
  if good f then
    let '(l, r) := span not_nl (i_rest f) in
    match r with _ :: r' => mkI r' false false | [] => mkI [] true (is_nil l) end
  else mkI (i_rest f) (i_eof f) true.

(** a variable after [f >> x] *)
Definition assign {A} (old new : option A) : option A := match new with Some _ => new | None => old end.
(** the value of a variable; undefined behaviour when it has none *)
Definition val {A} (x : option A) : res A := match x with Some v => Ok v | None => Err UB end.

(** ** The DIMACS readers *)
(** misp.cpp:53-57 (misp2.cpp:52, misp3.cpp:52, misp4.cpp:33, misp5.cpp:34, misp4_lag.cpp:40): struct Instance; coloring*.cpp the same with std::set *)
Record inst := mkInst { in_nv : Z; in_ne : option Z; in_edges : list (Z * Z); in_adj : nat -> N }.

(** misp.cpp:79-101 (the same loop in misp2..misp5, misp4_lag): variables nv, ne and edges of the instance under construction *)
Fixpoint dm_loop (fuel : nat) (f : istr) (nv ne : option Z) (es : list (Z * Z)) : res (option Z * option Z * list (Z * Z)) :=
  if i_eof f then Ok (nv, ne, es)
  else match fuel with
  | 0 => Err OutOfFuel
  | S n =>
      let '(c, f1) := get_char f in
      if i_eof f1 then Ok (nv, ne, es)
      else do ch <- val c ;
        if ascii_dec ch "c" then dm_loop n (getline f1) nv ne es
        else if ascii_dec ch "p" then
          let '(_, f2) := get_word f1 in
          let '(a, f3) := get_int f2 in
          let '(b, f4) := get_int f3 in
          dm_loop n f4 (assign nv a) (assign ne b) es
        else if ascii_dec ch "e" then
          let '(a, f2) := get_int f1 in
          let '(b, f3) := get_int f2 in
          do x <- val a ; do y <- val b ;
          if ((x =? int_min) || (y =? int_min))%Z then Err UB else dm_loop n f3 nv ne (es ++ [(x - 1, y - 1)%Z])
        else dm_loop n f1 nv ne es
  end.

(** misp.cpp:63-70 Instance::convert; [size] is nv+1 there and nv in coloring.cpp:64-70.  A negative size makes new[] throw (not followed) *)
Fixpoint conv_edges (size : Z) (es : list (Z * Z)) (adj : nat -> N) : res (nat -> N) :=
  match es with
  | [] => Ok adj
  | (a, b) :: r =>
      if ((0 <=? a) && (a <? size) && (0 <=? b) && (b <? size))%Z then
        let adj1 := fupd adj (Z.to_nat a) (badd (adj (Z.to_nat a)) (Z.to_nat b)) in
        conv_edges size r (fupd adj1 (Z.to_nat b) (badd (adj1 (Z.to_nat b)) (Z.to_nat a)))
      else Err UB
  end.
Definition convert (extra : Z) (nv : option Z) (es : list (Z * Z)) : res (Z * (nat -> N)) :=
  do n <- val nv ;
  if (int_max <? n + extra)%Z then Err UB
  else if (n + extra <? 0)%Z then Err Unmodelled
  else do adj <- conv_edges (n + extra) es (fun _ => 0%N) ; Ok (n, adj).

(** every round of the loops below either reads a character or ends *)
Definition fuel_of (f : istr) : nat := S (List.length (i_rest f)).

(** misp.cpp:74-105 *)
Definition readMisp (file : option text) : res inst :=
  let f := opened file in
  do r <- dm_loop (fuel_of f) f None None [] ;
  let '(nv, ne, es) := r in
  do c <- convert 1 nv es ;
  Ok (mkInst (fst c) ne es (snd c)).

(** ** The colouring reader *)
(** coloring.cpp:48-50 operator< on edges *)
Definition edge_ltb (e1 e2 : Z * Z) : bool := ((fst e1 <? fst e2) || ((fst e1 =? fst e2) && (snd e1 <? snd e2)))%Z.
(** std::set<GE>::insert; the set is the increasing list of its elements *)
Fixpoint set_ins (e : Z * Z) (s : list (Z * Z)) : list (Z * Z) :=
  match s with
  | [] => [e]
  | x :: r => if edge_ltb e x then e :: s else if edge_ltb x e then x :: set_ins e r else s
  end.

(** coloring.cpp:129-140: the loop over the edges; [last] is the variable of line 126 *)
Fixpoint py_edges (fuel : nat) (f : istr) (last : option ascii) (es : list (Z * Z)) (nbe : nat) : res (istr * list (Z * Z) * nat) :=
  do l <- val last ;
  if ascii_dec l "}" then Ok (f, es, nbe)
  else match fuel with
  | 0 => Err OutOfFuel
  | S n =>
      let '(_, f1) := get_char f in
      let '(u, f2) := get_int f1 in
      let '(_, f3) := get_char f2 in
      let '(v, f4) := get_int f3 in
      let '(_, f5) := get_char f4 in
      let '(l', f6) := get_char f5 in
      do a <- val u ; do b <- val v ;
      py_edges n f6 (assign last l') (set_ins (a, b) es) (S nbe)
  end.

(** coloring.cpp:113-151 (coloring2.cpp:104-142, coloring3.cpp:115-153) *)
Fixpoint py_loop (fuel : nat) (f : istr) (nv ub : option Z) (es : list (Z * Z)) (nbe : nat) : res (option Z * option Z * list (Z * Z) * nat) :=
  if i_eof f then Ok (nv, ub, es, nbe)
  else match fuel with
  | 0 => Err OutOfFuel
  | S n =>
      let '(c, f1) := get_char f in
      if i_eof f1 then Ok (nv, ub, es, nbe)
      else do ch <- val c ;
        if ascii_dec ch "N" then
          let '(_, f2) := get_word f1 in
          let '(a, f3) := get_int f2 in
          py_loop n f3 (assign nv a) ub es nbe
        else if ascii_dec ch "E" then
          let '(_, f2) := get_word f1 in
          let '(l, f3) := get_char f2 in
          do r <- py_edges (fuel_of f3) f3 l es nbe ;
          let '(f4, es', nbe') := r in
          py_loop n f4 nv ub es' nbe'
        else if ascii_dec ch "K" then
          let '(_, f2) := get_word f1 in
          let '(a, f3) := get_int f2 in
          py_loop n f3 nv (assign ub a) es nbe
        else py_loop n f1 nv ub es nbe
  end.

(** coloring.cpp:107-156; [ub0] is the value of the argument ub before the call (coloring.cpp:161: -1).  Returns the instance and ub *)
Definition readPy (ub0 : Z) (file : option text) : res (inst * Z) :=
  let f := opened file in
  do r <- py_loop (fuel_of f) f None (Some ub0) [] 0 ;
  let '(nv, ub, es, nbe) := r in
  do c <- convert 0 nv es ;
  do u <- val ub ;
  Ok (mkInst (fst c) (Some (Z.of_nat nbe)) es (snd c), u).

(** ** The knapsack readers *)
Record kinst := mkK { k_I : option Z; k_capa : option Z; k_items : list (Z * Z) (** (profit, weight) *) }.

(** knapsack.cpp:55-62 *)
Fixpoint kn_loop (fuel : nat) (f : istr) (ni : option Z) (count : nat) (items : list (Z * Z)) : res (list (Z * Z)) :=
  if i_eof f then Ok items
  else match fuel with
  | 0 => Err OutOfFuel
  | S n =>
      let '(p, f1) := get_int f in
      let '(w, f2) := get_int f1 in
      do i <- val ni ;
      if (i <=? Z.of_nat count)%Z then Ok items
      else do a <- val p ; do b <- val w ; kn_loop n f2 ni (S count) (items ++ [(a, b)])
  end.
(** knapsack.cpp:48-66; the vectors profit and weight as one list of pairs *)
Definition readKnap (file : option text) : res kinst :=
  let f := opened file in
  let '(ni, f1) := get_int f in
  let '(capa, f2) := get_int f1 in
  do items <- kn_loop (S (S (fuel_of f2))) f2 ni 0 [] ;
  Ok (mkK ni capa items).

(** knapsack2.cpp:66-72: the same loop, but the item is stored before the test; the array has [I] cells *)
Fixpoint kn2_loop (fuel : nat) (f : istr) (ni : Z) (count : nat) (items : list (Z * Z)) : res (list (Z * Z)) :=
  if i_eof f then Ok items
  else match fuel with
  | 0 => Err OutOfFuel
  | S n =>
      let '(p, f1) := get_int f in
      let '(w, f2) := get_int f1 in
      if (ni <=? Z.of_nat count)%Z then Err UB
      else do a <- val p ; do b <- val w ; kn2_loop n f2 ni (S count) (items ++ [(a, b)])
  end.
(** knapsack2.cpp:57-86; [le] is the comparison of lines 75-79 (ratios in doubles, kept abstract).  Cells never written are undefined *)
Definition readKnap2 (le : Z * Z -> Z * Z -> bool) (file : option text) : res kinst :=
  let f := opened file in
  let '(ni, f1) := get_int f in
  let '(capa, f2) := get_int f1 in
  do i <- val ni ;
  if (i <? 0)%Z then Err Unmodelled
  else do items <- kn2_loop (S (S (fuel_of f2))) f2 i 0 [] ;
    if (Z.of_nat (List.length items) <? i)%Z then Err UB
    else Ok (mkK ni capa (msort_list le (0, 0)%Z items)).

(** ** The TSP readers *)
(** nv and the values of the matrix, row by row *)
Record tinst := mkT { t_nv : Z; t_d : list Z }.

(** the loops tsp.cpp:88-93: one int for each cell *)
Fixpoint read_cells (n : nat) (f : istr) : res (list Z) :=
  match n with
  | 0 => Ok []
  | S m => let '(x, f1) := get_int f in do v <- val x ; do r <- read_cells m f1 ; Ok (v :: r)
  end.
(** tsp.cpp:70-74: skip lines until the section starts *)
Fixpoint tsp_skip (fuel : nat) (f : istr) (label : text) : res istr :=
  match fuel with
  | 0 => Err OutOfFuel
  | S n =>
      let '(w, f1) := get_word f in
      let l := match w with Some x => x | None => label end in
      let f2 := getline f1 in
      if list_eq_dec ascii_dec l (chars "EDGE_WEIGHT_SECTION") then Ok f2 else tsp_skip n f2 l
  end.
Definition snd_word (f : istr) : istr := snd (get_word f).
(** tsp.cpp:54-97; [fuel] bounds the number of header lines *)
Definition readTsp (fuel : nat) (file : option text) : res tinst :=
  let f := opened file in
  let '(w, f1) := get_word f in
  do label <- val w ;                  (* an empty label is indexed at -1 (line 61) *)
  do r <-
    (if ascii_dec (last label "000") ":" then
       let f2 := getline f1 in
       let f3 := getline (snd_word f2) in
       let f4 := getline (snd_word f3) in
       let '(l, f5) := get_word f4 in
       let '(nv, f6) := get_size f5 in
       do g <- tsp_skip fuel f6 (match l with Some x => x | None => label end) ;
       Ok (nv, g)
     else
       let f2 := snd_word (snd_word f1) in
       let f3 := getline (snd_word (snd_word f2)) in
       let f4 := getline (snd_word (snd_word f3)) in
       let '(nv, f5) := get_size (snd_word (snd_word f4)) in
       let f6 := getline (snd_word (snd_word f5)) in
       Ok (nv, snd_word f6)) ;
  let '(nv, g) := r in
  do n <- val nv ;
  do d <- read_cells (Z.to_nat n * Z.to_nat n) g ;
  Ok (mkT n d).

(** tsp_test4.cpp:77-88 readLabel.  get() at the end gives EOF, which is stored as the character 255 *)
Fixpoint read_label (fuel : nat) (f : istr) (rv : text) : res (text * istr) :=
  match fuel with
  | 0 => Err OutOfFuel
  | S n =>
      if good f then
        match i_rest f with
        | [] => Ok (rv ++ ["255"], mkI [] true true)
        | c :: r => if is_space c || (if ascii_dec c ":" then true else false) then Ok (rv, f) else read_label n (mkI r false false) (rv ++ [c])
        end
      else if i_eof f then Ok (rv ++ ["255"], mkI (i_rest f) true true)
      else read_label n (mkI (i_rest f) false true) (rv ++ ["255"])
  end.
Definition label_of (f : istr) : res (text * istr) := read_label (fuel_of f) f [].

Inductive wformat := FullMatrix | LowerDiagRow | FNA.
(** tsp_test4.cpp:69-75 *)
Definition convertWF (s : text) : wformat :=
  if list_eq_dec ascii_dec s (chars "LOWER_DIAG_ROW") then LowerDiagRow
  else if list_eq_dec ascii_dec s (chars "FULL_MATRIX") then FullMatrix else FNA.

(** tsp_test4.cpp:106-118; the weight type is only printed *)
Fixpoint t4_skip (fuel : nat) (f : istr) (wf : wformat) : res (wformat * istr) :=
  match fuel with
  | 0 => Err OutOfFuel
  | S n =>
      do r <- label_of f ;
      let '(label, f1) := r in
      if list_eq_dec ascii_dec label (chars "EDGE_WEIGHT_TYPE") then t4_skip n (snd_word (snd_word f1)) wf
      else if list_eq_dec ascii_dec label (chars "EDGE_WEIGHT_FORMAT") then
        let '(back, f2) := get_word (snd_word f1) in
        t4_skip n f2 (convertWF (match back with Some b => b | None => [] end))
      else
        let f2 := getline f1 in
        if list_eq_dec ascii_dec label (chars "EDGE_WEIGHT_SECTION") then Ok (wf, f2) else t4_skip n f2 wf
  end.

(** cells of the lower triangle in file order, tsp_test4.cpp:132-142: (i,j) for j <= i *)
Definition tri (n : nat) : list (nat * nat) := flat_map (fun i => map (fun j => (i, j)) (seq 0 (S i))) (seq 0 n).
(** tsp_test4.cpp:136-137 (and 141 for i = j): rv.d[i][j] = val, rv.d[j][i] = val *)
Definition upd2 (m : nat -> nat -> Z) (i j : nat) (v : Z) : nat -> nat -> Z := fun a b => if (a =? i) && (b =? j) then v else m a b.
Fixpoint write_tri (cells : list (nat * nat)) (vs : list Z) (m : nat -> nat -> Z) : nat -> nat -> Z :=
  match cells, vs with
  | (i, j) :: cs, v :: r => write_tri cs r (upd2 (upd2 m i j v) j i v)
  | _, _ => m
  end.
(** row by row; every cell has been written *)
Definition rows (n : nat) (m : nat -> nat -> Z) : list Z := flat_map (fun i => map (m i) (seq 0 n)) (seq 0 n).

(** tsp_test4.cpp:90-147; a matrix that is never filled is printed (line 145), which is undefined *)
Definition readTsp4 (fuel : nat) (file : option text) : res tinst :=
  let f := opened file in
  do r1 <- label_of f ; let f1 := getline (snd r1) in
  do r2 <- label_of f1 ; let f2 := getline (snd r2) in
  do r3 <- label_of f2 ; let f3 := getline (snd r3) in
  do r4 <- label_of f3 ;
  let '(nv, f4) := get_size (snd_word (snd r4)) in
  do r <- t4_skip fuel f4 FNA ;
  let '(wf, g) := r in
  do n <- val nv ;
  let k := Z.to_nat n in
  match wf with
  | FullMatrix => do d <- read_cells (k * k) g ; Ok (mkT n d)
  | LowerDiagRow => do d <- read_cells (List.length (tri k)) g ; Ok (mkT n (rows k (write_tri (tri k) d (fun _ _ => 0%Z))))
  | FNA => if (k =? 0) then Ok (mkT n []) else Err UB
  end.
