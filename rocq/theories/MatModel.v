(** Model of FArray, FMatrix and their proxies, src/util.hpp.  Executable definitions only.
    Blocks of the heap are numbered in order of allocation; a cell just allocated holds None (its value is indeterminate, reading it is [Err UB]); reading or writing
    through a null pointer, outside a block or in a freed block, and freeing a block twice, are [Err UB].  Elements are integers (int, or any type copied by value).
    Loop counters are unsigned int in the source: sizes above 2^32 are outside the model.  Assertions are off (release). *)
From Verif Require Import Base.

Record heap := mkHeap { h_blk : nat -> option (list (option Z)); h_nxt : nat }.
(** src/util.hpp:912-913 *)
Record fobj := mkF { f_tab : option nat; f_mx : nat }.
Record fst8 := mkFS { fs_h : heap; fs_o : nat -> option fobj }.
Definition fs0 : fst8 := mkFS (mkHeap (fun _ => None) 0) (fun _ => None).

Definition h_new (h : heap) (n : nat) : heap * nat := (mkHeap (fupd (h_blk h) (h_nxt h) (Some (repeat None n))) (S (h_nxt h)), h_nxt h).
(** delete[] p: nothing for the null pointer *)
Definition h_del (h : heap) (p : option nat) : res heap :=
  match p with
  | None => Ok h
  | Some b => match h_blk h b with Some _ => Ok (mkHeap (fupd (h_blk h) b None) (h_nxt h)) | None => Err UB end
  end.
(** the address p + k as an lvalue *)
Definition h_cell (h : heap) (p : option nat) (k : nat) : res (option Z) :=
  match p with
  | None => Err UB
  | Some b => match h_blk h b with Some l => match nth_error l k with Some c => Ok c | None => Err UB end | None => Err UB end
  end.
Definition h_put (h : heap) (p : option nat) (k : nat) (c : option Z) : res heap :=
  match p with
  | None => Err UB
  | Some b => match h_blk h b with
              | Some l => if k <? length l then Ok (mkHeap (fupd (h_blk h) b (Some (firstn k l ++ c :: skipn (S k) l))) (h_nxt h)) else Err UB
              | None => Err UB
              end
  end.
(** for(i = k; i < k + n; i++) p[i] = v;  src/util.hpp:924-925 *)
Fixpoint h_fill (h : heap) (p : option nat) (k n : nat) (c : option Z) : res heap :=
  match n with O => Ok h | S n' => do h1 <- h_put h p k c ; h_fill h1 p (S k) n' c end.
(** for(i = k; i < k + n; i++) p[i] = q[i];  src/util.hpp:929-930, 942-943.  Copying an indeterminate value is allowed here (it is for unsigned char; for int it is
    formally undefined, but no compiler makes it fail): the copy is indeterminate as well *)
Fixpoint h_copy (h : heap) (p q : option nat) (k n : nat) : res heap :=
  match n with O => Ok h | S n' => do c <- h_cell h q k ; do h1 <- h_put h p k c ; h_copy h1 p q (S k) n' end.

Inductive fop := FDefault (i : nat) | FNew (i n : nat) | FFill (i n : nat) (v : Z) | FCopy (i j : nat) | FMoveC (i j : nat) | FAssign (i j : nat) | FMoveA (i j : nat)
               | FGet (i k : nat) | FSet (i k : nat) (v : Z) | FDestroy (i : nat) | FEq (i j : nat) | FSize (i : nat).
Inductive fout := ONone | OVal (v : Z) | OBool (b : bool) | OSize (n : nat).

Definition f_obj (s : fst8) (i : nat) : res fobj := match fs_o s i with Some o => Ok o | None => Err UB end.
Definition f_set (s : fst8) (h : heap) (i : nat) (o : fobj) : fst8 := mkFS h (fupd (fs_o s) i (Some o)).

(** src/util.hpp:974-981.  int c = _mx; while(c-- && *a++ == *b++); return c<0;  the loop compares from the first cell on and stops at the first difference; [n] is the
    number of cells left (exact for _mx < 2^31; reading an indeterminate cell is UB) *)
Fixpoint f_eq_loop (h : heap) (p q : option nat) (k n : nat) : res bool :=
  match n with
  | O => Ok true
  | S n' => do a <- h_cell h p k ; do b <- h_cell h q k ;
            match a, b with Some x, Some y => if (x =? y)%Z then f_eq_loop h p q (S k) n' else Ok false | _, _ => Err UB end
  end.

Definition f_do (s : fst8) (op : fop) : res (fst8 * fout) :=
  let h := fs_h s in
  match op with
  | FDefault i => Ok (f_set s h i (mkF None 0), ONone)                                     (* 916 *)
  | FNew i n => if n =? 0 then Ok (f_set s h i (mkF None 0), ONone)                        (* 917-921 *)
                else let (h1, b) := h_new h n in Ok (f_set s h1 i (mkF (Some b) n), ONone)
  | FFill i n v => let (h1, b) := h_new h n in                                             (* 922-926 *)
                   do h2 <- h_fill h1 (Some b) 0 n (Some v) ; Ok (f_set s h2 i (mkF (Some b) n), ONone)
  | FCopy i j => do o <- f_obj s j ;                                                       (* 927-931 *)
                 let (h1, b) := h_new h (f_mx o) in
                 do h2 <- h_copy h1 (Some b) (f_tab o) 0 (f_mx o) ; Ok (f_set s h2 i (mkF (Some b) (f_mx o)), ONone)
  | FMoveC i j => do o <- f_obj s j ;                                                      (* 932-934 *)
                  Ok (f_set (f_set s h i (mkF (f_tab o) (f_mx o))) h j (mkF None (f_mx o)), ONone)
  | FDestroy i => do o <- f_obj s i ; do h1 <- h_del h (f_tab o) ; Ok (mkFS h1 (fun x => if x =? i then None else fs_o s x), ONone)   (* 935 *)
  | FAssign i j => do o <- f_obj s i ; do t <- f_obj s j ;                                 (* 936-945 *)
                   if f_mx o =? f_mx t then do h2 <- h_copy h (f_tab o) (f_tab t) 0 (f_mx o) ; Ok (f_set s h2 i o, ONone)
                   else do h1 <- h_del h (f_tab o) ;
                        let (h2, b) := h_new h1 (f_mx t) in
                        do h3 <- h_copy h2 (Some b) (f_tab t) 0 (f_mx t) ; Ok (f_set s h3 i (mkF (Some b) (f_mx t)), ONone)
  | FMoveA i j => do o <- f_obj s i ;                                                      (* 946-952: delete, take over, null the source; with i = j the object is its own source *)
                  do h1 <- h_del h (f_tab o) ;
                  do a <- f_obj s j ;
                  let s1 := f_set s h1 i (mkF (f_tab a) (f_mx a)) in
                  do a1 <- f_obj s1 j ; Ok (f_set s1 h1 j (mkF None (f_mx a1)), ONone)
  | FGet i k => do o <- f_obj s i ; do c <- h_cell h (f_tab o) k ; match c with Some v => Ok (s, OVal v) | None => Err UB end   (* 954-955 *)
  | FSet i k v => do o <- f_obj s i ; do h1 <- h_put h (f_tab o) k (Some v) ; Ok (mkFS h1 (fs_o s), ONone)                      (* 954 *)
  | FSize i => do o <- f_obj s i ; Ok (s, OSize (f_mx o))                                  (* 953 *)
  | FEq i j => do o <- f_obj s i ; do t <- f_obj s j ;                                     (* 974-981 *)
               if f_mx o =? f_mx t then do b <- f_eq_loop h (f_tab o) (f_tab t) 0 (f_mx o) ; Ok (s, OBool b) else Ok (s, OBool false)
  end.
Fixpoint f_run (s : fst8) (os : list fop) : res (fst8 * list fout) :=
  match os with [] => Ok (s, []) | o :: r => do (s1, a) <- f_do s o ; do (s2, l) <- f_run s1 r ; Ok (s2, a :: l) end.

(** int arithmetic: overflow is undefined *)
Definition int32 (z : Z) : res Z := if ((-2147483648 <=? z) && (z <=? 2147483647))%Z then Ok z else Err UB.
Open Scope Z_scope.
(** src/util.hpp:1029, 1030, 1036, 1041: the proxies multiply the accumulator by the next dimension and add the index *)
Fixpoint mx_ofs (acc : Z) (dims idx : list Z) : res Z :=
  match dims, idx with
  | [], [] => Ok acc
  | d :: ds, i :: is => do m <- int32 (acc * d) ; do a <- int32 (m + i) ; mx_ofs a ds is
  | _, _ => Err Unmodelled
  end.
(** src/util.hpp:1107, 1113: the first index starts the accumulator; the first dimension is not used *)
Definition mx_index (dims idx : list Z) : res Z := match dims, idx with _ :: ds, i :: is => mx_ofs i ds is | _, _ => Err Unmodelled end.
(** src/util.hpp:1044-1049, in size_t (the dimensions are converted to unsigned long: negative ones become huge) *)
Fixpoint prodOf (t : list Z) : Z := match t with [] => 1 | d :: ds => d * prodOf ds end.
Close Scope Z_scope.
(** src/util.hpp:1029-1030: _flat[...]; the index is converted to size_t, so a negative one is far outside any block *)
Definition mx_get (s : fst8) (i : nat) (dims idx : list Z) : res Z :=
  do z <- mx_index dims idx ;
  if (z <? 0)%Z then Err UB else do (_, v) <- f_do s (FGet i (Z.to_nat z)) ; match v with OVal x => Ok x | _ => Err Unmodelled end.
Definition mx_set (s : fst8) (i : nat) (dims idx : list Z) (v : Z) : res fst8 :=
  do z <- mx_index dims idx ;
  if (z <? 0)%Z then Err UB else do (s1, _) <- f_do s (FSet i (Z.to_nat z) v) ; Ok s1.
(** src/util.hpp:1141-1144 and 1072-1077: Matrix(nbr,nbc) builds an empty matrix and move-assigns FAT(prod) to _flat; object [tmp] is the temporary *)
Definition mx_make (s : fst8) (i tmp : nat) (dims : list Z) : res fst8 :=
  do (s1, _) <- f_do s (FDefault i) ; do (s2, _) <- f_do s1 (FNew tmp (Z.to_nat (prodOf dims))) ;
  do (s3, _) <- f_do s2 (FMoveA i tmp) ; do (s4, _) <- f_do s3 (FDestroy tmp) ; Ok s4.
(** src/util.hpp:1079-1084 *)
Definition mx_copy (s : fst8) (i j : nat) : res fst8 := do (s1, _) <- f_do s (FDefault i) ; do (s2, _) <- f_do s1 (FAssign i j) ; Ok s2.
