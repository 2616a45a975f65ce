(** Model of NDArray, src/dd.hpp:153-269, the array holding a layer.  Executable definitions only.
    Nodes are numbers, the null pointer is None.  A write outside the allocation and a comparison of a null pointer are [Err UB].  Assertions are off (release);
    the assertions the source has are preconditions of the specification. *)
From Verif Require Import Base MSortModel.

(** src/dd.hpp:154-158.  _holes is a size_t that the source only uses in size(); here an integer *)
Record nda := mkNda { na_tab : nat -> option nat; na_mx : nat; na_sz : nat; na_st : nat; na_holes : Z }.
(** src/dd.hpp:160-162; the cells are not initialised: [junk] *)
Definition nda0 (junk : nat -> option nat) (isz : nat) : nda := mkNda junk isz 0 0 0.
(** src/dd.hpp:164, modulo 2^64 *)
Definition na_size (s : nda) : Z := ((Z.of_nat (na_sz s) - Z.of_nat (na_st s) - na_holes s) mod 2 ^ 64)%Z.
(** src/dd.hpp:165-175; after a growth the upper half is uninitialised, here it keeps the old contents beyond the end, which are never read *)
Definition na_push (s : nda) (n : nat) : res nda :=
  let mx := if na_sz s =? na_mx s then 2 * na_mx s else na_mx s in
  if na_sz s <? mx then Ok (mkNda (fupd (na_tab s) (na_sz s) (Some n)) mx (S (na_sz s)) (na_st s) (na_holes s)) else Err UB.
(** src/dd.hpp:176-182 *)
Definition na_pushf (s : nda) (n : nat) : res nda :=
  match na_st s with O => na_push s n | S p => Ok (mkNda (fupd (na_tab s) p (Some n)) (na_mx s) (na_sz s) p (na_holes s)) end.
(** src/dd.hpp:184 *)
Definition na_clear (s : nda) : nda := mkNda (na_tab s) (na_mx s) 0 0 0.
(** the loop common to begin, front and pop_front (src/dd.hpp:227-230, 247-250, 258-261); fuel = number of cells left *)
Fixpoint na_skip (fuel : nat) (t : nat -> option nat) (p : nat) (holes : Z) : nat * Z :=
  match fuel with O => (p, holes) | S f => match t p with None => na_skip f t (S p) (holes - 1)%Z | Some _ => (p, holes) end end.
Definition na_skipped (s : nda) : nda :=
  let '(p, h) := na_skip (na_sz s - na_st s) (na_tab s) (na_st s) (na_holes s) in mkNda (na_tab s) (na_mx s) (na_sz s) p h.
(** the loop of the iterator (src/dd.hpp:190, 200): the next position from p on that is not null, or the end *)
Fixpoint na_next (fuel : nat) (t : nat -> option nat) (p : nat) : nat :=
  match fuel with O => p | S f => match t p with None => na_next f t (S p) | Some _ => p end end.
(** src/dd.hpp:198-202 *)
Definition it_incr (s : nda) (num : nat) : nat := na_next (na_sz s - S num) (na_tab s) (S num).
Fixpoint it_adv (k : nat) (s : nda) (num : nat) : nat := match k with O => num | S k' => it_adv k' s (it_incr s num) end.
(** for(auto p : layer): positions until the end is met; fuel = number of cells *)
Fixpoint it_walk (fuel : nat) (s : nda) (num : nat) : list (option nat) :=
  match fuel with O => [] | S f => if num =? na_sz s then [] else na_tab s num :: it_walk f s (it_incr s num) end.
(** src/dd.hpp:225-233: the state and the position *)
Definition na_begin (s : nda) : nda * nat := let s1 := na_skipped s in (s1, na_next (na_sz s1 - na_st s1) (na_tab s1) (na_st s1)).
(** src/dd.hpp:235-240 (and 213-219, the same through the iterator) *)
Definition na_erase (s : nda) (num : nat) : nda * nat :=
  let s1 := mkNda (fupd (na_tab s) num None) (na_mx s) (na_sz s) (na_st s) (na_holes s + 1)%Z in (s1, it_incr s1 num).
(** src/dd.hpp:224 and 242-245: eraseSuffix(at(k)) *)
Definition na_suffix (s : nda) (k : nat) : nda := mkNda (na_tab s) (na_mx s) (na_next (na_sz s - k) (na_tab s) k) (na_st s) (na_holes s).
(** src/dd.hpp:246-255 *)
Definition na_front (s : nda) : nda * option nat := let s1 := na_skipped s in (s1, na_tab s1 (na_st s1)).
(** src/dd.hpp:256-264 *)
Definition na_popf (s : nda) : res nda :=
  let s1 := na_skipped s in
  if na_st s1 <? na_mx s1 then Ok (mkNda (fupd (na_tab s1) (na_st s1) None) (na_mx s1) (na_sz s1) (S (na_st s1)) (na_holes s1)) else Err UB.
(** src/dd.hpp:266-268 with msort.hpp: the cells from 0 on, whatever _st.  With two cells or more every cell is compared, so a null one is fatal *)
Definition all_some (t : nat -> option nat) (n : nat) : bool := forallb (fun i => match t i with Some _ => true | None => false end) (seq 0 n).
Definition na_sort (cmp : nat -> nat -> bool) (s : nda) : res nda :=
  if na_sz s <=? 1 then Ok s
  else if all_some (na_tab s) (na_sz s) then
    let c := fun i => match na_tab s i with Some x => x | None => 0 end in
    let v := mergeSort cmp (fun _ => 0) c (na_sz s) in
    Ok (mkNda (fun i => if i <? na_sz s then Some (v i) else na_tab s i) (na_mx s) (na_sz s) (na_st s) (na_holes s))
  else Err UB.

Inductive nop := NPush (n : nat) | NPushF (n : nat) | NPopF | NFront | NErase (k : nat) | NIter | NSort | NSuffix (k : nat) | NSize | NClear.
Inductive nout := NoOut | NVal (v : option nat) | NList (l : list (option nat)) | NNum (z : Z).
Definition n_do (cmp : nat -> nat -> bool) (s : nda) (o : nop) : res (nda * nout) :=
  match o with
  | NPush n => do s1 <- na_push s n ; Ok (s1, NoOut)
  | NPushF n => do s1 <- na_pushf s n ; Ok (s1, NoOut)
  | NPopF => do s1 <- na_popf s ; Ok (s1, NoOut)
  | NFront => let '(s1, v) := na_front s in Ok (s1, NVal v)
  (* erase(it) where it was begin() advanced k times; the answer is what the returned iterator shows, None at the end *)
  | NErase k => let '(s1, b) := na_begin s in let '(s2, p) := na_erase s1 (it_adv k s1 b) in Ok (s2, NVal (if p =? na_sz s2 then None else na_tab s2 p))
  | NIter => let '(s1, b) := na_begin s in Ok (s1, NList (it_walk (na_sz s1) s1 b))
  | NSort => do s1 <- na_sort cmp s ; Ok (s1, NoOut)
  | NSuffix k => Ok (na_suffix s k, NoOut)
  | NSize => Ok (s, NNum (na_size s))
  | NClear => Ok (na_clear s, NoOut)
  end.
Fixpoint n_run (cmp : nat -> nat -> bool) (s : nda) (os : list nop) : res (nda * list nout) :=
  match os with [] => Ok (s, []) | o :: r => do (s1, a) <- n_do cmp s o ; do (s2, l) <- n_run cmp s1 r ; Ok (s2, a :: l) end.
