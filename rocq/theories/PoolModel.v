(** Model of [Pool] (src/store.hpp, src/store.cpp).  Executable definitions only.
    A pointer is a pair (segment number, offset in the segment); the base of every segment, obtained from [new char[]], is taken to be aligned.
    [new] never fails.  Segment numbers are not wrapped at 2^32; sizes are 64-bit.  The destructor is left out. *)
From Verif Require Import Base.
Local Open Scope N_scope.

Definition w64 : N := 18446744073709551616.
(** src/store.hpp:52-65: the sizes of the segments in _store (so _nbSeg is their number), _mxs, _segSize, _seg, _top *)
Record pool := mkP { p_segs : list N; p_mxs : nat; p_segSize : N; p_seg : nat; p_top : N }.
(** src/store.cpp:22-32 *)
Definition p_new (defSize : N) : pool := mkP [defSize] 32 defSize 0 0.

(** src/store.cpp:43-44 *)
Definition p_round (sz : N) : N := if N.land sz 15 =? 0 then sz else (N.lor sz 15 + 1) mod w64.
(** src/store.cpp:51-58: the table is full / the new segment *)
Definition p_addSeg (p : pool) (sz : N) : res pool :=
  let p1 := if Nat.eqb (length (p_segs p)) (p_mxs p) then mkP (firstn (p_mxs p) (p_segs p)) (p_mxs p * 2) (p_segSize p) (p_seg p) (p_top p) else p in
  if Nat.ltb (length (p_segs p1)) (p_mxs p1)
  then Ok (mkP (p_segs p1 ++ [N.max (p_segSize p1) sz]) (p_mxs p1) (p_segSize p1) (p_seg p1) (p_top p1)) else Err UB.
(** src/store.cpp:46-62.  [dbg]: the assertion of line 48 is checked and its failure is [Err UB]. *)
Fixpoint p_find (dbg : bool) (fuel : nat) (p : pool) (sz : N) : res pool :=
  match nth_error (p_segs p) (p_seg p) with
  | None => Err UB
  | Some s =>
    if s <? (p_top p + sz) mod w64 then
      match fuel with
      | O => Err OutOfFuel
      | S f =>
        if dbg && (p_top p =? 0) then Err UB else
        let p1 := mkP (p_segs p) (p_mxs p) (p_segSize p) (S (p_seg p)) (p_top p) in
        do p2 <- (if Nat.leb (length (p_segs p1)) (p_seg p1) then p_addSeg p1 sz else Ok p1) ;
        p_find dbg f (mkP (p_segs p2) (p_mxs p2) (p_segSize p2) (p_seg p2) 0) sz
      end
    else Ok p
  end.
(** src/store.cpp:41-66 *)
Definition p_alloc (dbg : bool) (p : pool) (sz : N) : res (nat * N * pool) :=
  let z := p_round sz in
  if dbg && (z =? 0) then Err UB else
  do p1 <- p_find dbg (S (length (p_segs p))) p z ;
  Ok (p_seg p1, p_top p1, mkP (p_segs p1) (p_mxs p1) (p_segSize p1) (p_seg p1) ((p_top p1 + z) mod w64)).
(** src/store.hpp:33-40, 86 *)
Definition p_mark (p : pool) : nat * N := (p_seg p, p_top p).
(** src/store.hpp:81, and 76 with the mark (0,0) *)
Definition p_clear (p : pool) (m : nat * N) : pool := mkP (p_segs p) (p_mxs p) (p_segSize p) (fst m) (snd m).
(** src/store.hpp:88 *)
Definition p_usage (p : pool) : N := N.of_nat (length (p_segs p) - 1) * p_segSize p + p_top p.

(** programs: PMark k stores the mark in variable k (a default constructed PoolMark is (0,0)), PClear k restores it, PReset is clear() *)
Inductive pop := PAlloc (sz : N) | PMark (k : nat) | PClear (k : nat) | PReset.
Record pst := mkPS { ps_pool : pool; ps_marks : nat -> nat * N }.
Definition p_init (defSize : N) : pst := mkPS (p_new defSize) (fun _ => (0%nat, 0)).
Definition p_do (dbg : bool) (s : pst) (o : pop) : res (option (nat * N) * pst) :=
  match o with
  | PAlloc sz => do (sg, off, p1) <- p_alloc dbg (ps_pool s) sz ; Ok (Some (sg, off), mkPS p1 (ps_marks s))
  | PMark k => Ok (None, mkPS (ps_pool s) (fupd (ps_marks s) k (p_mark (ps_pool s))))
  | PClear k => Ok (None, mkPS (p_clear (ps_pool s) (ps_marks s k)) (ps_marks s))
  | PReset => Ok (None, mkPS (p_clear (ps_pool s) (0%nat, 0)) (ps_marks s))
  end.
Fixpoint p_run (dbg : bool) (s : pst) (os : list pop) : res (list (option (nat * N)) * pst) :=
  match os with
  | [] => Ok ([], s)
  | o :: os' => do (r, s1) <- p_do dbg s o ; do (rs, s2) <- p_run dbg s1 os' ; Ok (r :: rs, s2)
  end.
