(** Model of [Range], [NatSet] and [GNSet] (src/util.hpp).  Executable definitions only.
    An int is an unbounded integer unless stated otherwise; a word is a number below 2^64; the word array is a list. *)
From Verif Require Import Base BitModel.
Local Open Scope Z_scope.

(** ** Range (src/util.hpp:80-118): bounds from, to *)
Record range := mkRange { r_from : Z; r_to : Z }.
(** src/util.hpp:81 inc[b] *)
Definition r_inc (b : bool) : Z := if b then -1 else 1.
(** src/util.hpp:103-105 *)
Definition r_contains (r : range) (p : Z) : bool := (r_from r <=? p) && (p <=? r_to r).
Definition r_size (r : range) : Z := if r_from r <=? r_to r then r_to r - r_from r else r_from r - r_to r.
Definition r_largest (r : range) : Z := if r_from r <=? r_to r then r_to r else r_from r.
(** src/util.hpp:108 *)
Definition r_flip (r : range) : range := mkRange (r_to r - 1) (r_from r - 1).
(** src/util.hpp:111-114 *)
Definition r_open (f t : Z) : range := mkRange f t.
Definition r_close (f t : Z) : range := mkRange f (t + r_inc (t <? f)).
Definition r_openInc (f t : Z) : range := if f <=? t then mkRange f t else mkRange 0 0.
Definition r_closeInc (f t : Z) : range := if f <? t + 1 then mkRange f (t + r_inc (t <? f)) else mkRange 0 0.
(** src/util.hpp:86-99,109-110: for(auto i : r): start at from, step by inc[direction] until to *)
Fixpoint r_walk (fuel : nat) (step i to : Z) : res (list Z) :=
  if i =? to then Ok [] else
  match fuel with O => Err OutOfFuel | S f => do l <- r_walk f step (i + step) to ; Ok (i :: l) end.
Definition r_list (fuel : nat) (r : range) : res (list Z) := r_walk fuel (r_inc (negb (r_from r <=? r_to r))) (r_from r) (r_to r).

(** ** words *)
(** _t[i] *)
Definition w_get (t : list N) (i : Z) : res N :=
  if i <? 0 then Err UB else match nth_error t (Z.to_nat i) with Some w => Ok w | None => Err UB end.
(** _t[i] = w *)
Fixpoint w_upd (t : list N) (i : nat) (w : N) : list N :=
  match t, i with [], _ => [] | _ :: r, O => w :: r | a :: r, S k => a :: w_upd r k w end.
Definition w_set (t : list N) (i : Z) (w : N) : res (list N) :=
  if (i <? 0) || (Z.of_nat (length t) <=? i) then Err UB else Ok (w_upd t (Z.to_nat i) w).
(** p >> 6 and 1ull << (p & 63) *)
Definition w_ix (p : Z) : Z := Z.shiftr p 6.
Definition w_mask (p : Z) : N := wbit (Z.to_N (Z.land p 63)).
(** _t[p >> 6] |= 1ull << (p & 63) *)
Definition w_or (t : list N) (p : Z) : res (list N) := do w <- w_get t (w_ix p) ; w_set t (w_ix p) (N.lor w (w_mask p)).
Definition w_zero (n : nat) : list N := repeat 0%N n.
(** for(i = lb; i < ub; i++) set bit i; [n] = ub - lb *)
Fixpoint w_fill (t : list N) (n : nat) (i : Z) : res (list N) :=
  match n with O => Ok t | S k => do t <- w_or t i ; w_fill t k (i + 1) end.
(** conversion to short *)
Definition to_short (x : Z) : Z := (x + 32768) mod 65536 - 32768.

(** iterators (src/util.hpp:316-350, 351-380, 638-675): current word index (unsigned short) and remaining bits of the current word.
    [it_adv]: while (_cw == 0 && ++_cwi < nbw) _cw = _t[_cwi].  Fuel: number of words + 1. *)
Fixpoint it_adv (fuel : nat) (t : list N) (nbw cwi : Z) (cw : N) : res (Z * N) :=
  if (cw =? 0)%N then
    let cwi := (cwi + 1) mod 65536 in
    if cwi <? nbw then
      match fuel with O => Err OutOfFuel | S f => do w <- w_get t cwi ; it_adv f t nbw cwi w end
    else Ok (cwi, cw)
  else Ok (cwi, cw).
(** operator++ *)
Definition it_next (t : list N) (nbw : Z) (it : Z * N) : res (Z * N) :=
  let '(cwi, cw) := it in it_adv (S (length t)) t nbw cwi (N.lxor cw (N.land cw (wneg cw))).
(** operator*; __builtin_ctzl(0) is undefined *)
Definition it_get (it : Z * N) : res Z :=
  match wctz (snd it) with Some b => Ok (to_short (Z.shiftl (fst it) 6 + Z.of_N b)) | None => Err UB end.
(** for(auto v : s): the values visited from it to end() = (nbw, 0) *)
Fixpoint it_list (fuel : nat) (t : list N) (nbw : Z) (it : Z * N) : res (list Z) :=
  if (fst it =? nbw) && (snd it =? 0)%N then Ok []
  else match fuel with
       | O => Err OutOfFuel
       | S f => do v <- it_get it ; do it <- it_next t nbw it ; do l <- it_list f t nbw it ; Ok (v :: l)
       end.

(** ** NatSet<n> (src/util.hpp:128-409): n words, n >= 1 *)
(** src/util.hpp:132-135 *)
Definition ns_new (n : nat) : list N := w_zero n.
(** src/util.hpp:299 insert *)
Definition ns_insert (t : list N) (p : Z) : res (list N) := w_or t p.
(** src/util.hpp:143-159 NatSet(lb,ub); a failing assertion is undefined behaviour *)
Definition ns_interval (n : nat) (lb ub : Z) : res (list N) :=
  if ub <? lb then Ok (w_zero n)
  else let ub := ub + 1 in
       if (0 <=? ub) && (Z.shiftr ub 6 <? Z.of_nat n) then w_fill (w_zero n) (Z.to_nat (ub - lb)) lb else Err UB.
(** src/util.hpp:261-268 initializer list *)
Fixpoint ns_inserts (t : list N) (l : list Z) : res (list N) :=
  match l with [] => Ok t | p :: l => do t <- ns_insert t p ; ns_inserts t l end.
Definition ns_ofList (n : nat) (l : list Z) : res (list N) := ns_inserts (w_zero n) l.
(** src/util.hpp:300 contains *)
Definition ns_contains (t : list N) (p : Z) : res bool :=
  do w <- w_get t (w_ix p) ; Ok (negb (N.land w (w_mask p) =? 0)%N).
(** src/util.hpp:275-278, 279-290 *)
Definition ns_clear (t : list N) : list N := map (fun _ => 0%N) t.
Definition ns_size (t : list N) : nat := fold_left (fun a w => (a + wpop w)%nat) t 0%nat.
Definition ns_empty (t : list N) : bool := fold_left (fun az w => az && (w =? 0)%N) t true.
(** src/util.hpp:291-298 largest: from the last word down; [rt] is the reversed word list, [lw] the index of its head *)
Fixpoint ns_largest_from (rt : list N) (lw : Z) : Z :=
  match rt with
  | [] => -1
  | w :: r => match wmsb w with Some b => lw * 64 + Z.of_N b | None => ns_largest_from r (lw - 1) end
  end.
Definition ns_largest (t : list N) : Z := ns_largest_from (rev t) (Z.of_nat (length t) - 1).
(** src/util.hpp:301-315 *)
Definition ns_complement (t : list N) : list N := map wnot t.
Fixpoint w_zip (f : N -> N -> N) (a b : list N) : list N :=
  match a, b with x :: a, y :: b => f x y :: w_zip f a b | _, _ => [] end.
Definition ns_union (a b : list N) : list N := w_zip N.lor a b.
Definition ns_inter (a b : list N) : list N := w_zip N.land a b.
(** src/util.hpp:381 begin(): the constructor at 320-327 *)
Definition ns_begin (t : list N) : res (Z * N) :=
  do w <- w_get t 0 ; do it <- it_adv (S (length t)) t (Z.of_nat (length t)) 0 w ;
  let '(cwi, cw) := it in Ok (cwi, if cwi <? Z.of_nat (length t) then cw else 0%N).
Definition ns_list (t : list N) : res (list Z) :=
  do it <- ns_begin t ; it_list (S (64 * length t)) t (Z.of_nat (length t)) it.
(** src/util.hpp:392-397 operator==: counts the equal words *)
Fixpoint ns_eqcount (a b : list N) : nat :=
  match a, b with x :: a, y :: b => ((if (x =? y)%N then 1 else 0) + ns_eqcount a b)%nat | _, _ => 0%nat end.
Definition ns_eq (a b : list N) : bool := (ns_eqcount a b =? length a)%nat.
(** src/util.hpp:401-406 *)
Definition ns_hash (t : list N) : N := fold_left N.lxor t 0%N.

(** ** GNSet (src/util.hpp:420-748) *)
Record gset := mkG {
  g_null : bool;     (* _t == nullptr *)
  g_mxw : Z;         (* _mxw, unsigned short *)
  g_nbp : Z;         (* _nbp, unsigned short *)
  g_t : list N }.    (* the words _t points to *)
Definition ushort (x : Z) : Z := x mod 65536.
(** loops "for(short i=0; i < _mxw; i++)" leave the array when _mxw > 32767: not followed *)
Definition g_lim : Z := 32767.

(** src/util.hpp:425-432 *)
Definition g_new (nb : Z) : gset :=
  let mxw := Z.shiftr nb 6 + (if Z.land nb 63 =? 0 then 0 else 1) in
  if mxw =? 0 then mkG true 0 nb [] else mkG false mxw nb (w_zero (Z.to_nat mxw)).
(** src/util.hpp:433-439: new[] of zero words is not null *)
Definition g_copy (s : gset) : gset := mkG false (g_mxw s) (g_nbp s) (g_t s).
(** src/util.hpp:507-517 s1 = s2 *)
Definition g_assign (d s : gset) : gset :=
  mkG (if g_mxw s =? g_mxw d then g_null d else false) (g_mxw s) (g_nbp s) (g_t s).
(** src/util.hpp:446-451 from NatSet<n> *)
Definition g_ofNat (t : list N) : gset := mkG false (Z.of_nat (length t)) (ushort (ns_largest t)) t.
(** src/util.hpp:549 while(i >= _mxw) _mxw <<= 1.  After 17 doublings an unsigned short is 0, and the loop never ends: OutOfFuel. *)
Fixpoint g_double (fuel : nat) (i mxw : Z) : res Z :=
  if mxw <=? i then match fuel with O => Err OutOfFuel | S f => g_double f i (ushort (2 * mxw)) end else Ok mxw.
(** src/util.hpp:544-562 insert *)
Definition g_insert (s : gset) (p : Z) : res gset :=
  if p <? 0 then Err UB else
  let i := Z.shiftr p 6 in
  do (mxw, t, nul) <-
    (if g_mxw s <=? i then
       do m <- g_double 17 i (g_mxw s) ;
       if m <? g_mxw s then Err UB else Ok (m, g_t s ++ w_zero (Z.to_nat (m - g_mxw s)), false)
     else Ok (g_mxw s, g_t s, g_null s)) ;
  do t <- w_or t p ;
  Ok (mkG nul mxw (Z.max (g_nbp s) (ushort p)) t).
Fixpoint g_inserts (s : gset) (l : list Z) : res gset :=
  match l with [] => Ok s | p :: l => do s <- g_insert s p ; g_inserts s l end.
(** src/util.hpp:452-467 GNSet(Range) *)
Definition g_range (r : range) : res gset :=
  let ub := r_largest r in
  if r_size r =? 0 then Ok (mkG true 0 0 [])
  else let mxw := ushort ((if Z.land ub 63 =? 0 then 0 else 1) + Z.shiftr ub 6) in
       if mxw =? 0 then Err UB
       else do l <- r_list (Z.to_nat (r_size r)) r ;
            g_inserts (mkG false mxw (ushort (Z.shiftl mxw 6)) (w_zero (Z.to_nat mxw))) l.
(** src/util.hpp:468-491 GNSet(lb,ub); a failing assertion is undefined behaviour *)
Definition g_interval (lb ub : Z) : res gset :=
  if ub <? lb then Ok (mkG true 0 0 [])
  else let ub := ub + 1 in
       if ub <? 0 then Err UB else
       let mxw := ushort (Z.shiftr ub 6 + (if Z.land ub 63 =? 0 then 0 else 1)) in
       if mxw =? 0 then Err UB else
       do t <- w_fill (w_zero (Z.to_nat mxw)) (Z.to_nat (ub - lb)) lb ;
       Ok (mkG false mxw (ushort (Z.shiftl mxw 6)) t).
(** src/util.hpp:492-503 initializer list *)
Definition g_ofList (l : list Z) : res gset :=
  let nb := Z.shiftr (Z.of_nat (length l)) 6 in
  do mxw <- g_double 17 nb 1 ;
  g_inserts (mkG false mxw (ushort (Z.shiftl nb 6)) (w_zero (Z.to_nat mxw))) l.
(** src/util.hpp:528-543 *)
Definition g_clear (s : gset) : res gset :=
  if g_lim <? g_mxw s then Err Unmodelled else Ok (mkG (g_null s) (g_mxw s) (g_nbp s) (map (fun _ => 0%N) (g_t s))).
Fixpoint w_empty (t : list N) (ttl : nat) : bool :=
  match t with
  | [] => (ttl =? 0)%nat
  | w :: r => if (ttl =? 0)%nat then w_empty r (ttl + if (w =? 0)%N then 0 else 1) else false
  end.
Definition g_empty (s : gset) : res bool := if g_lim <? g_mxw s then Err Unmodelled else Ok (w_empty (g_t s) 0).
Definition g_size (s : gset) : res nat := if g_lim <? g_mxw s then Err Unmodelled else Ok (ns_size (g_t s)).
(** src/util.hpp:563-568 remove *)
Definition g_remove (s : gset) (p : Z) : res gset :=
  let i := w_ix p in
  if (0 <=? i) && (i <? g_mxw s) then
    do w <- w_get (g_t s) i ; do t <- w_set (g_t s) i (N.land w (wnot (w_mask p))) ; Ok (mkG (g_null s) (g_mxw s) (g_nbp s) t)
  else Ok s.
(** src/util.hpp:569-573 *)
Definition g_complement (s : gset) : res gset :=
  if g_lim <? g_mxw s then Err Unmodelled else Ok (mkG (g_null s) (g_mxw s) (g_nbp s) (map wnot (g_t s))).
(** src/util.hpp:574-579 contains; a negative p reads before the array *)
Definition g_contains (s : gset) (p : Z) : res bool :=
  let i := w_ix p in
  if g_mxw s <=? i then Ok false else do w <- w_get (g_t s) i ; Ok (negb (N.land w (w_mask p) =? 0)%N).
(** src/util.hpp:580-596 unionWith; the words present in both, then the rest of this set, or of ps if that is longer *)
Fixpoint w_union (a b : list N) : list N :=
  match a, b with x :: a, y :: b => N.lor x y :: w_union a b | [], b => b | a, [] => a end.
Definition g_union (s ps : gset) : res gset :=
  if (g_lim <? g_mxw s) || (g_lim <? g_mxw ps) then Err Unmodelled else
  if g_mxw s <? g_mxw ps then Ok (mkG false (g_mxw ps) (g_nbp ps) (w_union (g_t s) (g_t ps)))
  else Ok (mkG (g_null s) (g_mxw s) (g_nbp s) (w_union (g_t s) (g_t ps))).
(** src/util.hpp:597-604 interWith *)
Fixpoint w_inter (a b : list N) : list N :=
  match a, b with x :: a, y :: b => N.land x y :: w_inter a b | [], _ => [] | a, [] => map (fun _ => 0%N) a end.
Definition g_inter (s ps : gset) : res gset :=
  if (g_lim <? g_mxw s) || (g_lim <? g_mxw ps) then Err Unmodelled else Ok (mkG (g_null s) (g_mxw s) (g_nbp s) (w_inter (g_t s) (g_t ps))).
(** src/util.hpp:605-609 diffWith *)
Fixpoint w_diff (a b : list N) : list N :=
  match a, b with x :: a, y :: b => N.land x (wnot y) :: w_diff a b | [], _ => [] | a, [] => a end.
Definition g_diff (s ps : gset) : res gset :=
  if (g_lim <? g_mxw s) || (g_lim <? g_mxw ps) then Err Unmodelled else Ok (mkG (g_null s) (g_mxw s) (g_nbp s) (w_diff (g_t s) (g_t ps))).
(** src/util.hpp:745-747 operators | & - work on a copy of the first set; the move constructor keeps all fields *)
Definition g_or (a b : gset) : res gset := g_union (g_copy a) b.
Definition g_and (a b : gset) : res gset := g_inter (g_copy a) b.
Definition g_minus (a b : gset) : res gset := g_diff (g_copy a) b.
(** src/util.hpp:610-619 removeAbove *)
Definition g_removeAbove (s : gset) (p : Z) : res gset :=
  let p := p + 1 in
  let w := Z.shiftr p 6 in
  if g_nbp s <? p then Ok s else
  do x <- w_get (g_t s) w ;
  do t <- w_set (g_t s) w (N.land x (wbit (Z.to_N (Z.land p 63)) - 1)) ;
  Ok (mkG (g_null s) (g_mxw s) (g_nbp s) (firstn (S (Z.to_nat w)) t ++ map (fun _ => 0%N) (skipn (S (Z.to_nat w)) t))).
(** src/util.hpp:620-623 removeBelow: remove 0, 1, ..., p-1; the code after the return is unreachable *)
Fixpoint g_removes (s : gset) (n : nat) (i : Z) : res gset :=
  match n with O => Ok s | S k => do s <- g_remove s i ; g_removes s k (i + 1) end.
Definition g_removeBelow (s : gset) (p : Z) : res gset := g_removes s (Z.to_nat p) 0.
(** src/util.hpp:676 begin(): the constructor at 643-647; a null set does not look at its words *)
Definition g_begin (s : gset) : res (Z * N) :=
  if 0 <? g_mxw s then do w <- w_get (g_t s) 0 ; if g_null s then Ok (0, w) else it_adv (S (length (g_t s))) (g_t s) (g_mxw s) 0 w
  else if g_null s then Ok (0, 0%N) else it_adv (S (length (g_t s))) (g_t s) (g_mxw s) 0 0%N.
Definition g_list (s : gset) : res (list Z) := do it <- g_begin s ; it_list (S (64 * length (g_t s))) (g_t s) (g_mxw s) it.
(** src/util.hpp:678-689 rbegin *)
Fixpoint g_lastw (fuel : nat) (t : list N) (lw : Z) : res Z :=
  do w <- w_get t lw ;
  if (w =? 0)%N then match fuel with O => Err OutOfFuel | S f => g_lastw f t (lw - 1) end else Ok lw.
Fixpoint g_lastin (fuel : nat) (t : list N) (nbw lw : Z) (c found : Z * N) : res (Z * N) :=
  if fst c =? lw then
    match fuel with O => Err OutOfFuel | S f => do n <- it_next t nbw c ; g_lastin f t nbw lw n c end
  else Ok found.
Definition g_rbegin (s : gset) : res (Z * N) :=
  do lw <- g_lastw (length (g_t s)) (g_t s) (g_mxw s - 1) ;
  do w <- w_get (g_t s) lw ;
  do c <- it_adv (S (length (g_t s))) (g_t s) (g_mxw s) lw w ;
  g_lastin 65 (g_t s) (g_mxw s) (fst c) c c.
(** src/util.hpp:697-717 operator== *)
Fixpoint w_eq (a b : list N) : bool :=
  match a, b with x :: a, y :: b => (x =? y)%N && w_eq a b | [], b => forallb (fun w => (w =? 0)%N) b | a, [] => forallb (fun w => (w =? 0)%N) a end.
Definition g_eq (a b : gset) : bool := w_eq (g_t a) (g_t b).
(** src/util.hpp:718-738 operator!= *)
Fixpoint w_ne (a b : list N) : bool :=
  match a, b with x :: a, y :: b => if (x =? y)%N then w_ne a b else true
                | [], b => fold_left (fun d w => d || negb (w =? 0)%N) b false | a, [] => fold_left (fun d w => d || negb (w =? 0)%N) a false end.
Definition g_ne (a b : gset) : bool := w_ne (g_t a) (g_t b).
(** src/util.hpp:739-744 hash *)
Definition g_hash (s : gset) : N := fold_left (fun hv w => N.lxor (wrotl hv 2) w) (g_t s) 0%N.

(** ** helpers (src/util.hpp:751-827, 902-908) *)
Definition INT_MAX : Z := 2147483647.
Definition INT_MIN : Z := -2147483648.
(** min(s), max(s) *)
Definition g_min (s : gset) : res Z := do n <- g_size s ; if (0 <? n)%nat then do it <- g_begin s ; it_get it else Ok INT_MAX.
Definition g_max (s : gset) : res Z := do n <- g_size s ; if (0 <? n)%nat then do it <- g_rbegin s ; it_get it else Ok INT_MIN.
(** filter(s,p): the fresh set {} has one word *)
Definition g_filter (s : gset) (p : Z -> bool) : res gset := do l <- g_list s ; g_inserts (g_new 64) (filter p l).
(** sum(s,t) *)
Definition g_sum (s : gset) (t : Z -> Z) : res Z := do l <- g_list s ; Ok (fold_left (fun a v => a + t v) l 0).
(** min(s,f,t), max(s,f,t) *)
Definition g_minBy (s : gset) (f : Z -> bool) (t : Z -> Z) : res Z :=
  do l <- g_list s ; Ok (fold_left (fun a v => if f v then let tv := t v in if a <? tv then a else tv else a) l INT_MAX).
Definition g_maxBy (s : gset) (f : Z -> bool) (t : Z -> Z) : res Z :=
  do l <- g_list s ; Ok (fold_left (fun a v => if f v then let tv := t v in if tv <? a then a else tv else a) l INT_MIN).
(** setFrom(iota) *)
Definition g_setFrom (l : list Z) : res gset := g_inserts (g_new 64) l.
