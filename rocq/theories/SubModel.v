(** Model of NatSet(int ofs,const NatSet& s), that is ofs - s (src/util.hpp:160-260, 398). *)
From Verif Require Import Base BitModel SetModel.
Local Open Scope Z_scope.

(** shifts of 64-bit words; a shift by 64 or more, or by a negative amount, is undefined *)
Definition w_shl (x : N) (k : Z) : res N := if (0 <=? k) && (k <? 64) then Ok (trunc64 (N.shiftl x (Z.to_N k))) else Err UB.
Definition w_shr (x : N) (k : Z) : res N := if (0 <=? k) && (k <? 64) then Ok (N.shiftr x (Z.to_N k)) else Err UB.
(** (1ull << k) - 1 *)
Definition w_low (k : Z) : res N := do b <- w_shl 1 k ; Ok (N.sub b 1).
(** src/util.hpp:182-183: lw, index of the last non-zero word; [rt] is the reversed word list, [lw] the index of its head *)
Fixpoint w_last (rt : list N) (lw : Z) : option (Z * N) :=
  match rt with [] => None | w :: r => match wmsb w with Some b => Some (lw, b) | None => w_last r (lw - 1) end end.
(** for(int i = lo; i < hi; i++) body(i), hi = lo + n, threading a state *)
Fixpoint w_for {A} (n : nat) (i : Z) (body : Z -> A -> res A) (a : A) : res A :=
  match n with O => Ok a | S k => do a <- body i a ; w_for k (i + 1) body a end.
(** src/util.hpp:194-196: the words 0..lw reversed, bits and order *)
Definition sub_flip (s : list N) (lw : Z) : res (list N) :=
  w_for (Z.to_nat (lw + 1)) 0 (fun i t => do w <- w_get s i ; w_set t (lw - i) (revBitsOfLong w)) (w_zero (length s)).
(** src/util.hpp:217-220 and 233-234: (i+1 == nbw) ? 0 : _t[i+1] & ((1ull << (x+1)) - 1), then (_t[i] >> x) | (next << (64-x)) *)
Definition sub_word (t : list N) (i x : Z) : res N :=
  do next <- (if i + 1 =? Z.of_nat (length t) then Ok 0%N else do w <- w_get t (i + 1) ; do m <- w_low (x + 1) ; Ok (N.land w m)) ;
  do w <- w_get t i ; do a <- w_shr w x ; do b <- w_shl next (64 - x) ; Ok (N.lor a b).
(** src/util.hpp:213-222 *)
Definition sub_down (t : list N) (lw x : Z) : res (list N) :=
  w_for (Z.to_nat (Z.min lw (Z.of_nat (length t) - 1) + 1)) 0 (fun i nt => do w <- sub_word t i x ; w_set nt i w) (w_zero (length t)).
(** src/util.hpp:229-238: the words are cleared while they are being read *)
Definition sub_move (t : list N) (lw delta by_ : Z) : res (list N) :=
  do (t, nt) <- w_for (Z.to_nat (lw + 1)) 0 (fun i p => let '(t, nt) := p in
      do w <- sub_word t i by_ ; do nt <- w_set nt (i + delta) w ;
      do t <- w_for (Z.to_nat delta) i (fun j t => w_set t j 0%N) t ; Ok (t, nt)) (t, w_zero (length t)) ;
  Ok nt.
(** src/util.hpp:239-249 *)
Definition sub_up (t : list N) (lw delta up : Z) : res (list N) :=
  do (_, nt) <- w_for (Z.to_nat (Z.min (lw + 1) (Z.of_nat (length t) - 1) + 1)) 0 (fun i p => let '(next, nt) := p in
      do w <- w_get t i ; do a <- w_shl w up ; do nt <- w_set nt i (N.lor a next) ;
      do m <- w_low (64 - up) ; do next <- w_shr (N.land w (wnot m)) (64 - up) ; Ok (next, nt)) (0%N, w_zero (length t)) ;
  do t <- w_for (Z.to_nat delta) 0 (fun i t => w_set t i 0%N) t ;
  w_for (Z.to_nat (Z.of_nat (length t) - delta)) delta (fun i t => do w <- w_get nt (i - delta) ; w_set t i w) t.
(** src/util.hpp:250-257 *)
Definition sub_words (t : list N) (delta : Z) : res (list N) :=
  w_for (Z.to_nat (Z.of_nat (length t) - delta)) delta (fun i nt => do w <- w_get t (i - delta) ; w_set nt i w) (w_zero (length t)).
(** src/util.hpp:160-260 *)
Definition ns_sub (ofs : Z) (s : list N) : res (list N) :=
  match w_last (rev s) (Z.of_nat (length s) - 1) with
  | None => Ok (w_zero (length s))
  | Some (lw, b) =>
    let lv := lw * 64 + Z.of_N b in
    let dec := ofs - lv in
    do t <- sub_flip s lw ;
    do w0 <- w_get t 0 ;
    match wctz w0 with
    | None => Err Unmodelled   (* ffsll(0): not reached, see sub_nbs *)
    | Some nbs =>
      let nbs := Z.of_N nbs in
      if dec <? nbs then sub_down t lw (nbs - dec)
      else
        let delta := Z.shiftr dec 6 in
        let by_ := 64 - Z.land dec 63 - (64 - nbs) in
        if 0 <? by_ then sub_move t lw delta by_
        else if by_ <? 0 then sub_up t lw delta (- by_)
        else if delta =? 0 then Ok t else sub_words t delta
    end
  end.
