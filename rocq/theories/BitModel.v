(** 64-bit words as numbers: the bit operations used by src/util.hpp.  Executable definitions only. *)
From Verif Require Import Base.

Definition W64 : N := 18446744073709551616.  (* 2^64 *)
(** arithmetic of unsigned long long wraps around *)
Definition trunc64 (x : N) : N := (x mod W64)%N.
(** ~w *)
Definition wnot (w : N) : N := N.lxor w (W64 - 1).
(** 1ull << b, 0 <= b <= 63 *)
Definition wbit (b : N) : N := N.shiftl 1 b.
(** -w *)
Definition wneg (w : N) : N := trunc64 (W64 - w).
(** std::rotl(w,r), 0 < r < 64 *)
Definition wrotl (w r : N) : N := N.lor (trunc64 (N.shiftl w r)) (N.shiftr w (64 - r)).

(** __builtin_ctzl, w <> 0: index of the lowest set bit *)
Fixpoint pctz (p : positive) : N := match p with xO q => N.succ (pctz q) | _ => 0%N end.
Definition wctz (w : N) : option N := match w with N0 => None | Npos p => Some (pctz p) end.
(** 63 - __builtin_clzll, w <> 0: index of the highest set bit *)
Definition wmsb (w : N) : option N := match w with N0 => None | Npos p => Some (N.log2 (Npos p)) end.
(** __builtin_popcountll *)
Fixpoint ppop (p : positive) : nat := match p with xH => 1 | xO q => ppop q | xI q => S (ppop q) end.
Definition wpop (w : N) : nat := match w with N0 => 0 | Npos p => ppop p end.

(** src/util.hpp:51-54 *)
Definition revBitsOfByte (b : N) : N :=
  (N.shiftr (trunc64 (N.land (trunc64 (b * 2149582850)) 36578664720 * 4311810305)) 32 mod 256)%N.
(** src/util.hpp:65-73: one exchange of blocks *)
Definition revStage (k m v : N) : N := N.lor (N.land (N.shiftr v k) m) (trunc64 (N.shiftl (N.land v m) k)).
(** src/util.hpp:63-77 *)
Definition revBitsOfLong (v : N) : N :=
  let v := revStage 1 6148914691236517205 v in
  let v := revStage 2 3689348814741910323 v in
  let v := revStage 4 1085102592571150095 v in
  let v := revStage 8 71777214294589695 v in
  let v := revStage 16 281470681808895 v in
  N.lor (N.shiftr v 32) (trunc64 (N.shiftl v 32)).
(** src/util.hpp:55-62, little endian: byte i of the result, 0 <= i < 7, is the reversal of byte 7-i; byte 7 is not written and keeps the
    indeterminate content [junk] of the local variable *)
Definition byteOf (w : N) (i : nat) : N := (N.shiftr w (8 * N.of_nat i) mod 256)%N.
Definition ofBytes (l : list N) : N := fold_right (fun b acc => b + 256 * acc)%N 0%N l.
Definition revBitsOfWord (junk w : N) : N :=
  ofBytes (map (fun i => revBitsOfByte (byteOf w (7 - i))) (seq 0 7) ++ [byteOf junk 7]).
