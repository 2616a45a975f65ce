(** Models of the examples examples/knapsack.cpp and examples/knapsack2.cpp as problems for the engine. *)
From Verif Require Import Base DDModel.
From Coq Require Import Floats.SpecFloat.

(** examples/knapsack.cpp:18-24 SKS = (n, c); n as nat (always in 0..I), c an unbounded integer (no overflow) *)
Definition sks := (nat * Z)%type.
(** examples/knapsack.cpp:26-30 *)
Definition sks_eqb (a b : sks) : bool := (fst a =? fst b) && (snd a =? snd b)%Z.

Section Knap.
(** the instance: weight and profit vectors (knapsack.cpp:39-46), I is their common length *)
Variables (weight profit : list Z) (capa : Z).
Definition kn_I : nat := length weight.
Definition wt (n : nat) : Z := nth n weight 0%Z.
Definition pf (n : nat) : Z := nth n profit 0%Z.

(** knapsack.cpp:94-98: Range::close(s.c >= weight[s.n],0) enumerates 1,0 or 0 (Range: RangeModel.v) *)
Definition kn_lgf (s : sks) : list Z := if (wt (fst s) <=? snd s)%Z then [1%Z; 0%Z] else [0%Z].
(** knapsack2.cpp:115: Range::close(0,s.c >= w[s.n]) enumerates 0,1 or 0 *)
Definition kn2_lgf (s : sks) : list Z := if (wt (fst s) <=? snd s)%Z then [0%Z; 1%Z] else [0%Z].
(** knapsack.cpp:99-106 *)
Definition kn_stf (s : sks) (label : Z) : option sks :=
  if (Z.of_nat (fst s) <? Z.of_nat kn_I - 1)%Z then
    if (label =? 0)%Z then Some (S (fst s), snd s) else Some (S (fst s), (snd s - wt (fst s))%Z)
  else Some (kn_I, 0%Z).
(** knapsack2.cpp:116-120 *)
Definition kn2_stf (s : sks) (label : Z) : option sks :=
  if (Z.of_nat (fst s) <? Z.of_nat kn_I - 1)%Z then Some (S (fst s), (snd s - label * wt (fst s))%Z)
  else Some (kn_I, 0%Z).
(** knapsack.cpp:107-109 *)
Definition kn_scf (s : sks) (label : Z) : Z := (pf (fst s) * label)%Z.
(** knapsack.cpp:110-114: C++ integer division truncates *)
Definition kn_smf (a b : sks) : option sks :=
  if (Z.abs (snd a - snd b) <=? Z.quot (2 * capa) 100)%Z then Some (Nat.max (fst a) (fst b), Z.max (snd a) (snd b)) else None.
(** knapsack2.cpp:135-142 *)
Definition kn2_smf (a b : sks) : option sks :=
  if (Z.abs (snd a - snd b) <=? 1)%Z then Some (Nat.max (fst a) (fst b), Z.max (snd a) (snd b)) else None.
(** knapsack.cpp:115-117 *)
Definition kn_eqs (s : sks) : bool := fst s =? kn_I.
(** knapsack2.cpp:144 *)
Definition kn2_dom (a b : sks) : bool := (snd b <=? snd a)%Z.

(** knapsack2.cpp:121-133 over the remaining items; [frac rc w p] stands for floor(((double)rc / w) * p) *)
Fixpoint greedy (frac : Z -> Z -> Z -> Z) (items : list (Z * Z)) (rc : Z) : Z :=
  match items with
  | [] => 0%Z
  | (w, p) :: r => if (w <=? rc)%Z then (p + greedy frac r (rc - w))%Z else frac rc w p
  end.
Definition kn2_local (frac : Z -> Z -> Z -> Z) (s : sks) (ctx : bool) : Z :=
  greedy frac (skipn (fst s) (combine weight profit)) (snd s).

(** knapsack2.cpp:41-53 getUB: the greedy prefix.  Past the last item weight[cnt] is read out of bounds. *)
Fixpoint getUB_loop (items : list (Z * Z)) (rC val : Z) : res Z :=
  if (0 <=? rC)%Z then
    match items with
    | [] => Err UB
    | (w, p) :: r => if (w <=? rC)%Z then getUB_loop r (rC - w) (val + p) else Ok val
    end
  else Ok val.
Definition kn2_getUB : res Z := getUB_loop (combine weight profit) capa 0.

(** knapsack.cpp:119-126: makeDD(init,target,lgf,stf,scf,smf,sEq,labels) with Maximize *)
Definition knapsack : prob sks :=
  mkProb sks (0, capa) (kn_I, 0%Z) kn_lgf kn_stf kn_scf kn_smf kn_eqs None None false sks_eqb.
(** knapsack2.cpp:146-153 *)
Definition knapsack2 (frac : Z -> Z -> Z -> Z) : prob sks :=
  mkProb sks (0, capa) (kn_I, 0%Z) kn2_lgf kn2_stf kn_scf kn2_smf kn_eqs (Some (kn2_local frac)) (Some kn2_dom) false sks_eqb.
End Knap.

(** floor(((double)rc / w) * p) in exact arithmetic *)
Definition frac_exact (rc w p : Z) : Z := (rc * p / w)%Z.

(** knapsack2.cpp:129 in IEEE binary64, round to nearest even: Coq's executable specification of floating-point arithmetic
    (Coq.Floats.SpecFloat, no axioms).  For integers below 2^53, as here, the conversions int -> double are exact. *)
Definition z2f (z : Z) : spec_float :=
  match z with
  | Z0 => S754_zero false
  | Zpos p => binary_normalize 53 1024 (Zpos p) 0 false
  | Zneg p => binary_normalize 53 1024 (Zneg p) 0 false
  end.
Definition f_floor (f : spec_float) : Z :=
  match f with
  | S754_finite s m e =>
    let v := if s then Zneg m else Zpos m in
    if (0 <=? e)%Z then (v * 2 ^ e)%Z else (v / 2 ^ (- e))%Z
  | _ => 0%Z
  end.
Definition frac_double (rc w p : Z) : Z := f_floor (SFmul 53 1024 (SFdiv 53 1024 (z2f rc) (z2f w)) (z2f p)).
