(** Property C51: the bit reversal helpers of src/util.hpp. *)
From Verif Require Import Base BitModel BitProofs.
Local Open Scope N_scope.

(** C51: revBitsOfLong maps bit i to bit 63-i and stays within 64 bits *)
Theorem C51_revBitsOfLong : forall v, v < 2 ^ 64 -> revBitsOfLong v < 2 ^ 64 /\ forall i, i < 64 -> N.testbit (revBitsOfLong v) i = N.testbit v (63 - i).
Proof. intros v H. split; [apply revBitsOfLong_lt|intros i L; now apply revBitsOfLong_spec]. Qed.
Print Assumptions C51_revBitsOfLong.

(** C51: revBitsOfByte *)
Theorem C51_revBitsOfByte : forall b, b < 256 -> revBitsOfByte b < 256 /\ forall i, i < 8 -> N.testbit (revBitsOfByte b) i = N.testbit b (7 - i).
Proof. intros b H. split; [now apply (revBitsOfByte_spec b 0)|intros i L; now apply revBitsOfByte_spec]. Qed.
Print Assumptions C51_revBitsOfByte.

(** C51, partial: revBitsOfWord is right in its 56 low bits; the full statement would have N.testbit w (63 - i) for all i < 64.
    Missing: the loop of the code stops one byte early, so bits 56..63 are whatever the local variable held ([junk]). *)
Theorem C51_revBitsOfWord_partial : forall junk w i, i < 64 ->
  N.testbit (revBitsOfWord junk w) i = if i <? 56 then N.testbit w (63 - i) else N.testbit junk i.
Proof. exact revBitsOfWord_spec. Qed.
Print Assumptions C51_revBitsOfWord_partial.
Theorem C51_revBitsOfWord_refuted : exists junk w, w < 2 ^ 64 /\ N.testbit (revBitsOfWord junk w) 63 <> N.testbit w 0.
Proof. exists 0, 1. split; [reflexivity|]. vm_compute. discriminate. Qed.
Print Assumptions C51_revBitsOfWord_refuted.

Example C51_nontrivial : revBitsOfLong 13 = 12682136550675316736 /\ revBitsOfLong 18446744073709551614 = 9223372036854775807 /\
  revBitsOfByte 13 = 176 /\ revBitsOfWord 0 3458764513820540928 = 12 /\ revBitsOfLong 3458764513820540928 = 12.
Proof. repeat split; vm_compute; reflexivity. Qed.
