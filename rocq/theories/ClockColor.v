(** The time limits of the colouring programs (coloring.cpp:256, coloring2.cpp:219, coloring3.cpp:270). *)
From Verif Require Import Base DDModel DDSpec DDFrame SearchModel SearchProofs SearchDyn ColorModel ColorSpec ColorProofs ColorTop ColorEnd ClockModel ClockProofs.
Local Open Scope Z_scope.

Theorem color_limit K es UB : simple_graph K es -> (1 <= K)%nat -> Z.of_nat UB < 2147483647 -> forall St (PP : option Z -> prob St), program K es UB PP ->
  forall srt dfuel mxw, (forall d l, Permutation (srt d l) l) -> (K + 1 < dfuel)%nat -> (N.of_nat mxw < 4294967296)%N ->
  forall T start clk k, 1 <= T -> start + T * 1000000 <= clk k ->
  exists s e, csearch PP srt dfuel (ck_limit T start clk) (S k) mxw None = Ok (s, e) /\
    (b_primal (s_b s) <> 2147483647 -> colouring K es (b_inc (s_b s)) /\ uses (b_inc (s_b s)) (Z.to_nat (b_primal (s_b s)))).
Proof.
  intros G HK HU St PP PR srt dfuel mxw A B C T start clk k HT Hk.
  assert (Es : start_bound (PP None) None = 2147483647).
  { destruct (program_family K es UB PP HK PR) as (rep & live & vtx & sup & F). exact (sent K es UB PP rep live vtx sup F). }
  destruct (pr_dyn K es UB G HK HU PP PR (start_bound (PP None) None) ltac:(rewrite Es; lia)) as (I & rank & DY & SE).
  destruct (limitD_ends (PP None) _ I rank K srt dfuel mxw (SE srt dfuel mxw A B C) None (be_refl _ _) DY T start clk k HT Hk) as (s & e & E).
  exists s, e. split; [exact E|]. intros N. destruct (pr_found K es UB G HK HU PP PR srt dfuel mxw _ A B C (S k) s e E) as [X _]. destruct (X N) as (X1 & X2 & _). split; [exact X1|exact X2].
Qed.
