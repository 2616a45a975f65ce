(** Property C50: re-using a diagram. *)
From Verif Require Import Base DDModel DDSpec DDExact DDExamples KnapModel.

(** C50: whatever diagrams d1, d2 hold from before (in particular a used and a new one), apply gives the same diagram, the same
    bounds and the same verdict on both, for each strategy; errors included. *)
Theorem C50_reuse_is_fresh : forall St (P : prob St) srt fuel s (d1 d2 : dd St) from b,
  apply P srt fuel s d1 from b = apply P srt fuel s d2 from b.
Proof.
  intros St P srt fuel s d1 d2 from b. unfold apply.
  change (initFrom P d1 from) with (with_dexact (initFrom P d2 from) (d_exact d1)). now rewrite compute_dexact.
Qed.
Print Assumptions C50_reuse_is_fresh.

(** a diagram full of nodes from an earlier compilation, and a new one *)
Example C50_nontrivial : exists d1, run exP (exSrt exP) 10 (SRelaxed 3) (initialBest exP) = Ok d1 /\ d_nn d1 <> 0 /\ d_an d1 <> [] /\
  d_exact d1 = false /\
  exists d', apply exP (exSrt exP) 10 (SRestricted 9) d1 (mkNode (1%nat, 7%Z) [] [] [1%Z] 6 0 0 true) (mkBounds (initialBest exP) [] []) = Ok d'.
Proof.
  eexists. split; [vm_compute; reflexivity|]. split; [discriminate|]. split; [discriminate|]. split; [reflexivity|].
  eexists. vm_compute. reflexivity.
Qed.
