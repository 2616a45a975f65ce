(** Concrete cases for C85. *)
From Verif Require Import Base DDModel DDSpec DDRestricted DDExact DDExamples TabModel SaveModel SaveEnd.
Definition t85 : tab := mkTab [rw 0 0 2 4; rw 0 1 1 1; rw 2 0 5 3; rw 1 0 2 2; rw 1 1 3 (-9); rw 1 2 4 6; rw 4 0 5 0] 5 [] [] None None true.
Lemma save_case :
  (closed (tabP t85) (inTab t85) /\ acyclic (tabP t85) (inTab t85) (fun s => s) /\ p_local (tabP t85) = None) /\
  (do d <- run (tabP t85) (exSrt (tabP t85)) 6 SExact 0 ; saveGraph (tabP t85) d) =
    Ok [GNode 0 true false; GArc 0 2 4 0; GArc 0 3 1 1; GNode 3 true false; GArc 3 2 2 0; GArc 3 4 (-9) 1; GArc 3 5 6 2;
        GNode 2 true false; GArc 2 1 3 0; GNode 4 true false; GNode 5 true false; GArc 5 1 0 0; GNode 1 true true] /\
  (do d <- run (tabP t85) (exSrt (tabP t85)) 6 SExact 0 ; print_dd d) =
    Ok [GArc 0 2 4 0; GArc 0 3 1 1; GArc 3 2 2 0; GArc 3 4 (-9) 1; GArc 3 5 6 2; GArc 2 1 3 0; GArc 5 1 0 0].
Proof.
  split; [|split; vm_compute; reflexivity].
  split; [apply tab_closed; reflexivity|]. split; [intros s l s' _ _ _; apply tab_acyclic; reflexivity|reflexivity].
Qed.
(** a diagram that has not been compiled has no sink *)
Lemma save_uncompiled : forall St (P : prob St) d rs rb rl, started d rs rb rl -> saveGraph P d = Err UB.
Proof.
  intros St P d rs rb rl [A1 A2 A3 A4 A5 A6 A7 A8 A9 A10 A11 A12]. destruct d as [nd nn ed ne an rt tr ex]. cbn in *. subst.
  unfold saveGraph, gr_start, nbParents. cbn [d_an d_nd]. reflexivity.
Qed.
