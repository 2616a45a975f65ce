(** C44: arc bookkeeping *)
From Verif Require Import Base ArcModel ArcSpec ArcProofs.

(** the relaxed diagrams only add arcs and transfer the arcs of merged nodes: after any such history of any length the vectors of all nodes list exactly the
    edges of the multigraph, the donor of a transfer has none left, and nothing is read out of bounds *)
Theorem C44_add_transfer os G : g_run [] os G -> existsb is_disconnect os = false -> exists s, a_run arcs0 os = Ok s /\ coherent s G.
Proof. intros H Hd. destruct (arcs_merge os arcs0 [] G cinv0 H Hd) as [s [E Hc]]. exists s. split; [exact E | exact (cinv_coherent _ _ Hc)]. Qed.
(** the restricted diagrams only add arcs and disconnect truncated nodes *)
Theorem C44_add_disconnect os G : g_run [] os G -> existsb is_transfer os = false -> exists s, a_run arcs0 os = Ok s /\ coherent s G.
Proof. intros H Hd. destruct (arcs_disc os arcs0 [] G dinv0 H Hd) as [s [E Hc]]. exists s. split; [exact E | exact (cinv_coherent _ _ Hc)]. Qed.

(** two nodes 1 and 2 reached from 0 by parallel edges and from 5, merged into 3, then 3 merged into 4 which has a child 6 *)
Definition exA : list aop := [AAdd 10 0 1; AAdd 11 0 1; AAdd 12 0 2; AAdd 13 5 2; AAdd 14 5 1; ATransfer 1 3; ATransfer 2 3; AAdd 15 0 4; AAdd 16 4 6; AAdd 17 3 7; ATransfer 3 4].
Definition exAG : graph := [(10, 0, 4); (11, 0, 4); (12, 0, 4); (13, 5, 4); (14, 5, 4); (15, 0, 4); (16, 4, 6); (17, 4, 7)].
Ltac fresh_tac := first [discriminate | intros; let Hi := fresh in intros Hi; cbn [In] in Hi; repeat (destruct Hi as [Hi|Hi]; [discriminate Hi|]); destruct Hi].
Ltac g_tac := match goal with
  | |- g_run _ [] _ => apply gr_nil
  | |- g_run _ (_ :: _) _ => eapply gr_cons; [constructor; cbn; [> fresh_tac ..] | cbn [app map redirect filter Nat.eqb negb andb]]
  end.
Example exA_hyp : g_run [] exA exAG /\ existsb is_disconnect exA = false.
Proof. split; [unfold exA; repeat g_tac | reflexivity]. Qed.
Example exA_result : match a_run arcs0 exA with Ok s => (sd_v (a_pa s) 4, sd_v (a_ch s) 0, sd_v (a_ch s) 5, sd_v (a_ch s) 4, sd_v (a_pa s) 3, sd_v (a_ch s) 3) | Err _ => ([], [], [], [], [], []) end
  = ([15; 10; 11; 14; 12; 13], [10; 11; 12; 15], [13; 14], [16; 17], [], []).
Proof. vm_compute. reflexivity. Qed.
Definition exD : list aop := [AAdd 10 0 1; AAdd 11 0 1; AAdd 12 0 2; AAdd 13 5 2; AAdd 14 5 1; ADisconnect 1; AAdd 15 0 3; ADisconnect 2].
Example exD_hyp : g_run [] exD [(15, 0, 3)] /\ existsb is_transfer exD = false.
Proof. split; [unfold exD; repeat g_tac | reflexivity]. Qed.

(** finding: transferArcs leaves a wrong index in the transferred edges, so disconnecting a node that took part in a transfer removes somebody else's edge.
    Here edge 10 (0 -> 3 after the transfer) is disconnected with node 3, and node 0 loses edge 12 instead *)
Theorem C44_mixed_refuted : exists os G s, g_run [] os G /\ a_run arcs0 os = Ok s /\ ~ coherent s G.
Proof.
  set (os := [AAdd 10 0 1; AAdd 11 0 2; ATransfer 1 3; AAdd 12 0 4; ADisconnect 3]).
  assert (E : match a_run arcs0 os with Ok s => Some (sd_v (a_ch s) 0) | Err _ => None end = Some [10; 11]) by (vm_compute; reflexivity).
  destruct (a_run arcs0 os) as [s|] eqn:Er; [|discriminate]. injection E as E.
  exists os, [(11, 0, 2); (12, 0, 4)], s. split; [unfold os; repeat g_tac|]. split; [exact Er|]. intros [_ H _ _ _]. destruct (H 0) as [_ H0].
  destruct (proj1 (H0 10)) as [b [Hb|[Hb|[]]]]; [rewrite E; left; reflexivity | discriminate Hb | discriminate Hb].
Qed.

Print Assumptions C44_add_transfer.
Print Assumptions C44_add_disconnect.
Print Assumptions C44_mixed_refuted.
