(** Property C43: ANList (src/node.hpp) behaves like a sequence without duplicates. *)
From Verif Require Import Base ListModel ListSpec ListProofs.

Definition exL : list lop := [LPush 0 5; LPush 0 6; LPush 1 9; LPush 0 7; LPush 0 8; LRemove 0 6; LAll 0; LRev 0; LPop 0; LPush 1 6; LRemove 0 5; LAll 0; LRev 0; LAll 1; LSize 1;
  LMember 1 6; LMember 0 6; LFront 0; LBack 1; LPop 0; LFront 0; LPush 0 5; LClear 1; LPush 1 9; LAll 1; LRev 1].
Example exL_runs : may_run (fun _ => []) exL /\ exists s, l_run false 8 lst0 exL = Ok ([OUnit; OUnit; OUnit; OUnit; OUnit; OUnit; OL [5; 7; 8]; OL [8; 7; 5]; OUnit; OUnit; OUnit;
  OL [7]; OL [7]; OL [9; 6]; ON 2; OB true; OB false; OP (Some 7); OP (Some 6); OUnit; OP None; OUnit; OUnit; OUnit; OL [9]; OL [9]], s).
Proof.
  split; [unfold exL|eexists; vm_compute; reflexivity].
  repeat (match goal with |- may_run _ (?o :: _) => eapply mr_cons;
    [ first [ apply m_read; exact I
            | apply m_push; intros [|[|b]]; cbn; intuition discriminate
            | apply (m_pop _ 0 [5; 7] 8); reflexivity | apply (m_pop _ 0 [] 7); reflexivity
            | apply (m_remove _ 0 [5] 6 [7; 8]); reflexivity | apply (m_remove _ 0 [] 5 [7]); reflexivity | apply m_clear ] | ] | |- may_run _ [] => apply mr_nil end).
Qed.

(** C43: every history in which a node is pushed only while it is in no list, pop_back is called only on a non-empty list and only members are removed
    runs to its end and is a history of sequences; several lists over the same nodes.  ([fuel] bounds the loops of size, iteration and confirmMembership: the
    number of pushes suffices, so they end.) *)
Theorem C43_list_is_sequence : forall fuel os, may_run (fun _ => []) os -> pushes os <= fuel ->
  exists rs s E, l_run false fuel lst0 os = Ok (rs, s) /\ ls_run (fun _ => []) os rs E.
Proof. exact list_sequences. Qed.
Print Assumptions C43_list_is_sequence.

(** remove needs a member: removing a node that is in no list empties the list *)
Theorem C43_remove_nonmember_refuted : exists s, l_run false 8 lst0 [LPush 0 5; LPush 0 6; LRemove 0 7; LAll 0; LSize 0] = Ok ([OUnit; OUnit; OUnit; OL []; ON 0], s).
Proof. eexists. vm_compute. reflexivity. Qed.
Print Assumptions C43_remove_nonmember_refuted.

(** with assertions on, clear() followed by push_back of a former member fails, because clear() leaves the links of the nodes *)
Theorem C43_clear_keeps_links_refuted : may_run (fun _ => []) [LPush 0 5; LPush 0 6; LClear 0; LPush 0 5] /\ l_run true 8 lst0 [LPush 0 5; LPush 0 6; LClear 0; LPush 0 5] = Err UB /\
  isOk (l_run false 8 lst0 [LPush 0 5; LPush 0 6; LClear 0; LPush 0 5]).
Proof.
  split.
  - repeat (eapply mr_cons; [first [apply m_push; intros [|[|b]]; cbn; intuition discriminate | apply m_clear]|]). apply mr_nil.
  - split; [vm_compute; reflexivity|]. eexists. vm_compute. reflexivity.
Qed.
Print Assumptions C43_clear_keeps_links_refuted.
