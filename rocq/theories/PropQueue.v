(** Properties C32, C33: the circular queue of src/queue.hpp. *)
From Verif Require Import Base QueueModel QueueProofs QueueRuns.

(** A non-trivial history: initial size 1 (two slots), so the ring wraps and is resized twice, once with the front in the middle of the
    array; retract of an inner location, by value (found and not found), and of the only element. *)
Definition exQ : list (qop Z) :=
  [QEnq 7; QEnq 8; QDeq; QEnq 9; QEnq 10; QEnq 11; QDeq; QEnq 12; QEnq 13; QEnq 14; QSize; QAll; QRetract 0; QDeq; QRetractVal 13; QRetractVal 99; QAll; QPeek; QDeq; QDeq;
   QEmpty; QRetract 6; QEmpty; QDeq; QEnq 5; QClear; QSize]%Z.
Example exQ_runs : exists outs q, q_run 0%Z Z.eqb (q_new 0%Z 1) exQ outs q /\ q_elems q = [] /\ qmxs q = 8 /\
  outs = [OLoc 0; OLoc 1; OVal 7%Z; OLoc 2; OLoc 3; OLoc 0; OVal 8%Z; OLoc 4; OLoc 5; OLoc 6; ONat 6; OLocs [2; 3; 0; 4; 5; 6]; OUnit; OVal 10%Z; OBool true; OBool false;
          OLocs [4; 2; 6]; OVal 12%Z; OVal 12%Z; OVal 9%Z; OBool false; OUnit; OBool true; OVal 0%Z; OLoc 7; OUnit; ONat 0].
Proof. do 2 eexists. split; [apply q_exec_run; vm_compute; reflexivity|]. split; [|split]; vm_compute; reflexivity. Qed.
(** and one without retract *)
Definition exQ2 : list (qop Z) := [QEnq 7; QEnq 8; QDeq; QEnq 9; QEnq 10; QEnq 11; QDeq; QEnq 12; QDeq; QDeq; QDeq; QDeq; QDeq; QEnq 1; QClear; QEnq 2]%Z.
Example exQ2_runs : exists outs q, q_run 0%Z Z.eqb (q_new 0%Z 1) exQ2 outs q /\
  (forall o, In o exQ2 -> match o with QEnq _ | QDeq | QClear => True | _ => False end) /\
  vals_of outs = [7; 8; 9; 10; 11; 12; 0]%Z /\ map snd (q_elems q) = [2]%Z.
Proof.
  do 2 eexists. split; [apply q_exec_run; vm_compute; reflexivity|]. split; [|split; vm_compute; reflexivity].
  intros o Ho. cbn in Ho. repeat (destruct Ho as [<-|Ho]; [exact I|]). destruct Ho.
Qed.

(** C32: a history of enQueue / deQueue / clear delivers the values of an unbounded first-in first-out queue *)
Theorem C32_queue_fifo : forall T (dflt : T) teq sz os outs q, 1 <= sz -> q_run dflt teq (q_new dflt sz) os outs q ->
  (forall o, In o os -> match o with QEnq _ | QDeq | QClear => True | _ => False end) ->
  vals_run dflt [] os = Some (vals_of outs, map snd (q_elems q)).
Proof. exact @queue_vals. Qed.
Print Assumptions C32_queue_fifo.

(** C32/C33 in full: every history of all operations is a history of a sequence of (location, value) pairs, in which enQueue appends with
    an unused location, deQueue and peek give the oldest value, size / empty / doOnAll report the contents, retract takes out the element
    at the given location (or with the first equal value) and moves the oldest element to its place *)
Theorem C32_queue_refines_sequence : forall T (dflt : T) teq sz os outs q, 1 <= sz -> q_run dflt teq (q_new dflt sz) os outs q ->
  fifo_run dflt teq [] os outs (q_elems q).
Proof. exact @queue_fifo. Qed.
Print Assumptions C32_queue_refines_sequence.

(** operations used within their contract (retract of a live location; retract by value on a non-empty queue) are always defined *)
Theorem C32_queue_progress : forall T (dflt : T) teq sz os outs q o, 1 <= sz -> q_run dflt teq (q_new dflt sz) os outs q ->
  qlegal (q_elems q) o -> exists out q', q_do dflt teq q o = Ok (out, q').
Proof. exact @queue_progress. Qed.
Print Assumptions C32_queue_progress.

(** live elements have distinct locations *)
Theorem C33_locations_distinct : forall T (dflt : T) teq sz os outs q, 1 <= sz -> q_run dflt teq (q_new dflt sz) os outs q ->
  NoDup (map fst (q_elems q)).
Proof. exact @queue_nodup. Qed.
Print Assumptions C33_locations_distinct.

(** C33: retract removes exactly the element at the location *)
Theorem C33_retract_removes_one : forall T (dflt : T) teq sz os outs q l q', 1 <= sz -> q_run dflt teq (q_new dflt sz) os outs q ->
  In l (map fst (q_elems q)) -> q_retract dflt q l = Ok q' ->
  exists v, Permutation (q_elems q) ((l, v) :: q_elems q').
Proof. exact @queue_retract. Qed.
Print Assumptions C33_retract_removes_one.

(** C33: doOnAll visits each live location once in queue order; foldl folds the values in queue order up to the first non-null accumulator *)
Theorem C33_folds_visit_in_order : forall T (dflt : T) teq sz os outs q isnull f base, 1 <= sz -> q_run dflt teq (q_new dflt sz) os outs q ->
  q_doOnAll q = map fst (q_elems q) /\ folds isnull f base (map snd (q_elems q)) (q_foldl isnull f q base).
Proof. exact @queue_folds. Qed.
Print Assumptions C33_folds_visit_in_order.

(** retract of an inner element does not keep the order of the others (finding): after 1 2 3 4 without the 3 the queue is 2 1 4 *)
Theorem C33_retract_order_refuted : exists (os : list (qop Z)) outs q, q_run 0%Z Z.eqb (q_new 0%Z 8) os outs q /\
  os = [QEnq 1; QEnq 2; QEnq 3; QEnq 4; QRetract 2]%Z /\ map snd (q_elems q) = [2; 1; 4]%Z.
Proof. exists [QEnq 1; QEnq 2; QEnq 3; QEnq 4; QRetract 2]%Z. do 2 eexists. split; [apply q_exec_run; vm_compute; reflexivity|]. split; vm_compute; reflexivity. Qed.
Print Assumptions C33_retract_order_refuted.

(** an initial size of 0 gives a queue whose first two slots share one location (finding): enQueue 1, enQueue 2, deQueue yields 2 *)
Theorem C32_size_zero_refuted : exists (os : list (qop Z)) outs q, q_run 0%Z Z.eqb (q_new 0%Z 0) os outs q /\
  os = [QEnq 1; QEnq 2; QDeq]%Z /\ vals_of outs = [2]%Z /\ vals_run 0%Z [] os = Some ([1], [2])%Z.
Proof. exists [QEnq 1; QEnq 2; QDeq]%Z. do 2 eexists. split; [apply q_exec_run; vm_compute; reflexivity|]. split; [|split]; vm_compute; reflexivity. Qed.
Print Assumptions C32_size_zero_refuted.
