(** Properties C34, C35: the binary heap of src/heap.hpp. *)
From Verif Require Import Base HeapModel HeapProofs HeapRuns.

(** A non-trivial history used as example: starts with one slot (so the array grows four times),
    raw inserts + buildHeap, decrease, remove of an inner element, extractions.  Order: smaller first. *)
Definition exOps : list (hop Z) :=
  [HInsertHeap 5%Z; HInsertHeap 3%Z; HInsertHeap 8%Z; HInsertsBuild [7%Z; 1%Z; 9%Z; 2%Z; 3%Z];
   HDecrease 2; HRemove 1; HExtractMax; HInsertHeap 0%Z; HExtractMax; HExtractMax].
Definition zpred (z : Z) : Z := (z - 1)%Z.

Example exOrder : SWO Z.ltb /\ forall v, (v <? zpred v)%Z = false.
Proof. split; [constructor; intros; lia|unfold zpred; intros; lia]. Qed.

Example exOps_runs : exists outs h, heap_run Z.ltb 0%Z zpred (heap_new 0%Z 1) exOps outs h
  /\ outs = [HLoc 1; HLoc 2; HLoc 3; HLocs [4; 5; 6; 7; 8]; HUnit; HVal 5%Z; HVal 1%Z; HLoc 5; HVal 0%Z; HVal 2%Z]
  /\ length (heap_elems h) = 5.
Proof.
  do 2 eexists. split; [apply heap_exec_run; vm_compute; reflexivity|split; vm_compute; reflexivity].
Qed.

(** C34: whatever the history of insertHeap / insert*+buildHeap / decrease / remove / extractMax / clear,
    extractMax returns an element no other element beats and removes exactly that one. *)
Theorem C34_extractMax_returns_best : forall T (ord : T -> T -> bool) dflt dec,
  SWO ord -> (forall v, ord v (dec v) = false) ->
  forall sz os outs h v h', 1 <= sz -> heap_run ord dflt dec (heap_new dflt sz) os outs h ->
  heap_extractMax ord h = Some (v, h') ->
  (exists l, Permutation (heap_elems h) ((l, v) :: heap_elems h')) /\
  (forall l w, In (l, w) (heap_elems h) -> ord w v = false).
Proof. exact @heap_extract_after. Qed.
Print Assumptions C34_extractMax_returns_best.

(** C34/C35 in full: every history of the heap is a history of a bag of (location, value) pairs, in which insertion
    returns an unused location, extraction a best element, removal and decrease act on the given location only. *)
Theorem C34_heap_refines_bag : forall T (ord : T -> T -> bool) dflt dec,
  SWO ord -> (forall v, ord v (dec v) = false) ->
  forall sz os outs h, 1 <= sz -> heap_run ord dflt dec (heap_new dflt sz) os outs h ->
  exists b, bag_run ord dec [] os outs b /\ Permutation (heap_elems h) b.
Proof. exact @heap_refines_bag. Qed.
Print Assumptions C34_heap_refines_bag.

(** operations used within their contract are always defined *)
Theorem C34_heap_progress : forall T (ord : T -> T -> bool) dflt dec,
  SWO ord -> (forall v, ord v (dec v) = false) ->
  forall sz os outs h o, 1 <= sz -> heap_run ord dflt dec (heap_new dflt sz) os outs h ->
  legal (heap_elems h) o -> exists out h', heap_do ord dflt dec h o = Some (out, h').
Proof. exact @heap_progress. Qed.
Print Assumptions C34_heap_progress.

(** size() and empty() agree with the contents *)
Theorem C34_heap_counts : forall T (ord : T -> T -> bool) dflt dec,
  SWO ord -> (forall v, ord v (dec v) = false) ->
  forall sz os outs h, 1 <= sz -> heap_run ord dflt dec (heap_new dflt sz) os outs h ->
  heap_size h = length (heap_elems h) /\ (heap_empty h = true <-> heap_elems h = []).
Proof. exact @heap_counts. Qed.
Print Assumptions C34_heap_counts.

(** C35 *)
Theorem C35_locations_stay_valid : forall T (ord : T -> T -> bool) dflt dec,
  SWO ord -> (forall v, ord v (dec v) = false) ->
  forall sz os outs h o out h' l v, 1 <= sz -> heap_run ord dflt dec (heap_new dflt sz) os outs h ->
  In (l, v) (heap_elems h) -> legal (heap_elems h) o -> heap_do ord dflt dec h o = Some (out, h') ->
  match o with
  | HInsertHeap _ | HInsertsBuild _ => In (l, v) (heap_elems h')
  | HExtractMax => In (l, v) (heap_elems h') \/ (out = HVal v /\ Permutation (heap_elems h) ((l, v) :: heap_elems h'))
  | HRemove l' => if l' =? l then out = HVal v /\ Permutation (heap_elems h) ((l, v) :: heap_elems h')
                  else In (l, v) (heap_elems h')
  | HDecrease l' => In (l, if l' =? l then dec v else v) (heap_elems h')
  | HClear => heap_elems h' = []
  end.
Proof. exact @heap_loc_persists. Qed.
Print Assumptions C35_locations_stay_valid.

(** Heap::find also sees elements that are no longer in the heap (finding F-heap-find). *)
Theorem C35_find_stale_refuted : exists (os : list (hop Z)) outs h l,
  heap_run Z.ltb 0%Z zpred (heap_new 0%Z 4) os outs h /\ heap_find Z.eqb h 5%Z = Some l /\ ~ In l (heap_locs h).
Proof.
  exists [HInsertHeap 5%Z; HExtractMax]. do 3 eexists. split; [apply heap_exec_run; vm_compute; reflexivity|].
  split; [vm_compute; reflexivity|]. vm_compute. tauto.
Qed.
Print Assumptions C35_find_stale_refuted.
