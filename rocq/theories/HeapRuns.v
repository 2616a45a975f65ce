(** Heap: histories of operations against an abstract bag of (location, value) pairs. *)
From Verif Require Import Base HeapModel HeapProofs.

Section Runs.
Context {T : Type}.
Variable ord : T -> T -> bool.
Variable dflt : T.
Variable dec : T -> T.

(** client operations of src/heap.hpp:132-177 *)
Inductive hop := HInsertHeap (v : T) | HExtractMax | HRemove (l : nat) | HDecrease (l : nat)
               | HInsertsBuild (vs : list T) | HClear.
Inductive hout := HLoc (l : nat) | HVal (v : T) | HLocs (ls : list nat) | HUnit.

(** [insert] of several values, src/heap.hpp:138-144 iterated *)
Fixpoint heap_inserts (h : heap T) (vs : list T) : heap T * list nat :=
  match vs with
  | [] => (h, [])
  | v :: vs => let '(h1, l) := heap_insert dflt h v in
               let '(h2, ls) := heap_inserts h1 vs in (h2, l :: ls)
  end.

(** one operation of the C++ class; None = undefined behaviour (extractMax on an empty heap) *)
Definition heap_do (h : heap T) (o : hop) : option (hout * heap T) :=
  match o with
  | HInsertHeap v => let '(h', l) := heap_insertHeap ord dflt h v in Some (HLoc l, h')
  | HExtractMax => option_map (fun p => (HVal (fst p), snd p)) (heap_extractMax ord h)
  | HRemove l => option_map (fun p => (HVal (fst p), snd p)) (heap_remove ord h l)
  | HDecrease l => Some (HUnit, heap_decrease ord dec h l)
  | HInsertsBuild vs => let '(h', ls) := heap_inserts h vs in Some (HLocs ls, heap_buildHeap ord h')
  | HClear => Some (HUnit, heap_clear h)
  end.

(** ** Specification: a bag of (location, value) *)
Definition bag := list (nat * T).
Inductive bag_step : bag -> hop -> hout -> bag -> Prop :=
| bs_insert b v l : ~ In l (map fst b) -> bag_step b (HInsertHeap v) (HLoc l) ((l, v) :: b)
| bs_extract b l v b' : Permutation b ((l, v) :: b') ->
    (forall l' w, In (l', w) b -> ord w v = false) -> bag_step b HExtractMax (HVal v) b'
| bs_remove b l v b' : Permutation b ((l, v) :: b') -> bag_step b (HRemove l) (HVal v) b'
| bs_decrease b l v b' : Permutation b ((l, v) :: b') -> bag_step b (HDecrease l) HUnit ((l, dec v) :: b')
| bs_build b vs ls : length ls = length vs -> NoDup (ls ++ map fst b) ->
    bag_step b (HInsertsBuild vs) (HLocs ls) (combine ls vs ++ b)
| bs_clear b : bag_step b HClear HUnit [].

(** what the caller must respect *)
Definition legal (b : bag) (o : hop) : Prop :=
  match o with
  | HExtractMax => b <> []
  | HRemove l | HDecrease l => In l (map fst b)
  | _ => True
  end.

(** histories *)
Inductive heap_run : heap T -> list hop -> list hout -> heap T -> Prop :=
| hr_nil h : heap_run h [] [] h
| hr_cons h o out h1 os outs h2 : legal (heap_elems h) o -> heap_do h o = Some (out, h1) ->
    heap_run h1 os outs h2 -> heap_run h (o :: os) (out :: outs) h2.
Inductive bag_run : bag -> list hop -> list hout -> bag -> Prop :=
| br_nil b : bag_run b [] [] b
| br_cons b o out b1 os outs b2 : bag_step b o out b1 -> bag_run b1 os outs b2 ->
    bag_run b (o :: os) (out :: outs) b2.

Hypothesis Hswo : SWO ord.
Hypothesis Hdec : forall v, ord v (dec v) = false.

Lemma inserts_wf vs : forall h h' ls, heap_wf h -> heap_inserts h vs = (h', ls) ->
  heap_wf h' /\ length ls = length vs /\ heap_elems h' = heap_elems h ++ combine ls vs.
Proof.
  induction vs as [|v vs IH]; intros h h' ls W E; cbn [heap_inserts] in E.
  - injection E as <- <-. now rewrite app_nil_r.
  - destruct (heap_insert dflt h v) as [h1 l] eqn:E1.
    destruct (heap_inserts h1 vs) as [h2 ls2] eqn:E2. injection E as <- <-.
    destruct (insert_wf dflt _ _ _ _ W E1) as (W1 & _ & P1 & _).
    destruct (IH _ _ _ W1 E2) as (W2 & L2 & P2). split; [auto|split;[cbn; congruence|]].
    rewrite P2. unfold elems in P1. rewrite P1, <- app_assoc. reflexivity.
Qed.

Lemma fst_elems (h : heap T) : map fst (heap_elems h) = heap_locs h.
Proof. symmetry. apply (locs_elems). Qed.

Lemma in_fst_perm (l : nat) (b : bag) : In l (map fst b) -> exists v b', Permutation b ((l, v) :: b').
Proof.
  intros H. apply in_map_iff in H as [[l' v] [E H]]. cbn in E; subst l'.
  apply in_split in H as (b1 & b2 & ->). exists v, (b1 ++ b2). symmetry. apply Permutation_middle.
Qed.

Lemma combine_fst {A B} (xs : list A) : forall (ys : list B), length xs = length ys -> map fst (combine xs ys) = xs.
Proof. induction xs; destruct ys; cbn; intros; try discriminate; auto. f_equal. apply IHxs. lia. Qed.

(** one legal operation never hits undefined behaviour and follows the bag *)
Lemma do_step h o : heap_ok ord h -> legal (heap_elems h) o ->
  exists out h', heap_do h o = Some (out, h') /\ heap_ok ord h' /\
    exists b', bag_step (heap_elems h) o out b' /\ Permutation (heap_elems h') b'.
Proof.
  intros K L. pose proof K as [W O]. destruct o as [v| |l|l|vs|]; cbn [heap_do legal] in *.
  - destruct (heap_insertHeap ord dflt h v) as [h' l] eqn:E.
    destruct (insertHeap_ok ord dflt Hswo _ _ _ _ K E) as (K' & P & N).
    exists (HLoc l), h'. split; [auto|split;[auto|]]. eexists; split; [|exact P].
    constructor. now rewrite fst_elems.
  - destruct (extractMax_some ord h W L) as (v & h' & E).
    destruct (extractMax_ok ord Hswo _ _ _ K E) as (K' & (l & P) & B).
    exists (HVal v), h'. rewrite E. split; [auto|split;[auto|]].
    eexists; split; [|apply Permutation_refl]. econstructor; eauto.
  - rewrite fst_elems in L. destruct (remove_some ord Hswo h l K L) as (v & h' & E).
    destruct (remove_ok ord Hswo _ _ _ _ K L E) as (K' & P & B).
    exists (HVal v), h'. rewrite E. split; [auto|split;[auto|]].
    eexists; split; [|apply Permutation_refl]. econstructor; eauto.
  - rewrite fst_elems in L.
    destruct (decrease_ok ord Hswo dec h l K L) as (K' & P); [apply Hdec|].
    eexists _, _. split; [reflexivity|split;[auto|]].
    rewrite <- fst_elems in L.
    destruct (in_fst_perm _ _ L) as (v & b' & Pb).
    exists ((l, dec v) :: b'). split; [econstructor; eauto|].
    unfold elems in P. rewrite P.
    assert (ND : NoDup (map fst (heap_elems h))) by (rewrite fst_elems; eapply NoDup_locs; eauto).
    assert (hval h l = v) as <-.
    { assert (In (l, v) (heap_elems h)) as Hin by (eapply Permutation_in; [symmetry; eauto|now left]).
      unfold heap_elems in Hin. apply in_map_iff in Hin as [x [E _]]. congruence. }
    eapply Permutation_trans; [apply Permutation_map; exact Pb|]. cbn. rewrite Nat.eqb_refl.
    apply perm_skip.
    assert (Nl : ~ In l (map fst b')).
    { assert (NoDup (map fst ((l, hval h l) :: b'))) as N1 by (eapply Permutation_NoDup; [apply Permutation_map; exact Pb|auto]).
      cbn in N1. now inversion N1. }
    clear -Nl. induction b' as [|[x w] b' IH]; cbn in *; auto.
    destruct (Nat.eqb_spec x l); [subst; tauto|]. apply perm_skip. tauto.
  - destruct (heap_inserts h vs) as [h1 ls] eqn:E.
    destruct (inserts_wf _ _ _ _ W E) as (W1 & L1 & P1).
    destruct (buildHeap_ok ord Hswo h1 W1) as (K2 & S2).
    eexists _, _. split; [reflexivity|split;[auto|]].
    exists (combine ls vs ++ heap_elems h). split.
    + constructor; auto. rewrite <- (combine_fst ls vs L1), <- map_app.
      eapply Permutation_NoDup; [apply Permutation_map, Permutation_app_comm|].
      rewrite <- P1, fst_elems. eapply NoDup_locs; eauto.
    + rewrite (elems_perm _ _ S2). unfold elems. rewrite P1. apply Permutation_app_comm.
  - eexists _, _. split; [reflexivity|split].
    + split.
      * destruct W; constructor; cbn; auto; lia.
      * intros i Hi. cbn in Hi. lia.
    + exists []. split; [constructor|reflexivity].
Qed.

Lemma bag_step_perm b c o out b' : Permutation b c -> bag_step b o out b' ->
  exists c', bag_step c o out c' /\ Permutation b' c'.
Proof.
  intros P S. destruct S.
  - eexists; split; [constructor|apply perm_skip; exact P].
    intros X; apply H. eapply Permutation_in; [apply Permutation_map; symmetry; exact P|exact X].
  - eexists; split; [econstructor|apply Permutation_refl].
    + rewrite <- P. exact H.
    + intros l' w X. eapply H0. eapply Permutation_in; [symmetry; exact P|exact X].
  - eexists; split; [econstructor|apply Permutation_refl]. rewrite <- P. exact H.
  - eexists; split; [econstructor|apply Permutation_refl]. rewrite <- P. exact H.
  - eexists; split; [econstructor; auto|apply Permutation_app_head; exact P].
    eapply Permutation_NoDup; [|exact H0]. apply Permutation_app_head, Permutation_map, P.
  - eexists; split; constructor.
Qed.

Lemma run_ok h os outs h' : heap_ok ord h -> heap_run h os outs h' -> forall b, Permutation (heap_elems h) b ->
  heap_ok ord h' /\ exists b', bag_run b os outs b' /\ Permutation (heap_elems h') b'.
Proof.
  intros K R. induction R as [h|h o out h1 os outs h2 L E R IH]; intros b P.
  - split; auto. exists b. split; [constructor|auto].
  - destruct (do_step h o K L) as (out' & h1' & E' & K1 & b1 & S1 & P1).
    rewrite E in E'. injection E' as <- <-.
    destruct (bag_step_perm _ _ _ _ _ P S1) as (c1 & S2 & P2).
    destruct (IH K1 c1) as (K2 & b2 & R2 & P3); [now rewrite P1|].
    split; auto. exists b2. split; [econstructor; eauto|auto].
Qed.

(** from a fresh heap: every history is a bag history, and the next legal operation is defined *)
Lemma heap_refines_bag sz os outs h : 1 <= sz -> heap_run (heap_new dflt sz) os outs h ->
  exists b, bag_run [] os outs b /\ Permutation (heap_elems h) b.
Proof.
  intros Hs R. destruct (new_ok ord dflt sz Hs) as [K E].
  destruct (run_ok _ _ _ _ K R [] (Permutation_refl' E)) as (_ & b & Rb & P). eauto.
Qed.
Lemma heap_progress sz os outs h o : 1 <= sz -> heap_run (heap_new dflt sz) os outs h ->
  legal (heap_elems h) o -> exists out h', heap_do h o = Some (out, h').
Proof.
  intros Hs R L. destruct (new_ok ord dflt sz Hs) as [K E].
  destruct (run_ok _ _ _ _ K R [] (Permutation_refl' E)) as (K' & _).
  destruct (do_step h o K' L) as (out & h' & E' & _). eauto.
Qed.
Lemma heap_counts sz os outs h : 1 <= sz -> heap_run (heap_new dflt sz) os outs h ->
  heap_size h = length (heap_elems h) /\ (heap_empty h = true <-> heap_elems h = []).
Proof.
  intros Hs R. destruct (new_ok ord dflt sz Hs) as [K E].
  destruct (run_ok _ _ _ _ K R [] (Permutation_refl' E)) as ((W & _) & _).
  split; [apply size_elems|apply empty_elems; auto].
Qed.

(** a single extraction after any history *)
Lemma heap_extract_after sz os outs h v h' : 1 <= sz -> heap_run (heap_new dflt sz) os outs h ->
  heap_extractMax ord h = Some (v, h') ->
  (exists l, Permutation (heap_elems h) ((l, v) :: heap_elems h')) /\
  (forall l w, In (l, w) (heap_elems h) -> ord w v = false).
Proof.
  intros Hs R E. destruct (new_ok ord dflt sz Hs) as [K En].
  destruct (run_ok _ _ _ _ K R [] (Permutation_refl' En)) as (K' & _).
  destruct (extractMax_ok ord Hswo _ _ _ K' E) as (_ & P & B). split; auto.
Qed.

(** a location keeps designating its element through any operation other than its own removal *)
Lemma heap_loc_persists sz os outs h o out h' l v : 1 <= sz -> heap_run (heap_new dflt sz) os outs h ->
  In (l, v) (heap_elems h) -> legal (heap_elems h) o -> heap_do h o = Some (out, h') ->
  match o with
  | HInsertHeap _ | HInsertsBuild _ => In (l, v) (heap_elems h')
  | HExtractMax => In (l, v) (heap_elems h') \/ (out = HVal v /\ Permutation (heap_elems h) ((l, v) :: heap_elems h'))
  | HRemove l' => if l' =? l then out = HVal v /\ Permutation (heap_elems h) ((l, v) :: heap_elems h')
                  else In (l, v) (heap_elems h')
  | HDecrease l' => In (l, if l' =? l then dec v else v) (heap_elems h')
  | HClear => heap_elems h' = []
  end.
Proof.
  intros Hs R Hin L E. destruct (new_ok ord dflt sz Hs) as [K En].
  destruct (run_ok _ _ _ _ K R [] (Permutation_refl' En)) as (K' & _).
  destruct (do_step h o K' L) as (out' & h1 & E' & K1 & b' & S & P).
  rewrite E in E'. injection E' as <- <-.
  assert (ND : NoDup (map fst (heap_elems h))) by (rewrite fst_elems; eapply NoDup_locs; apply K').
  assert (U : forall w, In (l, w) (heap_elems h) -> w = v).
  { intros w Hw. unfold heap_elems in *. apply in_map_iff in Hw as [x [X1 _]].
    apply in_map_iff in Hin as [y [Y1 _]]. congruence. }
  inversion S; subst; clear S.
  - eapply Permutation_in; [symmetry; exact P|]. now right.
  - pose proof (Permutation_in _ H Hin) as [X|X].
    + injection X as -> ->. right. split; auto. rewrite H. apply perm_skip. now symmetry.
    + left. eapply Permutation_in; [symmetry; exact P|auto].
  - destruct (Nat.eqb_spec l0 l) as [->|N].
    + assert (v0 = v) as -> by (apply U; eapply Permutation_in; [symmetry; exact H|now left]).
      split; auto. rewrite H. apply perm_skip. now symmetry.
    + pose proof (Permutation_in _ H Hin) as [X|X]; [congruence|].
      eapply Permutation_in; [symmetry; exact P|auto].
  - eapply Permutation_in; [symmetry; exact P|]. destruct (Nat.eqb_spec l0 l) as [->|N].
    + assert (v0 = v) as -> by (apply U; eapply Permutation_in; [symmetry; exact H|now left]). now left.
    + pose proof (Permutation_in _ H Hin) as [X|X]; [congruence|now right].
  - eapply Permutation_in; [symmetry; exact P|]. apply in_or_app. now right.
  - apply Permutation_nil. now symmetry.
Qed.
End Runs.
Arguments hop : clear implicits.
Arguments hout : clear implicits.

(** deciding execution, for examples only: runs the operations and checks legality *)
Definition is_legal {T} (b : list (nat * T)) (o : hop T) : bool :=
  match o with
  | HExtractMax => match b with [] => false | _ => true end
  | HRemove l | HDecrease l => existsb (fun p => fst p =? l) b
  | _ => true
  end.
Fixpoint heap_exec {T} ord dflt dec (h : heap T) (os : list (hop T)) : option (list (hout T) * heap T) :=
  match os with
  | [] => Some ([], h)
  | o :: os => if is_legal (heap_elems h) o then
      match heap_do ord dflt dec h o with
      | Some (out, h1) => option_map (fun p => (out :: fst p, snd p)) (heap_exec ord dflt dec h1 os)
      | None => None
      end else None
  end.
Lemma is_legal_ok {T} (b : list (nat * T)) o : is_legal b o = true -> legal b o.
Proof.
  assert (K : forall l, existsb (fun p => fst p =? l) b = true -> In l (map fst b)).
  { intros l H. apply existsb_exists in H as [x [Hx E]]. apply Nat.eqb_eq in E. subst. now apply in_map. }
  destruct o; cbn; auto. destruct b; congruence.
Qed.
Lemma heap_exec_run {T} ord dflt dec os : forall (h : heap T) outs h',
  heap_exec ord dflt dec h os = Some (outs, h') -> heap_run ord dflt dec h os outs h'.
Proof.
  induction os as [|o os IH]; intros h outs h' E; cbn [heap_exec] in E.
  - injection E as <- <-. constructor.
  - destruct (is_legal _ o) eqn:L; [|discriminate].
    destruct (heap_do ord dflt dec h o) as [[out h1]|] eqn:D; [|discriminate].
    destruct (heap_exec ord dflt dec h1 os) as [[outs2 h2]|] eqn:X; [|discriminate].
    injection E as <- <-. econstructor; eauto. now apply is_legal_ok.
Qed.
