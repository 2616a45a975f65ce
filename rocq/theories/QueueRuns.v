(** CQueue: histories of operations against an abstract sequence of (location, value) pairs. *)
From Verif Require Import Base QueueModel QueueProofs.

Section Runs.
Context {T : Type}.
Variable dflt : T.
Variable teq : T -> T -> bool.

(** client operations of src/queue.hpp:95-165 *)
Inductive qop := QEnq (v : T) | QDeq | QPeek | QSize | QEmpty | QClear | QRetract (l : nat) | QRetractVal (v : T) | QAll.
Inductive qout := OLoc (l : nat) | OVal (v : T) | ONat (n : nat) | OBool (b : bool) | OUnit | OLocs (ls : list nat).

(** one operation of the C++ class *)
Definition q_do (q : cq T) (o : qop) : res (qout * cq T) :=
  match o with
  | QEnq v => do (q', l) <- q_enQueue dflt q v ; Ok (OLoc l, q')
  | QDeq => let '(q', v) := q_deQueue dflt q in Ok (OVal v, q')
  | QPeek => Ok (OVal (q_peek dflt q), q)
  | QSize => Ok (ONat (q_size q), q)
  | QEmpty => Ok (OBool (q_empty q), q)
  | QClear => Ok (OUnit, q_clear q)
  | QRetract l => do q' <- q_retract dflt q l ; Ok (OUnit, q')
  | QRetractVal v => do (q', b) <- q_retractVal dflt teq q v ; Ok (OBool b, q')
  | QAll => Ok (OLocs (q_doOnAll q), q)
  end.

(** ** Specification: a sequence of (location, value), oldest first *)
Definition fifo := list (nat * T).
(** taking an element out of the middle puts the oldest element in its place; the others keep their order *)
Inductive taken (l : nat) : fifo -> fifo -> Prop :=
| tk_first v b : taken l ((l, v) :: b) b
| tk_inner x a v b : taken l (x :: a ++ (l, v) :: b) (a ++ x :: b).
Inductive fifo_step : fifo -> qop -> qout -> fifo -> Prop :=
| fs_enq s v l : ~ In l (map fst s) -> fifo_step s (QEnq v) (OLoc l) (s ++ [(l, v)])
| fs_deq l v s : fifo_step ((l, v) :: s) QDeq (OVal v) s
| fs_deq0 : fifo_step [] QDeq (OVal dflt) []
| fs_peek l v s : fifo_step ((l, v) :: s) QPeek (OVal v) ((l, v) :: s)
| fs_peek0 : fifo_step [] QPeek (OVal dflt) []
| fs_size s : fifo_step s QSize (ONat (length s)) s
| fs_empty s b : (b = true <-> s = []) -> fifo_step s QEmpty (OBool b) s
| fs_clear s : fifo_step s QClear OUnit []
| fs_retract s l s' : taken l s s' -> fifo_step s (QRetract l) OUnit s'
| fs_retractVal a l w b v s' : (forall x, In x a -> teq (snd x) v = false) -> teq w v = true ->
    taken l (a ++ (l, w) :: b) s' -> fifo_step (a ++ (l, w) :: b) (QRetractVal v) (OBool true) s'
| fs_retractVal0 s v : (forall x, In x s -> teq (snd x) v = false) -> fifo_step s (QRetractVal v) (OBool false) s
| fs_all s : fifo_step s QAll (OLocs (map fst s)) s.

(** what the caller must respect *)
Definition qlegal (s : fifo) (o : qop) : Prop :=
  match o with QRetract l => In l (map fst s) | QRetractVal _ => s <> [] | _ => True end.

(** histories; [q_run] also demands that every location lives at most once in the queue it starts from *)
Inductive q_run : cq T -> list qop -> list qout -> cq T -> Prop :=
| qr_nil q : q_run q [] [] q
| qr_cons q o out q1 os outs q2 : qlegal (q_elems q) o -> q_do q o = Ok (out, q1) -> q_run q1 os outs q2 -> q_run q (o :: os) (out :: outs) q2.
Inductive fifo_run : fifo -> list qop -> list qout -> fifo -> Prop :=
| fr_nil s : fifo_run s [] [] s
| fr_cons s o out s1 os outs s2 : fifo_step s o out s1 -> fifo_run s1 os outs s2 -> fifo_run s (o :: os) (out :: outs) s2.

(** executable histories, for examples *)
Definition qlegalb (s : fifo) (o : qop) : bool :=
  match o with QRetract l => existsb (Nat.eqb l) (map fst s) | QRetractVal _ => match s with [] => false | _ => true end | _ => true end.
Fixpoint q_exec (q : cq T) (os : list qop) : res (list qout * cq T) :=
  match os with
  | [] => Ok ([], q)
  | o :: os => if qlegalb (q_elems q) o then do (out, q1) <- q_do q o ; do (outs, q2) <- q_exec q1 os ; Ok (out :: outs, q2) else Err UB
  end.
Lemma q_exec_run os : forall q outs q', q_exec q os = Ok (outs, q') -> q_run q os outs q'.
Proof.
  induction os as [|o os IH]; intros q outs q' E; cbn [q_exec] in E.
  - injection E as <- <-. constructor.
  - destruct (qlegalb (q_elems q) o) eqn:L; [|discriminate]. destruct (q_do q o) as [[out q1]|] eqn:D; [|discriminate]. cbn [bind] in E.
    destruct (q_exec q1 os) as [[outs2 q2]|] eqn:X; [|discriminate]. cbn [bind] in E. injection E as <- <-. econstructor; eauto.
    destruct o; cbn in *; auto.
    + apply existsb_exists in L as (x & Hx & Ex). apply Nat.eqb_eq in Ex. now subst.
    + destruct (q_elems q); [discriminate|congruence].
Qed.

Lemma taken_unplace l v a b : taken l (a ++ (l, v) :: b) (unplace a b).
Proof. destruct a as [|x a]; cbn; constructor. Qed.

Lemma q_step q o : q_ok q -> qlegal (q_elems q) o ->
  exists out q', q_do q o = Ok (out, q') /\ q_ok q' /\ fifo_step (q_elems q) o out (q_elems q').
Proof.
  intros H L. destruct o as [v| | | | | |l|v|]; cbn [q_do qlegal] in *.
  - destruct (enQueue_ok dflt q v H) as (q' & l & E & K & Fr & EE). rewrite E. cbn [bind]. do 2 eexists. split; [reflexivity|]. split; auto. rewrite EE. now constructor.
  - pose proof (deQueue_ok dflt q H) as D. destruct (q_deQueue dflt q) as [q' v]. destruct D as [K D]. do 2 eexists. split; [reflexivity|]. split; auto.
    destruct (q_elems q) as [|[l w] r] eqn:X; destruct D as [-> D]; [subst; rewrite X|rewrite D]; constructor.
  - do 2 eexists. split; [reflexivity|]. split; auto. rewrite (peek_ok dflt q H). destruct (q_elems q) as [|[l w] r]; constructor.
  - do 2 eexists. split; [reflexivity|]. split; auto. rewrite size_ok. constructor.
  - do 2 eexists. split; [reflexivity|]. split; auto. constructor. now apply qempty_ok.
  - do 2 eexists. split; [reflexivity|]. destruct (clear_ok q H) as [K E]. split; auto. rewrite E. constructor.
  - destruct (retract_ok dflt q l H L) as (q' & a & v & b & R & K & E1 & E2). rewrite R. cbn [bind]. do 2 eexists. split; [reflexivity|]. split; auto.
    constructor. rewrite E1, E2. apply taken_unplace.
  - destruct (retractVal_ok dflt teq q v H L) as (q' & b & R & K & D). rewrite R. cbn [bind]. do 2 eexists. split; [reflexivity|]. split; auto.
    destruct (find _ (q_elems q)) as [[l w]|] eqn:X.
    + destruct D as [-> (x & y & E1 & E2)]. rewrite E1, E2 in *. clear E1 E2.
      assert (Q : exists a b, x ++ (l, w) :: y = a ++ (l, w) :: b /\ (forall z, In z a -> teq (snd z) v = false) /\ teq w v = true).
      { revert X. generalize (x ++ (l, w) :: y) as s. clear. induction s as [|z s IH]; cbn; [discriminate|]. destruct (teq (snd z) v) eqn:E.
        - intros [= ->]. exists [], s. cbn in *. split; auto. split; auto. intros ? [].
        - intros X. destruct (IH X) as (a & b & -> & A & B). exists (z :: a), b. split; auto. split; auto. intros u [<-|Hu]; auto. }
      destruct Q as (a & b & Eq & A & B). rewrite Eq. constructor; auto. rewrite <- Eq. apply taken_unplace.
    + destruct D as [-> ->]. constructor. intros x Hx. apply (find_none _ _ X x Hx).
  - do 2 eexists. split; [reflexivity|]. split; auto. rewrite (all_ok q H). constructor.
Qed.

Lemma q_run_ok q os outs q' : q_run q os outs q' -> q_ok q -> q_ok q' /\ fifo_run (q_elems q) os outs (q_elems q').
Proof.
  intros R. induction R as [q|q o out q1 os outs q2 L E R IH]; intros H.
  - split; auto. constructor.
  - destruct (q_step q o H L) as (out' & q1' & E' & K & F). rewrite E in E'. injection E' as <- <-. destruct (IH K). split; auto. econstructor; eauto.
Qed.

(** ** statements *)
Lemma queue_fifo sz os outs q : 1 <= sz -> q_run (q_new dflt sz) os outs q -> fifo_run [] os outs (q_elems q).
Proof.
  intros H R. destruct (q_new_ok dflt sz H) as [K E]. apply q_run_ok in R; auto. rewrite E in R. tauto.
Qed.
Lemma queue_progress sz os outs q o : 1 <= sz -> q_run (q_new dflt sz) os outs q -> qlegal (q_elems q) o -> exists out q', q_do q o = Ok (out, q').
Proof.
  intros H R L. destruct (q_new_ok dflt sz H) as [K E]. apply q_run_ok in R; auto. destruct (q_step q o (proj1 R) L) as (out & q' & E' & _). eauto.
Qed.
Lemma queue_nodup sz os outs q : 1 <= sz -> q_run (q_new dflt sz) os outs q -> NoDup (map fst (q_elems q)).
Proof.
  intros H R. destruct (q_new_ok dflt sz H) as [K E]. apply q_run_ok in R; auto. rewrite elems_locs. now apply locs_nodup.
Qed.
Lemma queue_retract sz os outs q l q' : 1 <= sz -> q_run (q_new dflt sz) os outs q -> In l (map fst (q_elems q)) -> q_retract dflt q l = Ok q' ->
  exists v, Permutation (q_elems q) ((l, v) :: q_elems q').
Proof.
  intros H R L E. destruct (q_new_ok dflt sz H) as [K _]. apply q_run_ok in R; auto. destruct (retract_ok dflt q l (proj1 R) L) as (q1 & a & v & b & E1 & _ & E2 & E3).
  rewrite E in E1. injection E1 as <-. exists v. rewrite E2, E3. apply unplace_perm.
Qed.
(** foldl: left fold over the values, oldest first, up to the first non-null accumulator *)
Inductive folds (isnull : T -> bool) (f : T -> T -> T) : T -> list T -> T -> Prop :=
| fo_stop acc vs : isnull acc = false -> folds isnull f acc vs acc
| fo_end acc : folds isnull f acc [] acc
| fo_step acc v vs r : isnull acc = true -> folds isnull f (f acc v) vs r -> folds isnull f acc (v :: vs) r.
Lemma fold_until_folds isnull f vs : forall acc, folds isnull f acc vs (fold_until isnull f vs acc).
Proof.
  induction vs as [|v vs IH]; intros acc; cbn; [apply fo_end|]. destruct (isnull acc) eqn:E; [apply fo_step; auto|now apply fo_stop].
Qed.
Lemma queue_folds sz os outs q isnull f base : 1 <= sz -> q_run (q_new dflt sz) os outs q ->
  q_doOnAll q = map fst (q_elems q) /\ folds isnull f base (map snd (q_elems q)) (q_foldl isnull f q base).
Proof.
  intros H R. destruct (q_new_ok dflt sz H) as [K _]. apply q_run_ok in R; auto. split; [now apply all_ok|]. rewrite foldl_ok by apply R. apply fold_until_folds.
Qed.
(** without retract: plain first-in first-out on the values *)
Fixpoint vals_run (s : list T) (os : list qop) : option (list T * list T) :=
  match os with
  | [] => Some ([], s)
  | QEnq v :: os => vals_run (s ++ [v]) os
  | QDeq :: os => match s with
                  | [] => option_map (fun p => (dflt :: fst p, snd p)) (vals_run [] os)
                  | v :: s' => option_map (fun p => (v :: fst p, snd p)) (vals_run s' os)
                  end
  | QClear :: os => vals_run [] os
  | _ => None
  end.
Fixpoint vals_of (outs : list qout) : list T := match outs with [] => [] | OVal v :: r => v :: vals_of r | _ :: r => vals_of r end.
Lemma fifo_vals os : forall s outs s', fifo_run s os outs s' -> (forall o, In o os -> match o with QEnq _ | QDeq | QClear => True | _ => False end) ->
  vals_run (map snd s) os = Some (vals_of outs, map snd s').
Proof.
  induction os as [|o os IH]; intros s outs s' R A; inversion R as [|? ? out s1 ? outs1 ? S0 R1]; subst; [reflexivity|].
  pose proof (A o (or_introl eq_refl)) as Ao. assert (A' : forall o, In o os -> match o with QEnq _ | QDeq | QClear => True | _ => False end) by (intros; apply A; right; auto).
  specialize (IH _ _ _ R1 A'). destruct o; try contradiction; inversion S0; subst; cbn [vals_run map snd vals_of].
  - rewrite map_app in IH. exact IH.
  - rewrite IH. reflexivity.
  - cbn [map] in IH. rewrite IH. reflexivity.
  - exact IH.
Qed.
Lemma queue_vals sz os outs q : 1 <= sz -> q_run (q_new dflt sz) os outs q ->
  (forall o, In o os -> match o with QEnq _ | QDeq | QClear => True | _ => False end) ->
  vals_run [] os = Some (vals_of outs, map snd (q_elems q)).
Proof. intros H R A. apply (fifo_vals os [] outs (q_elems q)); auto. eapply queue_fifo; eauto. Qed.
End Runs.
Arguments qop : clear implicits.
Arguments qout : clear implicits.
