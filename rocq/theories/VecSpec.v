(** What vectors should be: independent sequences.  [E i] is the contents of vector [i]; None: not constructed, or moved from. *)
From Verif Require Import Base VecModel.

Section Spec.
Context {T : Type}.
Notation env := (nat -> option (list T)).

(** one operation on sequences.  Writing at the end or beyond extends the sequence (what lies between is arbitrary), writing inside with
    v[k]=x is what the code does: the sequence is cut after position k. *)
Inductive seq_step (E : env) : vop T -> vout T -> env -> Prop :=
| q_new i n : seq_step E (VNew i n) RUnit (fupd E i (Some []))
| q_copy i j l : E j = Some l -> seq_step E (VCopy i j) RUnit (fupd E i (Some l))
| q_move i j l : i <> j -> E j = Some l -> seq_step E (VMove i j) RUnit (fupd (fupd E i (Some l)) j None)
| q_assign i j l : E j = Some l -> seq_step E (VAssign i j) RUnit (fupd E i (Some l))
| q_moveAssign i j l : i <> j -> E j = Some l -> seq_step E (VMoveAssign i j) RUnit (fupd (fupd E i (Some l)) j (Some []))
| q_clear i : seq_step E (VClear i) RUnit (fupd E i (Some []))
| q_size i l : E i = Some l -> seq_step E (VSize i) (RN (N.of_nat (length l))) E
| q_push i x l : E i = Some l -> seq_step E (VPush i x) (RN (N.of_nat (length l))) (fupd E i (Some (l ++ [x])))
| q_pop i l x : E i = Some (l ++ [x]) -> seq_step E (VPop i) (RT x) (fupd E i (Some l))
| q_remove_last i l x : E i = Some (l ++ [x]) -> seq_step E (VRemove i (N.of_nat (length l))) (RTN x (N.of_nat (length l))) (fupd E i (Some l))
| q_remove i l1 y l2 x : E i = Some (l1 ++ y :: l2 ++ [x]) ->
    seq_step E (VRemove i (N.of_nat (length l1))) (RTN x (N.of_nat (length (l1 ++ x :: l2)))) (fupd E i (Some (l1 ++ x :: l2)))
| q_get i l1 y l2 : E i = Some (l1 ++ y :: l2) -> seq_step E (VGet i (N.of_nat (length l1))) (RT y) E
| q_at i l1 y l2 x : E i = Some (l1 ++ y :: l2) -> seq_step E (VAt i (N.of_nat (length l1)) x) RUnit (fupd E i (Some (l1 ++ x :: l2)))
| q_set_in i l1 l2 x : E i = Some (l1 ++ l2) -> seq_step E (VSet i (N.of_nat (length l1)) x) RUnit (fupd E i (Some (l1 ++ [x])))
| q_set_out i l gap x : E i = Some l -> seq_step E (VSet i (N.of_nat (length l + length gap)) x) RUnit (fupd E i (Some (l ++ gap ++ [x])))
| q_all i l : E i = Some l -> seq_step E (VAll i) (RL l) E.

Inductive seq_run (E : env) : list (vop T) -> list (vout T) -> env -> Prop :=
| qr_nil : seq_run E [] [] E
| qr_cons o r E1 os rs E2 : seq_step E o r E1 -> seq_run E1 os rs E2 -> seq_run E (o :: os) (r :: rs) E2.

(** when an operation may be called: [sh i] is the length of vector i.  Lengths stay below 2^31. *)
Definition limit : N := 2147483648.
Definition allowed (W : N) (sh : nat -> option N) (o : vop T) : option (nat -> option N) :=
  match o with
  | VNew i n => if (n <? W)%N then Some (fupd sh i (Some 0%N)) else None
  | VCopy i j => match sh j with Some n => Some (fupd sh i (Some n)) | None => None end
  | VMove i j => if i =? j then None else match sh j with Some n => Some (fupd (fupd sh i (Some n)) j None) | None => None end
  | VAssign i j => match sh i, sh j with Some _, Some n => Some (fupd sh i (Some n)) | _, _ => None end
  | VMoveAssign i j => if i =? j then None else match sh j with Some n => Some (fupd (fupd sh i (Some n)) j (Some 0%N)) | _ => None end
  | VClear i => match sh i with Some _ => Some (fupd sh i (Some 0%N)) | None => None end
  | VSize i | VAll i => match sh i with Some _ => Some sh | None => None end
  | VPush i _ => match sh i with Some n => if (n + 1 <? limit)%N then Some (fupd sh i (Some (n + 1)%N)) else None | None => None end
  | VPop i => match sh i with Some n => if (0 <? n)%N then Some (fupd sh i (Some (n - 1)%N)) else None | None => None end
  | VRemove i k => match sh i with Some n => if (k <? n)%N then Some (fupd sh i (Some (n - 1)%N)) else None | None => None end
  | VGet i k | VAt i k _ => match sh i with Some n => if (k <? n)%N then Some sh else None | None => None end
  | VSet i k _ => match sh i with Some n => if (k + 1 <? limit)%N then Some (fupd sh i (Some (k + 1)%N)) else None | None => None end
  end.
Fixpoint allowed_run (W : N) (sh : nat -> option N) (os : list (vop T)) : bool :=
  match os with [] => true | o :: os' => match allowed W sh o with Some sh1 => allowed_run W sh1 os' | None => false end end.
End Spec.
