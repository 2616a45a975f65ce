(** Node lists as sequences: [E a] is the contents of list a. *)
From Verif Require Import Base ListModel.

Notation cont := (nat -> list nat).
Definition first (l : list nat) : option nat := match l with [] => None | x :: _ => Some x end.
Inductive ls_step (E : cont) : lop -> lout -> cont -> Prop :=
| ls_push a n : (forall b, ~ In n (E b)) -> ls_step E (LPush a n) OUnit (fupd E a (E a ++ [n]))
| ls_pop a l n : E a = l ++ [n] -> ls_step E (LPop a) OUnit (fupd E a l)
| ls_remove a l1 n l2 : E a = l1 ++ n :: l2 -> ls_step E (LRemove a n) OUnit (fupd E a (l1 ++ l2))
| ls_clear a : ls_step E (LClear a) OUnit (fupd E a [])
| ls_size a : ls_step E (LSize a) (ON (length (E a))) E
| ls_all a : ls_step E (LAll a) (OL (E a)) E
| ls_rev a : ls_step E (LRev a) (OL (rev (E a))) E
| ls_front a : ls_step E (LFront a) (OP (first (E a))) E
| ls_back a : ls_step E (LBack a) (OP (first (rev (E a)))) E
| ls_member a n b : (b = true <-> In n (E a)) -> ls_step E (LMember a n) (OB b) E.
Inductive ls_run (E : cont) : list lop -> list lout -> cont -> Prop :=
| lr_nil : ls_run E [] [] E
| lr_cons o r E1 os rs E2 : ls_step E o r E1 -> ls_run E1 os rs E2 -> ls_run E (o :: os) (r :: rs) E2.

(** when an operation may be called: a node is pushed only when it is in no list, pop_back only on a non-empty list, remove only of a member *)
Inductive may (E : cont) : lop -> cont -> Prop :=
| m_push a n : (forall b, ~ In n (E b)) -> may E (LPush a n) (fupd E a (E a ++ [n]))
| m_pop a l n : E a = l ++ [n] -> may E (LPop a) (fupd E a l)
| m_remove a l1 n l2 : E a = l1 ++ n :: l2 -> may E (LRemove a n) (fupd E a (l1 ++ l2))
| m_clear a : may E (LClear a) (fupd E a [])
| m_read o : match o with LSize _ | LAll _ | LRev _ | LFront _ | LBack _ | LMember _ _ => True | _ => False end -> may E o E.
Inductive may_run (E : cont) : list lop -> Prop :=
| mr_nil : may_run E []
| mr_cons o E1 os : may E o E1 -> may_run E1 os -> may_run E (o :: os).
Fixpoint pushes (os : list lop) : nat := match os with [] => 0 | LPush _ _ :: r => S (pushes r) | _ :: r => pushes r end.
