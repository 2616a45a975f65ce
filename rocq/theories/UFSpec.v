(** What union-find should do, independently of the parent pointers. *)
From Verif Require Import Base UFModel.
From Coq Require Import Relation_Operators.

(** the pairs merged, and the number of sets made, in a history *)
Fixpoint merges (os : list uop) : list (nat * nat) :=
  match os with [] => [] | UMerge a b :: os' => (a, b) :: merges os' | _ :: os' => merges os' end.
Fixpoint made (os : list uop) : nat := match os with [] => 0 | UMake :: os' => S (made os') | _ :: os' => made os' end.
(** connected by merges: the equivalence generated by the merged pairs *)
Definition connected (ms : list (nat * nat)) : nat -> nat -> Prop := clos_refl_sym_trans nat (fun a b => In (a, b) ms).
(** [l] lists the class of [a] among the first [n] nodes, each member once *)
Definition class_of (ms : list (nat * nat)) (n a : nat) (l : list nat) : Prop :=
  NoDup l /\ forall x, In x l <-> x < n /\ connected ms a x.
(** every operation only names nodes made before it *)
Fixpoint legal (n : nat) (os : list uop) : Prop :=
  match os with
  | [] => True
  | UMake :: os' => legal (S n) os'
  | UFind v :: os' => v < n /\ legal n os'
  | UMerge a b :: os' => a < n /\ b < n /\ legal n os'
  end.
