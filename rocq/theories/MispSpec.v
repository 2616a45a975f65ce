(** Independent sets, independently of the examples. *)
From Verif Require Import Base.
From Coq Require Import Sorting.Sorted.

Definition adjacent (es : list (nat * nat)) (i j : nat) : Prop := In (i, j) es \/ In (j, i) es.
(** no two different members are adjacent *)
Definition independent (es : list (nat * nat)) (S : list nat) : Prop := forall i j, In i S -> In j S -> i <> j -> ~ adjacent es i j.
(** an independent set of the graph on 0..top-1, as an increasing list *)
Definition indep_set (top : nat) (es : list (nat * nat)) (S : list nat) : Prop :=
  StronglySorted lt S /\ Forall (fun v => v < top) S /\ independent es S.
(** its weight *)
Fixpoint total (weight : nat -> Z) (S : list nat) : Z := match S with [] => 0%Z | v :: r => (weight v + total weight r)%Z end.
(** the vertices whose label is not 0 *)
Fixpoint picks (vs : list nat) (ls : list Z) : list nat :=
  match vs, ls with v :: vr, l :: lr => if (l =? 0)%Z then picks vr lr else v :: picks vr lr | _, _ => [] end.
(** no vertex beyond the last member can be added *)
Definition right_maximal (top : nat) (es : list (nat * nat)) (S : list nat) : Prop :=
  forall u, u < top -> (forall i, In i S -> i < u) -> exists i, In i S /\ adjacent es i u.
