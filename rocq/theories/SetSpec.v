(** Mathematical meaning of the sets of src/util.hpp: which history of operations denotes which set of integers. *)
From Coq Require Export Sorted.
From Verif Require Import Base BitModel SetModel.
Local Open Scope Z_scope.

(** the values a Range runs through *)
Definition in_range_of (r : range) (p : Z) : Prop := r_from r <= p < r_to r \/ r_to r < p <= r_from r.

(** [nat_built n t A]: a NatSet<n> with words t obtained by some history of operations that denotes the set A *)
Inductive nat_built (n : nat) : list N -> (Z -> Prop) -> Prop :=
| nb_new : nat_built n (ns_new n) (fun _ => False)
| nb_interval lb ub t : ns_interval n lb ub = Ok t -> nat_built n t (fun q => lb <= q <= ub)
| nb_list l t : ns_ofList n l = Ok t -> nat_built n t (fun q => In q l)
| nb_insert t A p t' : nat_built n t A -> ns_insert t p = Ok t' -> nat_built n t' (fun q => q = p \/ A q)
| nb_clear t A : nat_built n t A -> nat_built n (ns_clear t) (fun _ => False)
| nb_complement t A : nat_built n t A -> nat_built n (ns_complement t) (fun q => 0 <= q < 64 * Z.of_nat n /\ ~ A q)
| nb_union t A u B : nat_built n t A -> nat_built n u B -> nat_built n (ns_union t u) (fun q => A q \/ B q)
| nb_inter t A u B : nat_built n t A -> nat_built n u B -> nat_built n (ns_inter t u) (fun q => A q /\ B q).

(** [gn_built s A]: a GNSet obtained by some history of operations that denotes the set A *)
Inductive gn_built : gset -> (Z -> Prop) -> Prop :=
| gb_new nb : 0 <= nb < 65536 -> gn_built (g_new nb) (fun _ => False)
| gb_interval lb ub s : g_interval lb ub = Ok s -> gn_built s (fun q => lb <= q <= ub)
| gb_range r s : g_range r = Ok s -> gn_built s (in_range_of r)
| gb_list l s : g_ofList l = Ok s -> gn_built s (fun q => In q l)
| gb_setFrom l s : g_setFrom l = Ok s -> gn_built s (fun q => In q l)
| gb_ofNat n t A : (Z.of_nat n < 65536) -> nat_built n t A -> gn_built (g_ofNat t) A
| gb_copy s A : gn_built s A -> gn_built (g_copy s) A
| gb_assign d B s A : gn_built d B -> gn_built s A -> gn_built (g_assign d s) A
| gb_clear s A s' : gn_built s A -> g_clear s = Ok s' -> gn_built s' (fun _ => False)
| gb_insert s A p s' : gn_built s A -> g_insert s p = Ok s' -> gn_built s' (fun q => q = p \/ A q)
| gb_remove s A p s' : gn_built s A -> g_remove s p = Ok s' -> gn_built s' (fun q => q <> p /\ A q)
| gb_complement s A s' : gn_built s A -> g_complement s = Ok s' -> gn_built s' (fun q => 0 <= q < 64 * g_mxw s /\ ~ A q)
| gb_union s A u B s' : gn_built s A -> gn_built u B -> g_union s u = Ok s' -> gn_built s' (fun q => A q \/ B q)
| gb_inter s A u B s' : gn_built s A -> gn_built u B -> g_inter s u = Ok s' -> gn_built s' (fun q => A q /\ B q)
| gb_diff s A u B s' : gn_built s A -> gn_built u B -> g_diff s u = Ok s' -> gn_built s' (fun q => A q /\ ~ B q)
| gb_removeBelow s A p s' : gn_built s A -> g_removeBelow s p = Ok s' -> gn_built s' (fun q => p <= q /\ A q)
| gb_removeAbove s A p s' : gn_built s A -> (forall q, A q -> q <= g_nbp s) -> 0 <= p -> g_removeAbove s p = Ok s' -> gn_built s' (fun q => q <= p /\ A q).

(** an increasing enumeration of a set *)
Definition lists (l : list Z) (A : Z -> Prop) : Prop := StronglySorted Z.lt l /\ forall q, In q l <-> A q.
