(** The multigraph the arcs stand for: a list of (edge, source, destination). *)
From Verif Require Import Base ArcModel.

Definition graph := list (nat * nat * nat).
Definition redirect (d r x : nat) : nat := if x =? d then r else x.
Inductive g_step (G : graph) : aop -> graph -> Prop :=
| g_add e a b : (forall a' b', ~ In (e, a', b') G) -> a <> b -> g_step G (AAdd e a b) (G ++ [(e, a, b)])
| g_transfer d r : d <> r -> (forall e, ~ In (e, d, r) G) -> (forall e, ~ In (e, r, d) G) ->
    g_step G (ATransfer d r) (map (fun '(e, a, b) => (e, redirect d r a, redirect d r b)) G)
| g_disconnect n : g_step G (ADisconnect n) (filter (fun '(e, a, b) => negb (a =? n) && negb (b =? n)) G).
Inductive g_run (G : graph) : list aop -> graph -> Prop :=
| gr_nil : g_run G [] G
| gr_cons o G1 os G2 : g_step G o G1 -> g_run G1 os G2 -> g_run G (o :: os) G2.

(** the vectors of the nodes list exactly the edges: each edge once among the children of its source, once among the parents of its destination, nowhere else,
    and the counts are the numbers of outgoing and incoming edges *)
Record coherent (s : arcs) (G : graph) : Prop := {
  co_ends : forall e a b, In (e, a, b) G -> a_from s e = a /\ a_to s e = b;
  co_ch : forall n, NoDup (sd_v (a_ch s) n) /\ forall e, In e (sd_v (a_ch s) n) <-> exists b, In (e, n, b) G;
  co_pa : forall n, NoDup (sd_v (a_pa s) n) /\ forall e, In e (sd_v (a_pa s) n) <-> exists a, In (e, a, n) G;
  co_nch : forall n, nbChildren s n = length (filter (fun '(e, a, b) => a =? n) G);
  co_npa : forall n, nbParents s n = length (filter (fun '(e, a, b) => b =? n) G) }.
Definition is_disconnect (o : aop) : bool := match o with ADisconnect _ => true | _ => false end.
Definition is_transfer (o : aop) : bool := match o with ATransfer _ _ => true | _ => false end.
