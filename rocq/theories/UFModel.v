(** Model of [UnionFind<T>] (src/uf.hpp).  Executable definitions only.
    A Node is a number (its position in [_all]); the data [_value] is never looked at and is left out.  The list [_all] owns every node, so a
    weak parent pointer never expires while the structure lives. *)
From Verif Require Import Base.

(** src/uf.hpp:11-20, 22 *)
Record uf := mkU {
  u_par : nat -> option nat;   (* _parent *)
  u_sz : nat -> Z;             (* _sz, an int *)
  u_n : nat }.                 (* number of nodes in _all *)
(** src/uf.hpp:24 *)
Definition u_new : uf := mkU (fun _ => None) (fun _ => 0%Z) 0.
(** src/uf.hpp:25-29 with the constructor at 18 *)
Definition u_makeSet (u : uf) : nat * uf := (u_n u, mkU (fupd (u_par u) (u_n u) None) (fupd (u_sz u) (u_n u) 1%Z) (S (u_n u))).
(** src/uf.hpp:30-46; [fuel] bounds the depth of the recursion *)
Fixpoint u_setFor (fuel : nat) (u : uf) (v : nat) : res (uf * nat) :=
  match fuel with
  | O => Err OutOfFuel
  | S f =>
    match u_par u v with
    | None => Ok (u, v)
    | Some p => do (u1, root) <- u_setFor f u p ; Ok (mkU (fupd (u_par u1) v (Some root)) (u_sz u1) (u_n u1), root)
    end
  end.
(** addition of ints: overflow is undefined *)
Definition int_add (a b : Z) : res Z := if (-2147483648 <=? a + b)%Z && (a + b <=? 2147483647)%Z then Ok (a + b)%Z else Err UB.
(** src/uf.hpp:47-59 *)
Definition u_merge (fuel : nat) (u : uf) (s0 s1 : nat) : res (uf * nat) :=
  do (u, r0) <- u_setFor fuel u s0 ;
  do (u, r1) <- u_setFor fuel u s1 ;
  if r0 =? r1 then Ok (u, r0)
  else if (u_sz u r1 <? u_sz u r0)%Z then
    do z <- int_add (u_sz u r0) (u_sz u r1) ; Ok (mkU (fupd (u_par u) r1 (Some r0)) (fupd (u_sz u) r0 z) (u_n u), r0)
  else
    do z <- int_add (u_sz u r1) (u_sz u r0) ; Ok (mkU (fupd (u_par u) r0 (Some r1)) (fupd (u_sz u) r1 z) (u_n u), r0).

(** A client: every node passed was returned by makeSet.  The recursion may be as deep as there are nodes; more is an endless loop. *)
Inductive uop := UMake | UFind (v : nat) | UMerge (a b : nat).
Definition u_do (u : uf) (o : uop) : res (nat * uf) :=
  match o with
  | UMake => Ok (u_makeSet u)
  | UFind v => if v <? u_n u then do (u1, r) <- u_setFor (S (u_n u)) u v ; Ok (r, u1) else Err UB
  | UMerge a b => if (a <? u_n u) && (b <? u_n u) then do (u1, r) <- u_merge (S (u_n u)) u a b ; Ok (r, u1) else Err UB
  end.
Fixpoint u_run (u : uf) (os : list uop) : res (list nat * uf) :=
  match os with
  | [] => Ok ([], u)
  | o :: os' => do (r, u1) <- u_do u o ; do (rs, u2) <- u_run u1 os' ; Ok (r :: rs, u2)
  end.
(** setFor(a) == setFor(b) *)
Definition u_same (u : uf) (a b : nat) : res (uf * bool) :=
  do (u1, ra) <- u_setFor (S (u_n u)) u a ; do (u2, rb) <- u_setFor (S (u_n u1)) u1 b ; Ok (u2, ra =? rb).
