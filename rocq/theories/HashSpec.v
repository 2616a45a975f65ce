(** What a hash table should be: a dictionary, given by the list of its entries, latest first.  Independent of the table's mechanics. *)
From Verif Require Import Base HashModel.

Section Spec.
Context {K V : Type} (eqb : K -> K -> bool).

(** [k] looked up in [d]: the latest entry with an equal key, if there is one *)
Definition looks_up (d : list (K * V)) (k : K) (r : option V) : Prop :=
  match r with
  | Some v => exists d1 k' d2, d = d1 ++ (k', v) :: d2 /\ eqb k' k = true /\ forall e, In e d1 -> eqb (fst e) k = false
  | None => forall e, In e d -> eqb (fst e) k = false
  end.
(** [d'] is [d] with the data of the latest entry equal to [k] replaced by [v] *)
Definition overwrites (d : list (K * V)) (k : K) (v : V) (d' : list (K * V)) : Prop :=
  exists d1 k' w d2, d = d1 ++ (k', w) :: d2 /\ eqb k' k = true /\ (forall e, In e d1 -> eqb (fst e) k = false) /\ d' = d1 ++ (k', v) :: d2.

Inductive dict_step (d : list (K * V)) : hop K V -> hout K V -> list (K * V) -> Prop :=
| ds_get k r : looks_up d k r -> dict_step d (HGet k) (OFound r) d
| ds_insertAt k v : dict_step d (HInsertAt k v) OUnit ((k, v) :: d)
| ds_safe k v : dict_step d (HSafeInsert k v) OUnit ((k, v) :: d)
| ds_ins_new k v : looks_up d k None -> dict_step d (HInsert k v) OUnit ((k, v) :: d)
| ds_ins_old k v d' : overwrites d k v d' -> dict_step d (HInsert k v) OUnit d'
| ds_clear : dict_step d HClear OUnit []
| ds_size : dict_step d HSize (OSize (N.of_nat (length d) mod 4294967296)) d
| ds_all l : Permutation l d -> dict_step d HAll (OAll l) d.

Inductive dict_run (d : list (K * V)) : list (hop K V) -> list (hout K V) -> list (K * V) -> Prop :=
| dr_nil : dict_run d [] [] d
| dr_cons o r d1 os rs d2 : dict_step d o r d1 -> dict_run d1 os rs d2 -> dict_run d (o :: os) (r :: rs) d2.

(** number of clear() calls *)
Fixpoint clears (os : list (hop K V)) : N := match os with [] => 0 | HClear :: os' => 1 + clears os' | _ :: os' => clears os' end.
(** the entries inserted since the last clear, when keys are only inserted with getLoc/insertAt or safeInsert *)
Fixpoint since_clear (d : list (K * V)) (os : list (hop K V)) : list (K * V) :=
  match os with
  | [] => d
  | HInsertAt k v :: os' | HSafeInsert k v :: os' => since_clear ((k, v) :: d) os'
  | HClear :: os' => since_clear [] os'
  | _ :: os' => since_clear d os'
  end.
End Spec.
