(** Example and counterexample for PropPasses.v *)
From Verif Require Import Base DDModel DDSpec DDFrame DDExpand DDPasses DDExamples KnapModel TabModel.

Definition get {St} (r : res (dd St)) (d0 : dd St) : dd St := match r with Ok d => d | _ => d0 end.
Lemma get_ok {St} (r : res (dd St)) d0 : match r with Ok _ => true | _ => false end = true -> r = Ok (get r d0).
Proof. destruct r; [reflexivity|discriminate]. Qed.
(** layers number the nodes, the sink comes last *)
Definition lay_f {St} (d : dd St) (i : nat) : nat := if is_ptr (d_trg d) i then 100 else n_layer (d_nd d i).

Lemma passes_example : exists d f, run exP (exSrt exP) 10 (SRelaxed 2) (initialBest exP) = Ok d /\
  wfg d f /\ d_trg d = Some 1 /\ In 1 (d_an d) /\ n_kids (d_nd d 1) = [] /\ d_root d = Some 0 /\ In 0 (d_an d) /\ n_par (d_nd d 0) = [] /\
  small (n_bound (d_nd d 0)) /\ (forall i es w j, gpath d i es w j -> small w) /\ length (d_an d) = 12 /\ d_ne d = 20 /\
  (do d' <- computeBestBackward exP d ; Ok (n_bb (d_nd d' 0))) = Ok 21%Z /\
  (do d' <- computeBest exP d ; Ok (n_bound (d_nd d' 1), n_lab (d_nd d' 1))) = Ok (21%Z, [1; 1; 1; 0]%Z).
Proof.
  set (r := run exP (exSrt exP) 10 (SRelaxed 2) (initialBest exP)). set (d := get r (dd_empty exP true)).
  assert (W : wfg d (lay_f d)) by (apply wfgb_ok; vm_compute; reflexivity).
  exists d, (lay_f d). split; [apply get_ok; vm_compute; reflexivity|]. split; [exact W|]. split; [vm_compute; reflexivity|].
  split; [apply (proj1 (existsb_In _ _)); vm_compute; reflexivity|]. split; [vm_compute; reflexivity|]. split; [vm_compute; reflexivity|].
  split; [apply (proj1 (existsb_In _ _)); vm_compute; reflexivity|]. split; [vm_compute; reflexivity|].
  split; [unfold small; replace (n_bound (d_nd d 0)) with 0%Z by (vm_compute; reflexivity); lia|].
  split; [apply (gpath_small d (lay_f d) 100 100 W); [vm_compute; reflexivity|lia]|].
  repeat (split; [vm_compute; reflexivity|]). vm_compute; reflexivity.
Qed.

Lemma no_way_in {St} (d : dd St) i es w t : (forall e, e < d_ne d -> to d e <> t) -> gpath d i es w t -> i = t.
Proof. intros T G. induction G as [|e es v j He G IH]; auto. exfalso. apply (T e He). auto. Qed.
Definition tdead := mkTab [rw 0 0 1 5] 2 [0; 1; 0] [] None None false.
Lemma back_sentinel_refuted : exists (P : prob nat) d f, wfg d f /\ d_trg d = Some 1 /\ In 1 (d_an d) /\ n_kids (d_nd d 1) = [] /\
  (forall i es w j, gpath d i es w j -> small w) /\ In 0 (d_an d) /\ (forall es w, ~ gpath d 0 es w 1) /\
  exists d', computeBestBackward P d = Ok d' /\ n_bb (d_nd d' 0) = (sentinel P + 5)%Z.
Proof.
  set (P := tabP tdead). set (r := run P (exSrt P) 10 (SRelaxed 3) (initialBest P)). set (d := get r (dd_empty P true)).
  assert (W : wfg d (lay_f d)) by (apply wfgb_ok; vm_compute; reflexivity).
  exists P, d, (lay_f d). split; [exact W|]. split; [vm_compute; reflexivity|].
  split; [apply (proj1 (existsb_In _ _)); vm_compute; reflexivity|]. split; [vm_compute; reflexivity|].
  split; [apply (gpath_small d (lay_f d) 100 100 W); [vm_compute; reflexivity|lia]|].
  split; [apply (proj1 (existsb_In _ _)); vm_compute; reflexivity|]. split.
  - intros es w G. assert (T : forall e, e < d_ne d -> to d e <> 1).
    { intros e He E. assert (I1 : In 1 (d_an d)) by (apply (proj1 (existsb_In _ _)); vm_compute; reflexivity).
      pose proof (proj2 (w_par W 1 e I1) (conj He E)) as A1. assert (Z1 : n_par (d_nd d 1) = []) by (vm_compute; reflexivity).
      rewrite Z1 in A1. destruct A1. }
    apply (no_way_in d _ _ _ _ T) in G. discriminate.
  - eexists. split; [vm_compute; reflexivity|]. reflexivity.
Qed.
