(** The TSP examples with depot 0: what the undefined bound of the root does when it is large. *)
From Verif Require Import Base HeapModel HeapProofs DDModel DDSpec DDFrame SearchModel SearchProofs TspModel TspSpec TspProofs TourModel TourSpec TourBound TourProofs TourTop.
From Coq Require Import Permutation.

(** ** a large value of the undefined bound *)
Lemma root_prunes {St} (P : prob St) srt dfuel lim fuel mxw user f : p_local P = Some f -> isBetter P (f (p_init P) false) (b_primal (attach P user)) = false -> lim 0 = false -> 1 <= fuel ->
  exists s, search P srt dfuel lim fuel mxw user = Ok (s, Emptied) /\ s_b s = attach P user /\ s_ttl s = 1.
Proof.
  intros EL NB L0 F. destruct fuel as [|k]; [lia|]. unfold search.
  destruct (start_entries P mxw user) as (key & E & Ek & Hh). destruct (start_proj P mxw user) as (_ & _ & Eb & Et & _). rewrite EL in Ek.
  set (s0 := bb_start P mxw user) in *. clearbody s0. cbn [bb_loop].
  assert (Ne : heap_elems (s_pq s0) <> []) by (intros H; unfold entries in E; rewrite H in E; discriminate).
  destruct (heap_empty (s_pq s0)) eqn:H0. { apply (empty_elems (s_pq s0)) in H0; [|apply Hh]. exfalso. apply Ne, H0. }
  destruct (HeapProofs.extractMax_some (q_ord P) (s_pq s0)) as (q & h & EX); [apply Hh|exact Ne|].
  rewrite EX, L0. destruct (HeapProofs.extractMax_ok (q_ord P) (q_ord_swo P) _ _ _ Hh EX) as (Hh' & (l & Pm) & _).
  apply (Permutation_map snd) in Pm. change (map snd (HeapProofs.elems (s_pq s0))) with (entries (s_pq s0)) in Pm. rewrite E in Pm. cbn [map snd] in Pm. apply Permutation_length_1_inv in Pm. injection Pm as Eq Eh. subst q.
  unfold bb_node. cbn [snd popped s_b s_ttl]. rewrite Eb, Ek, NB. cbn [negb bind].
  assert (HE : heap_empty h = true) by (apply (proj2 (empty_elems h (proj1 Hh'))); apply (map_eq_nil snd); exact Eh).
  eexists. split; [destruct k; cbn [bb_loop run_upd popped s_pq]; rewrite HE; reflexivity|]. cbn. split; [reflexivity|now rewrite Et].
Qed.
Lemma tp_root_local nv d junk {St} (P : prob St) n : 1 <= nv -> (Z.of_nat nv <= 2147483647)%Z -> tprogram nv d junk P n ->
  exists f, p_local P = Some f /\ (forall c, f (p_init P) c = junk) /\ p_min P = true.
Proof.
  intros Hnv Sm TP. destruct (tp_shape nv d junk P n Hnv Sm TP) as (live & exact & sup & av & ev & hv & fr & stp & lb & all & SH & LB & LA).
  eexists. split; [apply (ts_local _ _ _ _ _ _ _ _ _ _ _ _ _ _ SH)|]. split; [|apply (ts_min _ _ _ _ _ _ _ _ _ _ _ _ _ _ SH)].
  intros c. cbn beta. rewrite (ts_hv0 _ _ _ _ _ _ _ _ _ _ _ _ _ _ SH). destruct (lb_root _ _ _ LB (av (p_init P)) (ev (p_init P))) as (x & ->). reflexivity.
Qed.
Lemma tp_nothing nv d junk {St} (P : prob St) n srt dfuel lim fuel mxw : 1 <= nv -> (2147483647 <= junk)%Z -> (Z.of_nat nv <= 2147483647)%Z -> tprogram nv d junk P n -> lim 0 = false -> 1 <= fuel ->
  exists s, search P srt dfuel lim fuel mxw None = Ok (s, Emptied) /\ b_primal (s_b s) = 2147483647%Z /\ b_log (s_b s) = [] /\ s_ttl s = 1.
Proof.
  intros Hnv HJ Sm TP L0 F. destruct (tp_root_local nv d junk P n Hnv Sm TP) as (f & EL & Ef & Em).
  destruct (root_prunes P srt dfuel lim fuel mxw None f EL) as (s & E & Eb & Et); auto.
  - rewrite Ef. unfold isBetter, attach, initialBest. cbn [b_primal]. rewrite Em. apply Z.ltb_ge. unfold intMax. lia.
  - exists s. rewrite Eb. csplit; auto. unfold attach, initialBest. cbn. now rewrite Em.
Qed.
