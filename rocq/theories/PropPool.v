(** Properties C38, C39: the memory pool (src/store.hpp, src/store.cpp). *)
From Verif Require Import Base PoolModel PoolSpec PoolProofs.
Local Open Scope N_scope.

(** a small pool: a block larger than a segment, marks, reuse of an existing later segment, one that is too small *)
Definition exP : list pop := [PAlloc 40; PMark 1; PAlloc 10; PMark 2; PAlloc 100; PAlloc 1; PClear 2; PAlloc 30; PClear 1; PAlloc 200; PAlloc 3].
Example exP_runs : nested 0 (fun _ => Some O) exP = true /\ sane exP /\ exists s, p_run false (p_init 64) exP =
  Ok ([Some (0%nat, 0); None; Some (0%nat, 48); None; Some (1%nat, 0); Some (2%nat, 0); None; Some (1%nat, 0); None; Some (3%nat, 0); Some (4%nat, 0)], s) /\
  exists l, live_run live0 exP [Some (0%nat, 0); None; Some (0%nat, 48); None; Some (1%nat, 0); Some (2%nat, 0); None; Some (1%nat, 0); None; Some (3%nat, 0); Some (4%nat, 0)] = Some l /\
  l_blocks l = [mkB 0 0 40; mkB 3 0 200; mkB 4 0 3].
Proof.
  split; [vm_compute; reflexivity|]. split; [unfold sane, exP, huge; intros sz H; cbn in H; repeat (destruct H as [H|H]; [first [discriminate H | injection H as <-; lia]|]); destruct H|].
  eexists. split; [vm_compute; reflexivity|]. eexists. split; vm_compute; reflexivity.
Qed.

(** C38, C39: every program that allocates, takes marks and clears to marks in a nested way runs to its end (with the assertions off, as in the default
    Release build), and at its end (so after each of its prefixes) the blocks in use are pairwise disjoint, start at a multiple of 16 and lie inside
    their segment.  In particular the blocks older than a mark stay disjoint from everything allocated after clearing to it. *)
Theorem C38_blocks_disjoint_aligned_inside : forall defSize os, defSize <= huge -> nested 0 (fun _ => Some O) os = true -> sane os ->
  exists rs s l, p_run false (p_init defSize) os = Ok (rs, s) /\ live_run live0 os rs = Some l /\
    pairwise_disjoint (l_blocks l) /\
    forall b, In b (l_blocks l) -> exists len t, nth_error (p_segs (ps_pool s)) (b_seg b) = Some len /\ b_off b + b_size b <= len /\ b_off b = 16 * t.
Proof. exact pool_release. Qed.
Print Assumptions C38_blocks_disjoint_aligned_inside.

(** with assertions on, the same holds if no block is empty or larger than a segment *)
Theorem C38_debug_build : forall defSize os, defSize <= huge -> defSize mod 16 = 0 -> nested 0 (fun _ => Some O) os = true ->
  (forall sz, In (PAlloc sz) os -> 0 < sz <= defSize) -> exists rs s, p_run true (p_init defSize) os = Ok (rs, s).
Proof. exact pool_debug. Qed.
Print Assumptions C38_debug_build.
Example C38_debug_nontrivial : exists s, p_run true (p_init 64) [PMark 1; PAlloc 40; PAlloc 30; PAlloc 50; PClear 1; PAlloc 64; PAlloc 1] =
  Ok ([None; Some (0%nat, 0); Some (1%nat, 0); Some (2%nat, 0); None; Some (0%nat, 0); Some (1%nat, 0)], s).
Proof. eexists. vm_compute. reflexivity. Qed.

(** with assertions on, a block larger than a segment is refused when the current segment is empty, and so is a large block after clearing when a
    later segment is too small; without assertions both are served *)
Theorem C38_debug_assertion_refuted :
  p_run true (p_init 64) [PAlloc 65] = Err UB /\ p_run true (p_init 64) [PAlloc 16; PMark 1; PAlloc 64; PClear 1; PAlloc 80] = Err UB /\
  (exists s, p_run false (p_init 64) [PAlloc 65] = Ok ([Some (1%nat, 0)], s)) /\
  exists s, p_run false (p_init 64) [PAlloc 16; PMark 1; PAlloc 64; PClear 1; PAlloc 80] = Ok ([Some (0%nat, 0); None; Some (1%nat, 0); None; Some (2%nat, 0)], s).
Proof. split; [vm_compute; reflexivity|]. split; [vm_compute; reflexivity|]. split; eexists; vm_compute; reflexivity. Qed.
Print Assumptions C38_debug_assertion_refuted.

(** sizes within 15 of 2^64 are rounded to 0: the call succeeds and the block overlaps the next one *)
Theorem C38_rounding_refuted : exists sz s, sz < w64 /\ p_run false (p_init 64) [PAlloc sz; PAlloc 8] = Ok ([Some (0%nat, 0); Some (0%nat, 0)], s) /\
  ~ disjoint (mkB 0 0 sz) (mkB 0 0 8).
Proof.
  exists 18446744073709551615. eexists. split; [reflexivity|]. split; [vm_compute; reflexivity|]. intros H. apply (H O 0); unfold holds; cbn [b_seg b_off b_size]; split; lia.
Qed.
Print Assumptions C38_rounding_refuted.

(** C39: after clearing to a mark the space is reused: repeating the allocations made since the mark gives the same addresses, and no new segment.
    (From any state from which the allocations succeed; that is every reachable state by C38.) *)
Theorem C39_clear_reuses : forall s k sizes rs s1, p_run false s (map PAlloc sizes) = Ok (rs, s1) ->
  exists s2 s3, p_run false s (PMark k :: map PAlloc sizes ++ [PClear k]) = Ok (None :: rs ++ [None], s2) /\ p_mark (ps_pool s2) = p_mark (ps_pool s) /\
    p_run false s2 (map PAlloc sizes) = Ok (rs, s3) /\ p_segs (ps_pool s3) = p_segs (ps_pool s1).
Proof. exact pool_reuse. Qed.
Print Assumptions C39_clear_reuses.
Example C39_nontrivial : exists s1 rs, p_run false (p_init 64) (map PAlloc [40; 100; 8; 60]) = Ok (rs, s1) /\ length (p_segs (ps_pool s1)) = 4%nat.
Proof. do 2 eexists. split; vm_compute; reflexivity. Qed.
