(** C45: FArray and matrix indexing *)
From Verif Require Import Base MatModel MatSpec MatProofs.

(** any number of dimensions, at most 2^31 cells: the index expression is defined and inside the allocation, two in-range tuples never share a cell, and every
    cell is some tuple's.  Missing for the full claim: more than 2^31 cells, where it is false (below) *)
Theorem C45_index_partial dims : dims <> [] -> Forall (fun d => 0 < d)%Z dims -> (prodOf dims <= 2147483648)%Z ->
  (forall idx, in_range dims idx -> exists z, mx_index dims idx = Ok z /\ (0 <= z < prodOf dims)%Z) /\
  (forall idx idx' z, in_range dims idx -> in_range dims idx' -> mx_index dims idx = Ok z -> mx_index dims idx' = Ok z -> idx = idx') /\
  (forall z, (0 <= z < prodOf dims)%Z -> exists idx, in_range dims idx /\ mx_index dims idx = Ok z).
Proof.
  intros Hne Hpos Hp. split; [|split].
  - intros idx H. eexists. apply index_ok; auto.
  - intros idx idx' z H H' E E'. rewrite (proj1 (index_ok _ _ Hne H Hp)) in E. rewrite (proj1 (index_ok _ _ Hne H' Hp)) in E'. apply (radix_inj dims idx H idx' 0 0 H'). congruence.
  - intros z Hz. destruct (radix_surj dims Hpos 0%Z z) as [idx [Hi Er]]; [lia|]. exists idx. split; [exact Hi|]. rewrite (proj1 (index_ok _ _ Hne Hi Hp)). congruence.
Qed.
Example C45_index_hyp : [3; 4; 5]%Z <> [] /\ Forall (fun d => 0 < d)%Z [3; 4; 5]%Z /\ (prodOf [3; 4; 5] <= 2147483648)%Z /\ in_range [3; 4; 5]%Z [2; 1; 4]%Z /\ mx_index [3; 4; 5]%Z [2; 1; 4]%Z = Ok 49%Z.
Proof. split; [discriminate|]. split; [repeat constructor|]. split; [cbn; lia|]. split; [repeat constructor; lia | vm_compute; reflexivity]. Qed.

(** FArrays are sequences: for every program of constructions, copies, moves, assignments, element accesses, comparisons and destructions that the specification allows,
    the implementation answers the same, every object holds its own cells, and once all objects are gone nothing is left allocated *)
Theorem C45_farray_is_sequence os l F : v_run fam0 os l F ->
  exists s, f_run fs0 os = Ok (s, l) /\ shows s F /\ ((forall i, F i = Absent) -> forall b, h_blk (fs_h s) b = None).
Proof. intros H. destruct (f_runs os fs0 fam0 l F inv0 H) as [s [E Hi]]. exists s. split; [exact E|]. split; [apply Hi|]. intros HF. exact (inv_noleak s F Hi HF). Qed.

(** after any such program, a store in a matrix is what the next read of the same tuple returns; all other tuples and all other objects are unchanged *)
Theorem C45_store_read_partial os l F i L dims s idx v : v_run fam0 os l F -> F i = Val L -> dims <> [] -> Z.of_nat (length L) = prodOf dims -> (prodOf dims <= 2147483648)%Z ->
  f_run fs0 os = Ok (s, l) -> in_range dims idx ->
  exists s', mx_set s i dims idx v = Ok s' /\ mx_get s' i dims idx = Ok v /\
    (forall idx', in_range dims idx' -> idx' <> idx -> mx_get s' i dims idx' = mx_get s i dims idx') /\
    exists L', shows s' (fupd F i (Val L')) /\ length L' = length L.
Proof.
  intros H HF Hne HL Hp Er Hi. destruct (f_runs os fs0 fam0 l F inv0 H) as [s1 [E1 Hv]]. assert (s1 = s) as -> by congruence.
  assert (Hix : forall idx, in_range dims idx -> mx_index dims idx = Ok (radix 0 dims idx) /\ (0 <= radix 0 dims idx < prodOf dims)%Z) by (intros; apply index_ok; auto).
  destruct (Hix idx Hi) as [Ez Hz]. set (z := radix 0 dims idx) in *.
  assert (Hk : Z.to_nat z < length L) by lia.
  destruct (f_step s F (FSet i (Z.to_nat z) v) ONone _ Hv (v_set F i (Z.to_nat z) L v HF Hk)) as [s' [Es Hv']].
  exists s'. unfold mx_set. rewrite Ez. cbn [bind]. destruct (Z.ltb_spec z 0); [lia|]. rewrite Es. cbn [bind]. split; [reflexivity|].
  assert (Hget : forall s0 F0 L0 idx0, inv s0 F0 -> F0 i = Val L0 -> length L0 = length L -> in_range dims idx0 ->
    mx_get s0 i dims idx0 = match nth_error L0 (Z.to_nat (radix 0 dims idx0)) with Some (Some x) => Ok x | _ => Err UB end).
  { intros s0 F0 L0 idx0 Hv0 HF0 HL0 Hi0. destruct (Hix idx0 Hi0) as [Ez0 Hz0]. unfold mx_get. rewrite Ez0. cbn [bind]. destruct (Z.ltb_spec (radix 0 dims idx0) 0); [lia|].
    unfold f_do, f_obj. destruct (obj_val _ _ _ _ Hv0 HF0) as [o [Eo [Em [Et Hl]]]]. rewrite Eo. cbn [bind]. unfold h_cell.
    destruct (f_tab o) as [b|]; [|subst L0; cbn in HL0; lia]. rewrite Hl. destruct (nth_error L0 (Z.to_nat (radix 0 dims idx0))) as [[x|]|]; reflexivity. }
  assert (Hs' : fupd F i (Val (upd_at L (Z.to_nat z) (Some v))) i = Val (upd_at L (Z.to_nat z) (Some v))) by apply fupd_same.
  assert (Hlen := upd_len L (Z.to_nat z) (Some v) Hk).
  split; [|split].
  - rewrite (Hget _ _ _ idx Hv' Hs' Hlen Hi). fold z. rewrite upd_nth by exact Hk. rewrite Nat.eqb_refl. reflexivity.
  - intros idx' Hi' Hd. rewrite (Hget _ _ _ idx' Hv' Hs' Hlen Hi'), (Hget _ _ _ idx' Hv HF eq_refl Hi'). rewrite upd_nth by exact Hk. destruct (Hix idx' Hi') as [_ Hz'].
    destruct (Nat.eqb_spec (Z.to_nat (radix 0 dims idx')) (Z.to_nat z)) as [Eq|]; [|reflexivity]. destruct Hd. assert (Er2 : radix 0 dims idx' = radix 0 dims idx) by (fold z; lia).
    apply (radix_inj dims idx' Hi' idx 0 0 Hi) in Er2. apply Er2.
  - exists (upd_at L (Z.to_nat z) (Some v)). split; [apply Hv' | exact Hlen].
Qed.
(** Matrix(r, c) makes an array of r*c cells and leaves no temporary behind; copying a matrix copies the cells *)
Theorem C45_make_copy os l F s i tmp j dims : v_run fam0 os l F -> f_run fs0 os = Ok (s, l) -> F i = Absent -> F tmp = Absent -> F j = Absent -> i <> tmp -> i <> j ->
  Forall (fun d => 0 <= d)%Z dims ->
  exists s1, mx_make s i tmp dims = Ok s1 /\ shows s1 (fupd F i (Val (repeat None (Z.to_nat (prodOf dims))))) /\
  exists s2, mx_copy s1 j i = Ok s2 /\ shows s2 (fupd (fupd F i (Val (repeat None (Z.to_nat (prodOf dims))))) j (Val (repeat None (Z.to_nat (prodOf dims))))).
Proof.
  intros H Er Hi Ht Hj Hit Hij _. destruct (f_runs os fs0 fam0 l F inv0 H) as [s0 [E0 Hv]]. assert (s0 = s) as -> by congruence. set (n := Z.to_nat (prodOf dims)).
  destruct (f_step _ _ _ _ _ Hv (v_default F i Hi)) as [s1 [E1 H1]].
  assert (A2 : fupd F i (Val []) tmp = Absent) by (rewrite fupd_diff; auto).
  destruct (f_step _ _ (FNew tmp n) ONone _ H1 (v_new _ tmp n A2)) as [s2 [E2 H2]]. set (F2 := fupd (fupd F i (Val [])) tmp (Val (repeat None n))) in *.
  assert (A3 : F2 i <> Absent) by (unfold F2; rewrite fupd_diff by auto; rewrite fupd_same; discriminate).
  assert (A3' : F2 tmp = Val (repeat None n)) by apply fupd_same.
  destruct (f_step _ _ (FMoveA i tmp) ONone _ H2 (v_movea _ i tmp (repeat None n) Hit A3 A3')) as [s3 [E3 H3]]. set (F3 := fupd (fupd F2 i (Val (repeat None n))) tmp (Moved (length (repeat (@None Z) n)))) in *.
  assert (A4 : F3 tmp <> Absent) by (unfold F3; rewrite fupd_same; discriminate).
  destruct (f_step _ _ (FDestroy tmp) ONone _ H3 (v_destroy _ tmp A4)) as [s4 [E4 H4]].
  exists s4. unfold mx_make. rewrite E1. cbn [bind]. fold n. rewrite E2. cbn [bind]. rewrite E3. cbn [bind]. rewrite E4. cbn [bind]. split; [reflexivity|].
  assert (H5 : inv s4 (fupd F i (Val (repeat None n)))).
  { eapply inv_ext; [exact H4|]. intros x. unfold F3, F2. rewrite !fupd_eq. destruct (Nat.eqb_spec x tmp) as [Hx|], (Nat.eqb_spec x i) as [Hy|]; auto; [congruence | congruence]. }
  split; [apply H5|].
  assert (A5 : fupd F i (Val (repeat None n)) j = Absent) by (rewrite fupd_diff; auto).
  destruct (f_step _ _ _ _ _ H5 (v_default _ j A5)) as [s5 [E5 H6]].
  assert (A6 : fupd (fupd F i (Val (repeat None n))) j (Val []) j = Val []) by apply fupd_same.
  assert (A7 : fupd (fupd F i (Val (repeat None n))) j (Val []) i = Val (repeat None n)) by (rewrite fupd_diff by auto; apply fupd_same).
  destruct (f_step _ _ (FAssign j i) ONone _ H6 (v_assign _ j i (repeat None n) [] A6 A7)) as [s6 [E6 H7]].
  exists s6. unfold mx_copy. rewrite E5. cbn [bind]. rewrite E6. cbn [bind]. split; [reflexivity|].
  apply (inv_ext _ _ (fupd (fupd F i (Val (repeat None n))) j (Val (repeat None n))) H7). intros x. rewrite !fupd_eq. destruct (x =? j); reflexivity.
Qed.

(** a program: two arrays, a copy changed independently, a move, an assignment between different sizes, everything destroyed *)
Definition exF : list fop := [FFill 0 3 7%Z; FCopy 1 0; FSet 1 2 9%Z; FGet 0 2; FEq 0 1; FMoveC 2 1; FFill 3 2 5%Z; FAssign 3 2; FGet 3 2; FEq 3 2; FMoveA 0 3; FGet 0 2; FSize 0; FDestroy 0; FDestroy 1; FDestroy 2; FDestroy 3].
Definition exFo : list fout := [ONone; ONone; ONone; OVal 7%Z; OBool false; ONone; ONone; ONone; OVal 9%Z; OBool true; ONone; OVal 9%Z; OSize 3; ONone; ONone; ONone; ONone].
Ltac v_tac := match goal with
  | |- v_run _ [] _ _ => apply vr_nil
  | |- v_run _ (FEq _ _ :: _) (OBool ?b :: _) _ => eapply vr_cons; [first [apply (v_eq _ _ _ [7; 7; 7]%Z [7; 7; 9]%Z b); [reflexivity | reflexivity | split; discriminate] | apply (v_eq _ _ _ [7; 7; 9]%Z [7; 7; 9]%Z b); [reflexivity | reflexivity | split; reflexivity]]|]
  | |- v_run _ (FMoveA _ _ :: _) _ _ => eapply vr_cons; [eapply v_movea; [discriminate | discriminate | reflexivity]|]
  | |- v_run _ (FSize _ :: _) _ _ => eapply vr_cons; [eapply (v_size _ _ [Some 7; Some 7; Some 9]%Z); reflexivity|]
  | |- v_run _ (_ :: _) _ _ => eapply vr_cons; [econstructor; first [reflexivity | discriminate | cbn; lia]|]
  end.
Example C45_farray_hyp : exists F, v_run fam0 exF exFo F /\ (forall i, i < 4 -> F i = Absent).
Proof. eexists. split; [unfold exF, exFo; repeat v_tac|]. intros i Hi. do 4 (destruct i as [|i]; [reflexivity|]). lia. Qed.
Definition exM : list fop := [FNew 0 6; FSet 0 5 1%Z].
Definition exML : list (option Z) := [None; None; None; None; None; Some 1%Z].
Example C45_store_hyp : v_run fam0 exM [ONone; ONone] (fupd (fupd fam0 0 (Val (repeat None 6))) 0 (Val exML)) /\ Z.of_nat (length exML) = prodOf [2; 3]%Z /\ in_range [2; 3]%Z [1; 1]%Z.
Proof. split; [unfold exM, exML; repeat v_tac|]. split; [reflexivity | repeat constructor; lia]. Qed.
Example C45_store_result :
  match f_run fs0 exM with
  | Ok (s, _) => match mx_set s 0 [2; 3]%Z [1; 1]%Z 8%Z with Ok s' => (mx_get s' 0 [2; 3]%Z [1; 1]%Z, mx_get s' 0 [2; 3]%Z [1; 2]%Z) | Err e => (Err e, Err e) end
  | Err e => (Err e, Err e)
  end = (Ok 8%Z, Ok 1%Z).
Proof. vm_compute. reflexivity. Qed.
Example C45_make_hyp : v_run fam0 [] [] fam0 /\ f_run fs0 [] = Ok (fs0, []) /\ fam0 0 = Absent /\ fam0 1 = Absent /\ fam0 2 = Absent /\ Forall (fun d => 0 <= d)%Z [2; 3]%Z.
Proof. repeat split; try constructor; try lia. constructor; [lia | constructor]. Qed.

(** findings.  (a) the index expression is computed in int: a 65536 x 65536 matrix fits in memory as far as the allocation is concerned, but m[40000][0] overflows *)
Theorem C45_overflow_refuted : exists dims idx, in_range dims idx /\ (prodOf dims < 2 ^ 64)%Z /\ mx_index dims idx = Err UB.
Proof. exists [65536; 65536]%Z, [40000; 0]%Z. split; [repeat constructor; lia|]. split; vm_compute; reflexivity. Qed.
(** (b) a moved-from array keeps its size: assigning it an array of that very size writes through the null pointer *)
Theorem C45_assign_moved_refuted : f_run fs0 [FFill 0 3 7%Z; FMoveC 1 0; FFill 2 3 1%Z; FAssign 0 2] = Err UB.
Proof. vm_compute. reflexivity. Qed.
(** (c) self move assignment frees the cells and leaves a null pointer behind with the old size *)
Theorem C45_self_move_refuted : match f_run fs0 [FFill 0 3 7%Z; FMoveA 0 0; FSize 0] with Ok (s, l) => h_blk (fs_h s) 0 = None /\ l = [ONone; ONone; OSize 3] | Err _ => False end /\
  f_run fs0 [FFill 0 3 7%Z; FMoveA 0 0; FSize 0; FGet 0 1] = Err UB.
Proof. vm_compute. auto. Qed.

Print Assumptions C45_index_partial.
Print Assumptions C45_farray_is_sequence.
Print Assumptions C45_store_read_partial.
Print Assumptions C45_make_copy.
Print Assumptions C45_overflow_refuted.
Print Assumptions C45_assign_moved_refuted.
Print Assumptions C45_self_move_refuted.
