(** The clique partition of misp4_lag.cpp (C65). *)
From Coq Require Import QArith Qround.
From Verif Require Import Base DDModel DDFrame TspModel TspProofs MispModel MispSpec MispProofs ColorModel ColorProofs SearchLoc LagModel LagSpec.
Local Open Scope nat_scope.

Lemma upd_len {A} (l : list A) i x : length (upd l i x) = length l.
Proof. revert i. induction l as [|a l IH]; intros [|i]; cbn; auto. Qed.
Lemma upd_nth {A} (l : list A) i x j d : i < length l -> nth j (upd l i x) d = if j =? i then x else nth j l d.
Proof. revert i j. induction l as [|a l IH]; intros [|i] [|j] H; cbn in *; try lia; auto. rewrite IH by lia. reflexivity. Qed.

Section Partition.
Variables (nv : nat) (es : list (nat * nat)).
Hypothesis Hes : in_graph nv es.

Lemma in_blist_size s v : In v (blist (N.size_nat s) s) <-> bmem s v = true.
Proof.
  rewrite in_blist. split; [tauto|]. intros H. split; auto. unfold bmem in H.
  destruct (Nat.lt_ge_cases v (N.size_nat s)) as [L|L]; auto. exfalso.
  destruct s as [|p]; [rewrite N.bits_0 in H; discriminate|]. rewrite N.bits_above_log2 in H; [discriminate|].
  pose proof (N.size_log2 (Npos p)) as E. specialize (E ltac:(discriminate)).
  assert (Es : N.of_nat (N.size_nat (Npos p)) = N.size (Npos p)).
  { clear. cbn [N.size_nat N.size]. induction p; cbn [Pos.size_nat Pos.size]; lia. }
  lia.
Qed.
Lemma nb_in i v : In v (nb_list es i) <-> adjacent es i v.
Proof. unfold nb_list. rewrite in_blist_size. apply adjs_spec. Qed.
Lemma nb_lt i v : In v (nb_list es i) -> v < nv.
Proof. intros H. apply nb_in in H as [H|H]; apply Hes in H; lia. Qed.
Lemma rd_ok vis i : i < length vis -> rd vis i = Ok (nth i vis false).
Proof. intros H. unfold rd. rewrite (nth_error_nth' vis false H). reflexivity. Qed.
Lemma degree_ok vis i : length vis = nv -> exists d, degree es vis i = Ok d.
Proof.
  intros L. unfold degree. assert (H : forall v, In v (nb_list es i) -> v < length vis) by (intros v Hv; rewrite L; eapply nb_lt; eauto).
  generalize 0 as k. induction (nb_list es i) as [|v l IH]; intros k; cbn [fold_left]; eauto.
  cbn [bind]. rewrite rd_ok by (apply H; now left). cbn [bind]. apply IH. intros; apply H; now right.
Qed.
Lemma scan_ok vis cand c : length vis = nv -> (forall i, i < nv -> nth i vis false = false -> cand i = Ok (c i)) ->
  exists b, scan nv es vis cand = Ok b /\
    match b with None => forall i, i < nv -> nth i vis false = false -> c i = false | Some (i, _) => i < nv /\ nth i vis false = false /\ c i = true end.
Proof.
  intros L Hc. unfold scan.
  enough (G : forall l b, (forall i, In i l -> i < nv) -> match b with None => True | Some (i, _) => i < nv /\ nth i vis false = false /\ c i = true end ->
    exists b', fold_left (fun r i => do best <- r ; do v <- rd vis i ; if v then Ok best else do x <- cand i ;
      if x then do d <- degree es vis i ; Ok (match best with Some (_, m) => if m <? d then Some (i, d) else best | None => Some (i, d) end) else Ok best) l (Ok b) = Ok b' /\
      match b' with None => b = None /\ forall i, In i l -> nth i vis false = false -> c i = false | Some (i, _) => i < nv /\ nth i vis false = false /\ c i = true end).
  { destruct (G (seq 0 nv) None) as (b & E & H); [intros i Hi; apply in_seq in Hi; lia|exact Logic.I|]. exists b. split; [exact E|].
    destruct b as [[i d]|]; auto. destruct H as [_ H]. intros i Hi. apply H. apply in_seq. lia. }
  induction l as [|i l IH]; intros b Hl Hb; cbn [fold_left].
  - exists b. split; auto. destruct b; auto. split; auto. intros i [].
  - cbn [bind]. assert (Hi : i < nv) by (apply Hl; now left). rewrite rd_ok by lia. cbn [bind].
    destruct (nth i vis false) eqn:Vi.
    + destruct (IH b (fun j Hj => Hl j (or_intror Hj)) Hb) as (b' & E & H). exists b'. split; [exact E|]. destruct b'; auto.
      destruct H as [E' H]. split; auto. intros j [<-|Hj] Vj; [congruence|auto].
    + rewrite (Hc i Hi Vi). cbn [bind]. destruct (c i) eqn:Ci.
      * destruct (degree_ok vis i L) as [d Ed]. rewrite Ed. cbn [bind].
        set (b1 := match b with Some (_, m) => if m <? d then Some (i, d) else b | None => Some (i, d) end).
        assert (B1 : match b1 with None => False | Some (j, _) => j < nv /\ nth j vis false = false /\ c j = true end).
        { unfold b1. destruct b as [[j m]|]; auto. destruct (m <? d); auto. }
        destruct (IH b1 (fun j Hj => Hl j (or_intror Hj))) as (b' & E & H); [destruct b1; auto|]. exists b'. split; [exact E|]. destruct b'; auto.
        destruct H as [E' _]. rewrite E' in B1. destruct B1.
      * destruct (IH b (fun j Hj => Hl j (or_intror Hj)) Hb) as (b' & E & H). exists b'. split; [exact E|]. destruct b'; auto.
        destruct H as [E' H]. split; auto. intros j [<-|Hj] Vj; [auto|auto].
Qed.

Definition unvisited (vis : list bool) : nat := length (filter negb vis).
Lemma unvisited_upd : forall vis i, i < length vis -> nth i vis false = false -> S (unvisited (upd vis i true)) = unvisited vis.
Proof.
  unfold unvisited. induction vis as [|b vis IH]; intros [|i] H E; cbn in *; try lia.
  - now subst.
  - specialize (IH i ltac:(lia) E). destruct b; cbn; lia.
Qed.
Lemma unvisited_mono : forall a b, length a = length b -> (forall i, i < length a -> nth i a false = true -> nth i b false = true) -> unvisited b <= unvisited a.
Proof.
  unfold unvisited. induction a as [|x a IH]; intros [|y b] L H; cbn in *; try lia.
  assert (G : length (filter negb b) <= length (filter negb a)) by (apply IH; [lia|]; intros i Hi; apply (H (S i)); lia).
  assert (H0 := H 0 ltac:(lia)). cbn in H0. destruct x, y; cbn; try lia.
Qed.
Lemma isClique_spec c v : isClique es c v = true <-> forall u, In u c -> adjacent es u v.
Proof. unfold isClique. rewrite forallb_forall. split; intros H u Hu; apply adjs_spec; auto. Qed.

Lemma grow_ok : forall fuel start c vis, length vis = nv -> unvisited vis < fuel -> In start c -> clique es c -> NoDup c -> (forall v, In v c -> v < nv /\ nth v vis false = true) ->
  exists x vis', grow nv es fuel start c vis = Ok (c ++ x, vis') /\ length vis' = nv /\ clique es (c ++ x) /\ NoDup (c ++ x) /\
    (forall v, In v x -> v < nv /\ nth v vis false = false) /\
    (forall v, v < nv -> (nth v vis' false = true <-> nth v vis false = true \/ In v x)) /\
    (forall v, v < nv -> nth v vis' false = false -> exists u, In u (c ++ x) /\ ~ adjacent es u v).
Proof.
  induction fuel as [|fuel IH]; intros start c vis L U Hs Hc ND Hv; [lia|]. cbn [grow].
  destruct (scan_ok vis (fun i => if isClique es c i then if bmem (adjs es start) i then Ok true else Err Unmodelled else Ok false) (isClique es c) L) as (b & E & H).
  { intros i _ _. destruct (isClique es c i) eqn:Ei; auto. assert (A : bmem (adjs es start) i = true); [|now rewrite A].
    apply adjs_spec. apply (proj1 (isClique_spec c i) Ei start Hs). }
  rewrite E. cbn [bind]. destruct b as [[v d]|].
  - destruct H as (Lv & Vv & Cv). pose proof (proj1 (isClique_spec c v) Cv) as Av.
    assert (Nv : ~ In v c). { intros F. apply Hv in F as [_ F]. congruence. }
    assert (Q : forall j, nth j (upd vis v true) false = if j =? v then true else nth j vis false) by (intros; apply upd_nth; lia).
    destruct (IH start (c ++ [v]) (upd vis v true)) as (x & vis' & E' & L' & C' & N' & X' & V' & M').
    + now rewrite upd_len.
    + pose proof (unvisited_upd vis v ltac:(lia) Vv). lia.
    + apply in_or_app; auto.
    + intros a w Ha Hw Ne. apply in_app_or in Ha as [Ha|[<-|[]]]; apply in_app_or in Hw as [Hw|[<-|[]]]; auto; [|congruence].
      destruct (Av w Hw); [right|left]; auto.
    + apply NoDup_rev in ND. rewrite <- (rev_involutive (c ++ [v])). apply NoDup_rev. rewrite rev_app_distr. cbn. constructor; auto. now rewrite <- in_rev.
    + intros w Hw. rewrite Q. apply in_app_or in Hw as [Hw|[<-|[]]]; [|rewrite Nat.eqb_refl; auto]. destruct (Hv w Hw) as [? F]. split; auto. destruct (w =? v); auto.
    + rewrite <- app_assoc in E', C', N', M'. cbn [app] in E', C', N', M'. exists (v :: x), vis'. csplit; auto.
      * intros w [<-|Hw]; auto. destruct (X' w Hw) as [? F]. rewrite Q in F. destruct (w =? v); [discriminate|auto].
      * intros w Hw. rewrite (V' w Hw), Q. cbn [In]. destruct (Nat.eqb_spec w v) as [->|Ne]; [tauto|]. intuition congruence.
  - exists [], vis. rewrite app_nil_r. split; [reflexivity|]. do 3 (split; [auto|]). split; [intros v []|]. split; [intros v _; cbn; tauto|].
    intros v Lv Vv. specialize (H v Lv Vv). apply not_true_iff_false in H. rewrite isClique_spec in H.
    assert (D : forall u, adjacent es u v \/ ~ adjacent es u v).
    { intros u. destruct (bmem (adjs es u) v) eqn:B; [left; now apply adjs_spec|right; intros F; apply adjs_spec in F; congruence]. }
    clear - H D. induction c as [|u c IH]; [exfalso; apply H; intros u []|]. destruct (D u) as [A|A]; [|exists u; split; [now left|auto]].
    destruct IH as (w & Hw & Aw); [|exists w; split; [now right|auto]]. intros F. apply H. intros w [<-|Hw]; auto.
Qed.

(** state of the loop of lines 177-182 *)
Record pinv (vis : list bool) (acc : list (list nat)) : Prop := {
  pv_len : length vis = nv;
  pv_clq : Forall (clique es) acc;
  pv_ne : Forall (fun c => c <> []) acc;
  pv_nd : NoDup (concat acc);
  pv_vis : forall v, (v < nv /\ nth v vis false = true) <-> In v (concat acc);
  pv_max : greedy_maximal es acc;
  pv_out : forall c v, In c acc -> v < nv -> nth v vis false = false -> exists u, In u c /\ ~ adjacent es u v }.
Lemma findMax_ok vis acc : pinv vis acc -> exists c vis', findMaximalClique nv es vis = Ok (c, vis') /\
  match c with [] => forall v, v < nv -> In v (concat acc) | _ => pinv vis' (acc ++ [c]) /\ unvisited vis' < unvisited vis end.
Proof.
  intros [A1 A2 A3 A4 A5 A6 A7]. unfold findMaximalClique, findHighest.
  destruct (scan_ok vis (fun _ => Ok true) (fun _ => true) A1) as (b & E & H); [reflexivity|]. rewrite E. cbn [bind]. destruct b as [[v d]|].
  2:{ exists [], vis. split; auto. intros v Lv. apply A5. split; auto. destruct (nth v vis false) eqn:F; auto. specialize (H v Lv F). discriminate. }
  destruct H as (Lv & Vv & _). assert (Q : forall j, nth j (upd vis v true) false = if j =? v then true else nth j vis false) by (intros; apply upd_nth; lia).
  pose proof (unvisited_upd vis v ltac:(lia) Vv) as U.
  assert (B : unvisited vis <= nv). { unfold unvisited. rewrite <- A1. clear. induction vis as [|b l IH]; cbn; [lia|]. destruct b; cbn; lia. }
  destruct (grow_ok (S nv) v [v] (upd vis v true)) as (x & vis' & E' & L' & C' & N' & X' & V' & M').
  - now rewrite upd_len.
  - lia.
  - now left.
  - intros a w [<-|[]] [<-|[]] Ne. congruence.
  - repeat constructor; auto.
  - intros w [<-|[]]. rewrite Q, Nat.eqb_refl. auto.
  - rewrite E'. exists ([v] ++ x), vis'. split; auto. cbn [app] in *.
    assert (Vx : forall w, w < nv -> (nth w vis' false = true <-> nth w vis false = true \/ In w (v :: x))).
    { intros w Lw. rewrite (V' w Lw), Q. cbn [In]. destruct (Nat.eqb_spec w v) as [->|Ne]; [tauto|]. intuition congruence. }
    assert (Fr : forall w, In w (v :: x) -> w < nv /\ nth w vis false = false).
    { intros w [<-|Hw]; auto. destruct (X' w Hw) as [? F]. rewrite Q in F. destruct (w =? v); [discriminate|auto]. }
    split.
    + constructor; auto.
      * apply Forall_app. split; auto.
      * apply Forall_app. split; auto. constructor; [discriminate|constructor].
      * rewrite concat_app. cbn [concat]. rewrite app_nil_r. clear - A4 N' Fr A5.
        assert (D : forall w, In w (v :: x) -> ~ In w (concat acc)) by (intros w Hw F; apply A5 in F as [_ F]; destruct (Fr w Hw); congruence).
        clear - A4 N' D. induction (concat acc) as [|a l IH]; auto. inversion A4; subst. cbn [app]. constructor.
        -- intros F. apply in_app_or in F as [F|F]; auto. apply (D a F). now left.
        -- apply IH; auto. intros w Hw F. apply (D w Hw). now right.
      * intros w. rewrite concat_app. cbn [concat]. rewrite app_nil_r, in_app_iff. split.
        -- intros [Lw F]. apply (Vx w Lw) in F as [F|F]; [left; apply A5; auto|right; auto].
        -- intros [F|F]; [apply A5 in F as [? F]|destruct (Fr w F)]; split; auto; apply Vx; auto.
      * intros i j w Hij Hw. destruct (Nat.lt_ge_cases j (length acc)) as [Lj|Lj].
        -- rewrite app_nth1 in Hw by lia. rewrite app_nth1 by lia. eapply A6; eauto.
        -- rewrite app_nth2 in Hw by lia. destruct (j - length acc) as [|k] eqn:Ej; [|destruct k; destruct Hw]. cbn [nth] in Hw.
           rewrite app_nth1 by lia. destruct (Fr w Hw). apply A7; auto. apply nth_In. lia.
      * intros c w Hc Lw F. assert (F0 : nth w vis false = false). { apply not_true_iff_false. intros G. apply not_true_iff_false in F. apply F. apply Vx; auto. }
        apply in_app_or in Hc as [Hc|[<-|[]]]; auto.
    + assert (G : unvisited vis' <= unvisited (upd vis v true)); [|lia].
      apply unvisited_mono; [rewrite upd_len; lia|]. intros w Hw G. apply (proj2 (V' w ltac:(rewrite upd_len in Hw; lia))). auto.
Qed.

Lemma loop_ok : forall fuel vis acc, unvisited vis < fuel -> pinv vis acc ->
  exists cs, partition_loop nv es fuel vis acc = Ok cs /\ clique_partition nv es cs /\ greedy_maximal es cs.
Proof.
  induction fuel as [|fuel IH]; intros vis acc U P; [lia|]. cbn [partition_loop].
  destruct (findMax_ok vis acc P) as (c & vis' & E & H). rewrite E. cbn [bind]. destruct c as [|x c].
  - exists acc. split; [reflexivity|]. destruct P as [A1 A2 A3 A4 A5 A6 A7]. split; [|auto]. split; [auto|]. split; [auto|].
    apply NoDup_Permutation; [auto|apply seq_NoDup|]. intros v. rewrite in_seq. split; [intros F; apply A5 in F; lia|]. intros F. apply H. lia.
  - destruct H as [H1 H2]. apply IH; auto. lia.
Qed.

Lemma clq_of_spec cs : NoDup (concat cs) -> (forall v, In v (concat cs) -> v < nv) -> length (clq_of nv cs) = nv /\
  forall v, (forall i, In v (nth i cs []) -> nth v (clq_of nv cs) (-1)%Z = Z.of_nat i) /\ (~ In v (concat cs) -> nth v (clq_of nv cs) (-1)%Z = (-1)%Z).
Proof.
  intros ND B. unfold clq_of.
  assert (In1 : forall (c : list nat) k a, (forall v, In v c -> v < length a) -> length (fold_left (fun a v => upd a v k) c a) = length a /\
    forall v, nth v (fold_left (fun a v => upd a v k) c a) (-1)%Z = if existsb (Nat.eqb v) c then k else nth v a (-1)%Z).
  { induction c as [|u c IH]; intros k a Ha; cbn [fold_left existsb]; auto. destruct (IH k (upd a u k)) as [L1 N1].
    { intros v Hv. rewrite upd_len. apply Ha. now right. } rewrite upd_len in L1. split; auto. intros v. rewrite N1, upd_nth by (apply Ha; now left).
    destruct (existsb (Nat.eqb v) c); [now rewrite orb_true_r|]. rewrite orb_false_r. reflexivity. }
  assert (G : forall (cs : list (list nat)) n a, NoDup (concat cs) -> (forall v, In v (concat cs) -> v < length a) ->
    let r := fold_left (fun a ic => fold_left (fun a v => upd a v (Z.of_nat (fst ic))) (snd ic) a) (combine (seq n (length cs)) cs) a in
    length r = length a /\ forall v, (forall i, In v (nth i cs []) -> nth v r (-1)%Z = Z.of_nat (n + i)) /\ (~ In v (concat cs) -> nth v r (-1)%Z = nth v a (-1)%Z)).
  { clear ND B cs. induction cs as [|c cs IH]; intros n a ND B; cbn [length seq combine fold_left fst snd].
    - split; auto. intros v. split; auto. intros [|i] [].
    - cbn [concat] in ND, B. destruct (In1 c (Z.of_nat n) a) as [L1 N1]; [intros; apply B, in_or_app; auto|].
      set (a1 := fold_left (fun a v => upd a v (Z.of_nat n)) c a) in *.
      assert (ND' : NoDup (concat cs) /\ forall v, In v c -> ~ In v (concat cs)).
      { clear - ND. induction c as [|x c IH]; [split; auto|]. cbn [app] in ND. inversion ND; subst. destruct IH as [I1 I2]; auto. split; auto.
        intros v [<-|Hv]; auto. intros F. apply H1, in_or_app. auto. }
      destruct ND' as [ND1 Dj]. destruct (IH (S n) a1 ND1) as [L2 N2]; [intros v Hv; rewrite L1; apply B, in_or_app; auto|].
      split; [now rewrite L2|]. intros v. destruct (N2 v) as [N3 N4]. split.
      + intros [|i] Hv; cbn [nth] in Hv.
        * rewrite N4 by (now apply Dj). rewrite N1. assert (X : existsb (Nat.eqb v) c = true); [|rewrite X; f_equal; lia].
          apply existsb_exists. exists v. split; auto. apply Nat.eqb_refl.
        * rewrite (N3 i Hv). f_equal. lia.
      + intros F. cbn [concat] in F. rewrite N4 by (intros K; apply F, in_or_app; auto). rewrite N1.
        destruct (existsb (Nat.eqb v) c) eqn:X; auto. apply existsb_exists in X as (y & Hy & Ey). apply Nat.eqb_eq in Ey. subst y. exfalso. apply F, in_or_app. auto. }
  destruct (G cs 0 (repeat (-1)%Z nv) ND) as [L N]; [intros v Hv; rewrite repeat_length; auto|]. rewrite repeat_length in L. split; auto.
  intros v. destruct (N v) as [N1 N2]. split; auto. intros F. rewrite (N2 F). clear. generalize nv as n. intros n. revert v. induction n as [|n IH]; intros [|v]; cbn; auto.
Qed.

Lemma in_concat_nth (cs : list (list nat)) v : In v (concat cs) -> exists i, i < length cs /\ In v (nth i cs []).
Proof.
  intros H. apply in_concat in H as (c & Hc & Hv). destruct (In_nth cs c [] Hc) as (i & Li & Ei). exists i. subst c. auto.
Qed.
Lemma numbers_of cs : clique_partition nv es cs -> numbers nv cs (clq_of nv cs).
Proof.
  intros (_ & _ & P). assert (ND : NoDup (concat cs)) by (eapply Permutation_NoDup; [symmetry; eauto|apply seq_NoDup]).
  assert (B : forall v, In v (concat cs) <-> v < nv). { intros v. split; intros H; [apply (Permutation_in _ P) in H; apply in_seq in H; lia|]. apply (Permutation_in _ (Permutation_sym P)), in_seq. lia. }
  destruct (clq_of_spec cs ND (fun v => proj1 (B v))) as [L N]. split; auto. intros v i Hv. destruct (N v) as [N1 _]. split; auto.
  intros E. destruct (in_concat_nth cs v (proj2 (B v) Hv)) as (k & _ & Hk). rewrite (N1 k Hk) in E. assert (k = i) by lia. now subst.
Qed.
Lemma partition_ok : exists cs, maximalCliquePartition nv es = Ok (mkClq (clq_of nv cs) cs) /\ clique_partition nv es cs /\ greedy_maximal es cs /\ numbers nv cs (clq_of nv cs).
Proof.
  unfold maximalCliquePartition. destruct (loop_ok (S nv) (repeat false nv) []) as (cs & E & H & M).
  - enough (unvisited (repeat false nv) = nv) by lia. unfold unvisited. clear. induction nv as [|n IH]; cbn; auto.
  - constructor; [apply repeat_length|constructor|constructor|constructor| | |intros c v []].
    + intros v. cbn. split; [|tauto]. intros [_ F]. rewrite nth_repeat in F. discriminate.
    + intros i j v _. destruct j; intros [].
  - rewrite E. cbn [bind]. exists cs. csplit; auto; apply numbers_of; auto.
Qed.
End Partition.
