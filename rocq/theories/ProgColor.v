(** Whole programs: coloring.cpp, coloring2.cpp and coloring3.cpp from the file to the result. *)
From Coq Require Import Ascii.
From Verif Require Import Base DDModel DDSpec DDFrame DDMerge DDExact DDWide SearchModel SearchProofs SearchDyn MispModel ColorModel ColorSpec ColorProofs ColorTop ColorEnd ReadModel ReadSpec ReadProofs ReadRun
  ProgModel ProgSpec ProgProofs.

(** the programs, and from which number of colours on they are not followed *)
Inductive cprogram : forall St, (nat -> list (nat * nat) -> nat -> option Z -> prob St) -> Z -> Prop :=
| cp_1 : cprogram color co_prob 2147483647
| cp_2 : cprogram color2 (fun K es UB => c2_prob K UB (adjs es)) 65536
| cp_3 : cprogram color2 (fun K es UB => c2_prob K UB (c3_adj es)) 65536.
Arguments cprogram {St} prog m.
Lemma cp_program {St} (prog : nat -> list (nat * nat) -> nat -> option Z -> prob St) m K es UB : cprogram prog m -> (Z.of_nat UB < m)%Z -> program K es UB (prog K es UB) /\ (Z.of_nat UB < 2147483647)%Z.
Proof. intros [] H; split; try lia; [apply coloring1|now apply coloring2|now apply coloring3]. Qed.

(** colours as a list *)
Definition listed (K : nat) (c : Z -> Z) : list Z := map (fun v => c (Z.of_nat v)) (seq 0 K).
Definition at_vertex (l : list Z) (v : Z) : Z := nth (Z.to_nat v) l 0%Z.
Section Lists.
Variables (nv : Z) (fe : list (Z * Z)) (es : list (nat * nat)).
Hypothesis Hnv : (1 <= nv)%Z.
Hypothesis He : Forall (fun e => 0 <= fst e < nv /\ 0 <= snd e < nv)%Z fe.
Hypothesis Hes : forall a b, In (a, b) es <-> exists x y, In (x, y) fe /\ a = Z.to_nat x /\ b = Z.to_nat y.
Notation K := (Z.to_nat nv).
Lemma fe_in x y : In (x, y) fe -> (0 <= x < nv /\ 0 <= y < nv)%Z.
Proof. intros H. exact (proj1 (Forall_forall _ _) He (x, y) H). Qed.
Lemma listed_nth c v : v < K -> nth_error (listed K c) v = Some (c (Z.of_nat v)).
Proof. intros H. unfold listed. rewrite (map_nth_error _ v (seq 0 K) (d := v)); auto. rewrite (nth_error_nth' _ 0) by (rewrite seq_length; auto). now rewrite seq_nth. Qed.
Lemma to_listed c : file_colouring fe c -> colouring K es (listed K c).
Proof.
  intros F. split; [unfold listed; now rewrite map_length, seq_length|]. intros a b H u Ha Hb. apply Hes in H as (x & y & H & -> & ->). pose proof (fe_in _ _ H) as [X Y].
  rewrite listed_nth in Ha, Hb by lia. rewrite !Z2Nat.id in * by lia. apply (F x y H). congruence.
Qed.
Lemma in_listed c x : In x (listed K c) <-> exists v, (0 <= v < nv)%Z /\ c v = x.
Proof.
  unfold listed. rewrite in_map_iff. split.
  - intros (v & <- & H). apply in_seq in H. exists (Z.of_nat v). split; auto. lia.
  - intros (v & H & <-). exists (Z.to_nat v). rewrite Z2Nat.id by lia. split; auto. apply in_seq. lia.
Qed.
Lemma uses_listed c k : colours_used nv c k -> uses (listed K c) k.
Proof. intros (cs & A & B & C). exists cs. csplit; auto. intros x. now rewrite C, in_listed. Qed.
Lemma from_list l : colouring K es l -> file_colouring fe (at_vertex l).
Proof.
  intros [L C] x y H E. pose proof (fe_in _ _ H) as [X Y]. apply (C (Z.to_nat x) (Z.to_nat y)) with (u := at_vertex l x).
  - apply Hes. eauto.
  - apply nth_error_nth'. lia.
  - rewrite E. apply nth_error_nth'. lia.
Qed.
Lemma uses_at l k : length l = K -> uses l k -> colours_used nv (at_vertex l) k.
Proof.
  intros L (cs & A & B & C). exists cs. csplit; auto. intros x. rewrite C. unfold at_vertex. split.
  - intros H. destruct (In_nth l x 0%Z H) as (v & Hv & E). exists (Z.of_nat v). rewrite Nat2Z.id. split; auto. lia.
  - intros (v & Hv & <-). apply nth_In. lia.
Qed.
End Lists.

Section Color.
Variables (is : list pitem) (t : list ascii) (nv : Z).
Hypothesis HF : pfile is t.
Hypothesis HN : pN is = [nv].
Hypothesis Hnv : (1 <= nv <= 2147483647)%Z.
Hypothesis He : Forall (fun e => 0 <= fst e < nv /\ 0 <= snd e < nv)%Z (pE is).
Hypothesis Hloop : Forall (fun e => fst e <> snd e) (pE is).
Notation K := (Z.to_nat nv).
(** the K of the file, otherwise the number of vertices *)
Definition upper : nat := let u := last (pK is) (-1)%Z in if (u <? 0)%Z then K else Z.to_nat u.
Context {St : Type} (prog : nat -> list (nat * nat) -> nat -> option Z -> prob St) (m : Z).
Hypothesis CP : cprogram prog m.
Hypothesis HU : (Z.of_nat upper < m)%Z.
Variables (srt : dd St -> list nat -> list nat) (dfuel w : nat) (lim : nat -> bool).
Hypothesis Hsrt : forall dd l, Permutation (srt dd l) l.
Hypothesis Hdf : K + 1 < dfuel.
Hypothesis Hw : (N.of_nat w < 4294967296)%N.
Lemma color_reads : exists es, (forall a b, In (a, b) es <-> exists x y, In (x, y) (pE is) /\ a = Z.to_nat x /\ b = Z.to_nat y) /\ simple_graph K es /\
  forall fuel, main_color srt dfuel lim fuel w prog (Some t) = csearch (prog K es upper) srt dfuel lim fuel w None.
Proof.
  destruct (readPy_ok is t nv (-1) HF HN) as (i & E & E1 & _ & _ & E2 & _); auto; [unfold int_max; lia|]. exists (map idx_edge (in_edges i)).
  assert (IN : forall a b, In (a, b) (map idx_edge (in_edges i)) <-> exists x y, In (x, y) (pE is) /\ a = Z.to_nat x /\ b = Z.to_nat y).
  { intros a b. rewrite in_map_iff. split.
    - intros ([x y] & [= <- <-] & H). exists x, y. csplit; auto. now apply E2.
    - intros (x & y & H & -> & ->). exists (x, y). split; auto. now apply E2. }
  csplit; auto.
  - intros a b H. apply IN in H as (x & y & H & -> & ->). pose proof (proj1 (Forall_forall _ _) He _ H) as [X Y]. pose proof (proj1 (Forall_forall _ _) Hloop _ H) as L. cbn in *. lia.
  - intros fuel. unfold main_color, csearch. rewrite E. cbn [bind]. rewrite E1. replace (nv <? 1)%Z with false by lia. reflexivity.
Qed.
Lemma color_ends fuel : S upper ^ K + 1 <= fuel -> exists s e, main_color srt dfuel lim fuel w prog (Some t) = Ok (s, e).
Proof.
  intros F. destruct color_reads as (es & IN & G & E). destruct (cp_program prog m K es upper CP HU) as [PR HU']. rewrite E.
  apply (pr_total K es upper G ltac:(lia) HU' (prog K es upper) PR srt dfuel w lim Hsrt Hdf Hw fuel F).
Qed.
Lemma color_found fuel s e : main_color srt dfuel lim fuel w prog (Some t) = Ok (s, e) -> b_primal (s_b s) <> 2147483647%Z ->
  exists c k, file_colouring (pE is) c /\ colours_used nv c k /\ k <= upper /\ b_primal (s_b s) = Z.of_nat k /\
    length (b_inc (s_b s)) = K /\ forall v, (0 <= v < nv)%Z -> c v = nth (Z.to_nat v) (b_inc (s_b s)) 0%Z.
Proof.
  destruct color_reads as (es & IN & G & E). destruct (cp_program prog m K es upper CP HU) as [PR HU']. rewrite E. intros R N.
  destruct (pr_found K es upper G ltac:(lia) HU' (prog K es upper) PR srt dfuel w lim Hsrt Hdf Hw fuel s e R) as [Q _]. destruct (Q N) as (C & U & B).
  exists (at_vertex (b_inc (s_b s))), (Z.to_nat (b_primal (s_b s))). csplit; auto; try lia.
  - apply (from_list nv (pE is) es); auto; lia.
  - apply (uses_at nv (pE is) es); auto; first [lia|apply C].
  - apply C.
Qed.
Lemma color_best fuel : lim 0 = false -> 1 <= fuel -> S upper ^ K + 1 <= w ->
  exists s, main_color srt dfuel lim fuel w prog (Some t) = Ok (s, Emptied) /\
    (forall c k, file_colouring (pE is) c -> colours_used nv c k -> k <= upper -> (b_primal (s_b s) <= Z.of_nat k)%Z) /\
    ((exists c k, file_colouring (pE is) c /\ colours_used nv c k /\ k <= upper) -> exists c k, file_colouring (pE is) c /\ colours_used nv c k /\ b_primal (s_b s) = Z.of_nat k).
Proof.
  intros L0 F Wd. destruct color_reads as (es & IN & G & E). destruct (cp_program prog m K es upper CP HU) as [PR HU'].
  destruct (program_family K es upper (prog K es upper) ltac:(lia) PR) as (rep & live & vtx & sup & FA).
  destruct (pr_wide K es upper G ltac:(lia) HU' (prog K es upper) PR srt dfuel w lim Hsrt Hdf Hw fuel L0) as (s & R & _ & B); auto.
  { apply (narrow_of_list _ (fam_states K upper (prog K es upper) None)); [|rewrite fam_states_length; [exact Wd|lia]].
    intros x _ (ls & v & Hp). exact (fam_reach K es upper ltac:(lia) (prog K es upper) rep live vtx sup FA None ls v x Logic.I Hp). }
  assert (Best : forall c k, file_colouring (pE is) c -> colours_used nv c k -> k <= upper -> (b_primal (s_b s) <= Z.of_nat k)%Z).
  { intros c k C U L. apply (B (listed K c) k); auto; [apply (to_listed nv (pE is) es); auto; lia|apply (uses_listed nv (pE is) es); auto; lia]. }
  rewrite <- E in R. exists s. csplit; auto. intros (c & k & C & U & L). pose proof (Best c k C U L) as X.
  destruct (color_found fuel s Emptied R) as (c' & k' & C' & U' & _ & P' & _); [lia|]. exists c', k'. auto.
Qed.
End Color.
