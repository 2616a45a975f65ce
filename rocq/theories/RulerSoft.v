(** gruler.cpp with the equality of the code and any width: a merged state has fewer marks than it counts, so it equals no state of an exact path. *)
From Coq Require Import Sorting.Sorted Permutation.
From Verif Require Import Base BitModel SetModel HeapModel DDModel DDSpec DDFrame DDRestricted DDRestricted2 DDWide DDExact SearchModel SearchProofs SearchDyn NoMerge SoftEq SoftSearch
  TspModel TspProofs RulerModel RulerSpec RulerProofs RulerEnd RulerTop RulerSearch.
Local Open Scope Z_scope.

(** number of marks in the set *)
Definition nmarks (s : ruler) : Z := Z.of_nat (length (members (r_m s))).
Lemma inc_nodup l : StronglySorted Z.lt l -> NoDup l.
Proof. induction 1 as [|x l H IH F]; constructor; auto. rewrite Forall_forall in F. intros X. specialize (F x X). lia. Qed.
Lemma members_nodup m : NoDup (members m).
Proof. apply inc_nodup, inc_members. Qed.
Lemma rep_marks s xs : rep s xs -> nmarks s = r_k s.
Proof.
  intros (G & Mm & _ & K & _). unfold nmarks. assert (E : members (r_m s) = 0 :: xs).
  { apply inc_eq; [apply inc_members|apply G|]. intros x. rewrite in_members. apply Mm. }
  rewrite E, K. cbn [length]. lia.
Qed.
Lemma members_and m m' : incl (members (N.land m m')) (members m) /\ incl (members (N.land m m')) (members m').
Proof. split; intros x Hx; apply in_members, imem_and in Hx as [H1 H2]; now apply in_members. Qed.
Lemma members_add m l : (length (members (N.lor m (setOf [l]))) <= S (length (members m)))%nat.
Proof.
  change (S (length (members m))) with (length (Z.of_nat (Z.to_nat l) :: members m)). apply NoDup_incl_length; [apply members_nodup|].
  intros x Hx. apply in_members, imem_or in Hx as [Hx|Hx]; [right; now apply in_members|left]. unfold setOf in Hx. apply setOf_gen in Hx as [Hx|(H & w & [<-|[]] & E)].
  - now rewrite imem_0 in Hx.
  - lia.
Qed.
Lemma and_fewer m m' : length (members m) = length (members m') -> m <> m' -> (length (members (N.land m m')) < length (members m))%nat.
Proof.
  intros El N. destruct (members_and m m') as [A B]. pose proof (NoDup_incl_length (members_nodup _) A) as La.
  destruct (Nat.eq_dec (length (members (N.land m m'))) (length (members m))) as [Q|]; [exfalso|lia]. apply N.
  assert (A' : incl (members m) (members (N.land m m'))) by (apply NoDup_length_incl; auto; [apply members_nodup|lia]).
  assert (B' : incl (members m') (members (N.land m m'))) by (apply NoDup_length_incl; auto; [apply members_nodup|lia]).
  apply imem_ext. intros v. rewrite <- !in_members. split; auto.
Qed.

Section RulerSoft.
Variables (n L : Z) (opt : Z -> Z).
Hypothesis Hn : 2 <= n.
Hypothesis Ho : opt_valid opt n.
Hypothesis HL : 0 <= L + 1 < 2147483647.
Notation E := (ex_inv n (L + 1)).
(** a state that stems from a merge *)
Definition fewer (s : ruler) : Prop := 1 <= r_k s < n /\ nmarks s < r_k s.
Definition any_inv (s : ruler) : Prop := E s \/ fewer s.

Lemma any_live s : any_inv s -> s <> ru_target n -> 1 <= r_k s < n /\ nmarks s <= r_k s.
Proof.
  intros [[(xs & R & K & _)| ->]|[A B]] N; [|now elim N|lia]. rewrite (rep_marks s xs R). pose proof (rep_k1 s xs R). lia.
Qed.
Lemma gr_soft ub : (forall k, 1 <= k < n -> ub k <= L + 1) -> soft (gr_prob n opt ub ruler_eqb) E any_inv rrank.
Proof.
  intros Hub. pose proof (gr_closed n opt ub (L + 1) HL Hub) as CL. set (P := gr_prob n opt ub ruler_eqb) in *.
  assert (EQ : forall a c, ruler_eqb a c = true -> r_k a = r_k c /\ r_e a = r_e c /\ r_m a = r_m c) by (intros a c; unfold ruler_eqb; rewrite !andb_true_iff, N.eqb_eq, !Z.eqb_eq; tauto).
  assert (QE : forall a c, r_k a = r_k c -> r_e a = r_e c -> r_m a = r_m c -> ruler_eqb a c = true) by (intros a c; unfold ruler_eqb; rewrite !andb_true_iff, N.eqb_eq, !Z.eqb_eq; tauto).
  assert (NE : forall a c, E a -> fewer c -> ruler_eqb a c = true -> False).
  { intros a c [(xs & R & K & _)| ->] [F1 F2] Q; apply EQ in Q as (Q1 & _ & Q3).
    - pose proof (rep_marks a xs R) as X. unfold nmarks in X, F2. rewrite Q3 in X. lia.
    - cbn in Q1. lia. }
  assert (SY : forall a c, ruler_eqb a c = true -> ruler_eqb c a = true) by (intros a c H; apply EQ in H as (? & ? & ?); auto).
  constructor.
  - intros s H. now left.
  - now right.
  - exact (cl_step _ _ CL).
  - intros s l s' [Is|[F1 F2]] N Hl S; [left; exact (cl_step _ _ CL _ _ _ Is N Hl S)|]. apply gr_step in S as [_ [[_ ->]|[Ks ->]]]; [left; now right|right].
    unfold fewer, nmarks in *. cbn [ru_next r_k r_m]. pose proof (members_add (r_m s) l). lia.
  - intros a c Ia Ic Q H. destruct Ia as [Ia|Ia], Ic as [Ic|Ic]; [apply (cl_eqb _ _ CL); auto|now elim (NE a c)|elim (NE c a); auto|].
    destruct H as [H|H]; [elim (NE a a)|elim (NE c c)]; auto.
  - apply QE; auto.
  - intros a c _ _ Q. apply EQ in Q as (Q & _). unfold rrank. now rewrite Q.
  - apply Z.eqb_refl.
  - intros s l s' Is N Hl S N'. destruct (any_live s Is N) as [K _]. apply gr_step in S as [_ [[_ ->]|[Ks ->]]]; [now elim N'|]. unfold rrank. cbn [ru_next r_k]. lia.
  - intros a c m Ia Ic Na Nc. change (p_smf P a c) with (ru_smf a c). unfold ru_smf. destruct ((r_k a =? r_k c) && (r_e a =? r_e c)) eqn:Q; [|discriminate].
    apply andb_true_iff in Q as [Q1 Q2]. apply Z.eqb_eq in Q1, Q2. intros [= <-]. destruct (any_live a Ia Na) as [Ka _], (any_live c Ic Nc) as [Kc _].
    csplit; [|apply (live_target n); cbn; lia|reflexivity].
    destruct (members_and (r_m a) (r_m c)) as [A B]. apply NoDup_incl_length in A, B; try apply members_nodup.
    assert (FW : nmarks a < r_k a \/ nmarks c < r_k a -> any_inv (mkR (N.land (r_m a) (r_m c)) (N.land (r_d a) (r_d c)) (r_k a) (Z.min (r_e a) (r_e c)))).
    { intros X. right. unfold fewer, nmarks in *. cbn [r_k r_m]. lia. }
    destruct Ia as [Ia|[_ Ia]]; [|apply FW; lia]. destruct Ic as [Ic|[_ Ic]]; [|apply FW; lia].
    destruct (N.eq_dec (r_m a) (r_m c)) as [Em|Nm].
    + assert (a = c) as <- by (apply (cl_eqb _ _ CL); auto; apply QE; auto). left. rewrite !N.land_diag, Z.min_id. destruct a. exact Ia.
    + destruct Ia as [(xs & Ra & _)| ->]; [|now elim Na]. destruct Ic as [(ys & Rc & _)| ->]; [|now elim Nc].
      pose proof (rep_marks a xs Ra) as Xa. pose proof (rep_marks c ys Rc) as Xc. right. unfold fewer, nmarks in *. cbn [r_k r_m].
      pose proof (and_fewer (r_m a) (r_m c)). split; [lia|]. lia.
  - reflexivity.
  - reflexivity.
Qed.

Lemma ru_soft b : soft (gr_prob n opt (ru_ub n L opt b) ruler_eqb) E any_inv rrank.
Proof. apply gr_soft. exact (ru_ub_le n L opt b Ho). Qed.

Variable srt : dd ruler -> list nat -> list nat.
Hypothesis Hsrt : forall d l, Permutation (srt d l) l.
Variables dfuel mxw : nat.
Hypothesis Hfuel : (Z.to_nat n + 1 < dfuel)%nat.
Hypothesis Hmxw : (N.of_nat mxw < 4294967296)%N.
Variable lim : nat -> bool.
Variable user : option Z.
Hypothesis Hu : ru_start user <= 2147483647.

Lemma ru_run fuel s e : gr_search n L opt ruler_eqb srt dfuel lim fuel mxw user = Ok (s, e) ->
  (b_primal (s_b s) <> ru_start user -> ruler_of n (b_inc (s_b s)) /\ rlen (b_inc (s_b s)) <= L + 1 /\ b_primal (s_b s) = rlen (b_inc (s_b s))) /\
  (forall ls, In ls (b_log (s_b s)) -> ruler_of n ls /\ rlen ls <= L + 1 /\ rlen ls < ru_start user) /\
  b_primal (s_b s) <= ru_start user.
Proof.
  intros Er. pose proof (gr_nm_setting n L opt Hn Ho HL srt dfuel mxw Hsrt Hfuel Hmxw) as SE. pose proof Hu as Hu'. rewrite <- (start_eq n L opt user ruler_eqb) in Hu' |- *.
  pose proof (gr_nm_dyn n L opt Hn Ho HL _ Hu') as DY.
  destruct (searchD_soft (gr_base n L opt ruler_eqb) (gr_lab n L opt) E any_inv rrank (Z.to_nat n) srt dfuel mxw lim user fuel s e SE Hu' (dyn_ok_sub _ _ _ _ _ _ DY) (fun b _ => ru_soft b) Er) as (A & B & C).
  csplit.
  - intros N. exact (gen_ruler n L opt Hn Ho HL ruler_eqb _ _ (A N)).
  - intros ls Hl. destruct (B ls Hl) as (v & G & Lt). apply gen_ruler in G as (G1 & G2 & ->); auto.
  - exact C.
Qed.
End RulerSoft.
