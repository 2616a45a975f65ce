(** gruler.cpp: a state determines the value of the marks that lead to it, and has at most L+1 labels; so with that width no better node is ever refused as seen. *)
From Verif Require Import Base BitModel SetModel HeapModel DDModel DDSpec DDFrame DDRestricted DDRestricted2 DDWide DDExact SearchModel SearchProofs SearchDyn SearchCut NoMerge
  TspModel TspProofs RulerModel RulerSpec RulerProofs RulerEnd RulerTop RulerSearch.
Local Open Scope Z_scope.

Section RulerFan.
Variables (n L : Z) (opt : Z -> Z).
Hypothesis Hn : 2 <= n.
Hypothesis Ho : opt_valid opt n.
Hypothesis HL : 0 <= L + 1 < 2147483647.
Notation GB := (gr_base n L opt ruler_eqb2).
Notation lab := (gr_lab n L opt).

Lemma gr_cost ub eqb s ls v t : path (gr_prob n opt ub eqb) s ls v t -> t <> ru_target n -> v = r_e t - r_e s.
Proof.
  induction 1 as [|s l s' ls v t N Hl S Hp IH]; intros Nt; [lia|]. specialize (IH Nt). cbn [gr_prob p_cost]. unfold ru_scf.
  apply gr_step in S as [_ [[_ ->]|[_ ->]]]; [|cbn [ru_next r_e] in IH; lia].
  exfalso. apply Nt. inversion Hp; subst; auto. exfalso. match goal with H : ru_target n <> _ |- _ => now apply H end.
Qed.
Lemma gr_one_value : one_value GB.
Proof. intros ls v ls' v' s N H H'. rewrite (gr_cost _ _ _ _ _ _ H N), (gr_cost _ _ _ _ _ _ H' N). reflexivity. Qed.
Lemma lb_pos e k : e + 1 <= ru_lb n opt (e + 1) k.
Proof. unfold ru_lb. destruct (_ <? _); lia. Qed.
Lemma gr_fan p0 w : L + 1 <= Z.of_nat w -> fan_le GB lab p0 w.
Proof.
  intros W b s _ N (ls & v & H). unfold gr_lab, ru_lgf, closeInc. rewrite map_length, seq_length.
  apply (gr_eqb_path n opt _ _ ruler_eqb) in H. apply (ru_prefix n L opt 2147483647) in H; auto. destruct H as [(xs & R & K & _)| ->]; [|now elim N].
  pose proof (rep_k1 s xs R) as K1. pose proof R as (G & _ & _ & _ & Re).
  assert (E0 : 0 <= r_e s) by (rewrite Re; exact (proj2 (golomb_le xs 0 G (or_introl eq_refl)))).
  pose proof (ru_ub_le n L opt b Ho (r_k s) ltac:(lia)). pose proof (lb_pos (r_e s) (r_k s)). lia.
Qed.

Variable srt : dd ruler -> list nat -> list nat.
Hypothesis Hsrt : forall d l, Permutation (srt d l) l.
Variables dfuel mxw : nat.
Hypothesis Hfuel : (Z.to_nat n + 1 < dfuel)%nat.
Hypothesis Hmxw : (N.of_nat mxw < 4294967296)%N.
Variable lim : nat -> bool.
Variable user : option Z.
Hypothesis Hu : ru_start user <= 2147483647.
Lemma ru2_fan fuel s : gr_search n L opt ruler_eqb2 srt dfuel lim fuel mxw user = Ok (s, Emptied) -> L + 1 <= Z.of_nat mxw -> hist_ok GB s ->
  forall ls, ruler_of n ls -> rlen ls <= L + 1 -> b_primal (s_b s) <= rlen ls.
Proof.
  intros E W HH ls R Bd. pose proof (gr2_setting n L opt Hn Ho HL srt dfuel mxw Hsrt Hfuel Hmxw) as SE. pose proof Hu as Hu'. rewrite <- (start_eq n L opt user ruler_eqb2) in Hu'.
  pose proof (gr2_dyn n L opt Hn Ho HL _ Hu') as DY.
  apply (searchD_optimal_fan GB (rl_inv n) rrank (Z.to_nat n) srt dfuel mxw SE lim user Hu' lab DY fuel s eq_refl E); auto.
  - intros V S. apply (gr_solution n L opt Hn Ho HL ruler_eqb2) in S as (zs & (G & _) & _ & ->). pose proof (golomb_le zs 0 G (or_introl eq_refl)). change (-2147483647 <= rlen zs). lia.
  - now apply gr_fan.
  - exact (one_value_kept GB (rl_inv n) rrank (Z.to_nat n) srt dfuel mxw SE lim user Hu' lab DY fuel s Emptied E gr_one_value).
  - apply (gr_solution n L opt Hn Ho HL ruler_eqb2). eauto.
Qed.
End RulerFan.
