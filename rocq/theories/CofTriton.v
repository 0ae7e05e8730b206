(** The group of triton, the twist of pluto over the quadratic extension. *)
From Verif Require Import Base Field SpecField Params
  Algebra Pow Tower TowerFacts FiniteField PrimeField Primality Certs Compute TowerParams TowerInst SpecCurve SpecCurveFacts Group GroupSum
  Curve CurveFacts CurveGroup CurveParams CurveCheck CurveCerts CurveInst CrateCurves CurveSum
  OrderFacts PointFacts CofPoints CofCerts CofGroups CofGroups2.
Local Open Scope Z_scope.

Definition tr_p368 : positive := 508194433436460527446871173854116280656436580304376012253055085313374946805647487990943840223586984484290015869.
Definition tr_h : Z := 169 * 73 * 143653 * 1426393 * 79562281 * Zpos tr_p368.
Notation tw := pluto_tower (only parsing). Notation cc := triton_consts (only parsing).
Lemma tr_chk : (q_kill tw cc tr_t73 73 && q_kill tw cc tr_t143653 143653 && q_kill tw cc tr_t1426393 1426393 && q_kill tw cc tr_t79562281 79562281)
  && (q_mul tw cc tr_t169 13 tr_u169 && q_kill tw cc tr_u169 13 && q_on tw cc tr_t169) = true.
Proof. vm_compute. reflexivity. Qed.
Lemma tr_big : q_kill tw cc tr_tbig tr_p368 = true.
Proof. vm_compute. reflexivity. Qed.
Lemma tr_h_is : tr_h = 2 * modulus pluto_eris_fp - modulus pluto_eris_fq.
Proof. vm_compute. reflexivity. Qed.
Definition tr_c1 : Z := 169 * 1.
Definition tr_c2 : Z := 73 * tr_c1.
Definition tr_c3 : Z := 143653 * tr_c2.
Definition tr_c4 : Z := 1426393 * tr_c3.
Definition tr_c5 : Z := 79562281 * tr_c4.
Lemma tr_nums :
  (2 * (modulus pluto_eris_fp * modulus pluto_eris_fp) + 1 <? 3 * (modulus pluto_eris_fq * tr_h)) && Z.odd (modulus pluto_eris_fq * tr_h)
  && (Z.gcd (modulus pluto_eris_fq) tr_h =? 1)
  && (Z.gcd 73 tr_c1 =? 1) && (Z.gcd 143653 tr_c2 =? 1) && (Z.gcd 1426393 tr_c3 =? 1) && (Z.gcd 79562281 tr_c4 =? 1) && (Z.gcd (Zpos tr_p368) tr_c5 =? 1)
  && (Zpos tr_p368 * tr_c5 =? tr_h) = true.
Proof. vm_compute. reflexivity. Qed.
Lemma tr_primes : prime 13 /\ prime 73 /\ prime 143653 /\ prime 1426393 /\ prime 79562281 /\ prime (Zpos tr_p368).
Proof. split; [|split; [|split; [|split; [|split]]]]; apply cof_prime; vm_compute; reflexivity. Qed.

Section Triton.
Context {F : Type} (o : fops F) (inj : Z -> F) (HP : prime_field (modulus pluto_eris_fp) o inj).
Let T := pluto_tower_facts o inj HP.
Let o2 := pluto_fp2 o.
Let mnr := mnr_m5 o.
Let sq := quad_square o (mnr_m5 o).
Let Hm := mnr_m5_inj o inj _ HP : forall x, mnr x = fmul o (inj (t_beta tw)) x.
Let Hsq := quad_square_mul o (mnr_m5 o) _ (fl_rl _ (pf_laws _ _ _ HP)) (mnr_m5_inj o inj _ HP) : forall a, sq a = quad_mul o mnr a a.
Let H2 := tf_2 _ _ _ _ _ T : field_laws o2.
Let H2z := tf_2z _ _ _ _ _ T : is0_law o2.
Let H2f := tf_2fin _ _ _ _ _ T : finite_field o2 (modulus pluto_eris_fp * modulus pluto_eris_fp).
Let c := curve_of o2 (inj2 inj) cc.
Definition tr_HC : curve_laws o2 c := quad_curve_laws tw cc triton_noroot o inj HP mnr sq Hm Hsq H2 H2z H2f triton_ok.
Let GL := cpt_laws o2 c tr_HC.
Notation g := (cpt_ops o2 c tr_HC).
Notation gm := (gmul g).
Notation is_pt := (is_pt o2 c (inj2 inj)).
Notation indep := (q_indep tw cc triton_noroot o inj HP mnr sq Hm Hsq H2 H2z H2f triton_ok).
Lemma tr_169 : exists S, indep1 g 169 S.
Proof.
  pose proof tr_chk as E. apply andb_prop in E as (_ & E). apply andb_prop in E as (E & E3). apply andb_prop in E as (E1 & E2).
  destruct (q_on_ok tw cc triton_noroot o inj HP mnr sq Hm Hsq H2 H2z H2f triton_ok _ E3) as (S & A). exists S.
  pose proof (q_mul_ok tw cc triton_noroot o inj HP mnr sq Hm Hsq H2 H2z H2f triton_ok _ _ _ _ E1 A) as B.
  destruct (q_kill_ok tw cc triton_noroot o inj HP mnr sq Hm Hsq H2 H2z H2f triton_ok _ _ E2) as (S' & B' & K).
  pose proof (is_pt_uniq o2 c (inj2 inj) _ _ _ B' B) as X. rewrite X in K.
  change 169 with (13 * 13). destruct tr_primes as (P13 & _). apply (indep1_square g GL); [exact P13|exact (is_pt_nz o2 c tr_HC (inj2 inj) _ _ B)|].
  rewrite (gmul_mul _ GL). exact K.
Qed.

Theorem triton_group : exists Gen bs, is_pt (cc_gx cc, cc_gy cc) Gen
  /\ cof_group o2 c tr_HC (modulus pluto_eris_fq) tr_h tr_h Gen bs.
Proof.
  destruct (q_gen tw cc triton_noroot o inj HP mnr sq Hm Hsq H2 H2z H2f triton_ok) as (Gen & Eg & Kg).
  pose proof tr_chk as E. pose proof tr_nums as N.
  destruct tr_primes as (_ & Pa & Pb & Pc & Pd & Pe).
  apply andb_prop in E as (E & _). apply andb_prop in E as (E & E4). apply andb_prop in E as (E & E3). apply andb_prop in E as (E1 & E2).
  apply andb_prop in N as (N & N9). apply andb_prop in N as (N & N8). 
  apply andb_prop in N as (N & N7). apply andb_prop in N as (N & N6). apply andb_prop in N as (N & N5).
  apply andb_prop in N as (N & N4). apply andb_prop in N as (N & N3). apply andb_prop in N as (N1 & N2).
  destruct tr_169 as (T1 & I1).
  destruct (indep _ _ Pa E1) as (T2 & _ & I2). destruct (indep _ _ Pb E2) as (T3 & _ & I3).
  destruct (indep _ _ Pc E3) as (T4 & _ & I4). destruct (indep _ _ Pd E4) as (T5 & _ & I5).
  destruct (indep _ _ Pe tr_big) as (T6 & _ & I6).
  assert (S1 : subgrp g (span g [T1]) tr_c1 tr_c1).
  { exact (span_cyc g GL 169 T1 [] 1 1 (or_intror eq_refl) I1 (span_nil g GL) eq_refl). }
  assert (S2 : subgrp g (span g [T2; T1]) tr_c2 tr_c2).
  { exact (span_cyc g GL 73 T2 [T1] tr_c1 tr_c1 (or_introl Pa) I2 S1 (proj1 (Z.eqb_eq _ _) N4)). }
  assert (S3 : subgrp g (span g [T3; T2; T1]) tr_c3 tr_c3).
  { exact (span_cyc g GL 143653 T3 _ tr_c2 tr_c2 (or_introl Pb) I3 S2 (proj1 (Z.eqb_eq _ _) N5)). }
  assert (S4 : subgrp g (span g [T4; T3; T2; T1]) tr_c4 tr_c4).
  { exact (span_cyc g GL 1426393 T4 _ tr_c3 tr_c3 (or_introl Pc) I4 S3 (proj1 (Z.eqb_eq _ _) N6)). }
  assert (S5 : subgrp g (span g [T5; T4; T3; T2; T1]) tr_c5 tr_c5).
  { exact (span_cyc g GL 79562281 T5 _ tr_c4 tr_c4 (or_introl Pd) I5 S4 (proj1 (Z.eqb_eq _ _) N7)). }
  assert (S6 : subgrp g (span g [T6; T5; T4; T3; T2; T1]) (Zpos tr_p368 * tr_c5) (Zpos tr_p368 * tr_c5)).
  { exact (span_cyc g GL (Zpos tr_p368) T6 _ tr_c5 tr_c5 (or_introl Pe) I6 S5 (proj1 (Z.eqb_eq _ _) N8)). }
  apply Z.eqb_eq in N9, N3. apply Z.ltb_lt in N1. rewrite N9 in S6.
  exists Gen, [T6; T5; T4; T3; T2; T1]. split; [exact Eg|].
  assert (Pr : prime (modulus pluto_eris_fq)).
  { pose proof all_moduli_prime as M. rewrite Forall_forall in M. apply M. cbn [all_fields In]. auto 20. }
  apply (cof_group_intro o2 c tr_HC _ H2f); try assumption.
  apply (indep1_prime g GL); [exact Pr|exact (is_pt_nz o2 c tr_HC (inj2 inj) _ _ Eg)|exact Kg].
Qed.
End Triton.
