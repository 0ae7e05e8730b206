(** The eleven curves of the crate as one predicate, over any representation of the base field. *)
From Verif Require Import Base Algebra Pow Tower TowerFacts FiniteField Field Params PrimeField
  TowerParams TowerInst SpecCurve SpecCurveFacts Curve CurveFacts CurveGroup
  CurveParams CurveCheck CurveCerts CurveInst.
Local Open Scope Z_scope.

(** ** The curves of the crate, over any representation of the base field *)
Inductive crate_curve : forall {F : Type}, fops F -> cconf F -> aff F -> fconf -> Prop :=
| cv_bn256_g1 F (o : fops F) inj : prime_field (modulus bn256_fq) o inj ->
    crate_curve o (curve_of_bn256_g1 o inj bn256_g1_consts) (gen_aff inj bn256_g1_consts) bn256_fr
| cv_grumpkin F (o : fops F) inj : prime_field (modulus bn256_fr) o inj ->
    crate_curve o (curve_of o inj grumpkin_consts) (gen_aff inj grumpkin_consts) bn256_fq
| cv_bls_g1 F (o : fops F) inj : prime_field (modulus bls12381_fq) o inj ->
    crate_curve o (curve_of o inj bls_g1_consts) (gen_aff inj bls_g1_consts) bls12381_fr
| cv_secp256k1 F (o : fops F) inj : prime_field (modulus secp256k1_fp) o inj ->
    crate_curve o (curve_of o inj secp256k1_consts) (gen_aff inj secp256k1_consts) secp256k1_fq
| cv_secq256k1 F (o : fops F) inj : prime_field (modulus secp256k1_fq) o inj ->
    crate_curve o (curve_of o inj secq256k1_consts) (gen_aff inj secq256k1_consts) secp256k1_fp
| cv_secp256r1 F (o : fops F) inj : prime_field (modulus secp256r1_fp) o inj ->
    crate_curve o (curve_of o inj secp256r1_consts) (gen_aff inj secp256r1_consts) secp256r1_fq
| cv_pluto F (o : fops F) inj : prime_field (modulus pluto_eris_fp) o inj ->
    crate_curve o (curve_of o inj pluto_consts) (gen_aff inj pluto_consts) pluto_eris_fq
| cv_eris F (o : fops F) inj : prime_field (modulus pluto_eris_fq) o inj ->
    crate_curve o (curve_of o inj eris_consts) (gen_aff inj eris_consts) pluto_eris_fp
| cv_bn256_g2 F (o : fops F) inj : prime_field (modulus bn256_fq) o inj ->
    crate_curve (bn256_fq2 o) (curve_of (bn256_fq2 o) (inj2 inj) bn256_g2_consts)
      (gen_aff (inj2 inj) bn256_g2_consts) bn256_fr
| cv_bls_g2 F (o : fops F) inj : prime_field (modulus bls12381_fq) o inj ->
    crate_curve (bls_fq2 o) (curve_of (bls_fq2 o) (inj2 inj) bls_g2_consts)
      (gen_aff (inj2 inj) bls_g2_consts) bls12381_fr
| cv_triton F (o : fops F) inj : prime_field (modulus pluto_eris_fp) o inj ->
    crate_curve (pluto_fp2 o) (curve_of (pluto_fp2 o) (inj2 inj) triton_consts)
      (gen_aff (inj2 inj) triton_consts) pluto_eris_fq.

Lemma bn256_g1_3b {F} (o : fops F) inj x : prime_field (modulus bn256_fq) o inj ->
  mul3b_bn256_g1 o x = mul3b_const o (inj 3) x.
Proof.
  intros HP. pose proof (fl_rl _ (pf_laws _ _ _ HP)) as HR. pose proof (pf_hom _ _ _ HP) as Hh.
  unfold mul3b_bn256_g1, mul3b_const. change 3 with (1 + 1 + 1).
  rewrite !(zh_add _ _ Hh), (zh_1 _ _ Hh), !(rl_dbl _ HR).
  pose proof (rl_ring _ HR) as R. destruct R. 
  assert (D : forall a b, fmul o x (fadd o a b) = fadd o (fmul o x a) (fmul o x b)).
  { intros a b. rewrite Rmul_comm, Rdistr_l, !(Rmul_comm _ x). reflexivity. }
  rewrite !D, !(Rmul_comm x (f1 o)), !Rmul_1_l. rewrite !Radd_assoc. reflexivity.
Qed.

Theorem crate_curve_facts {F} (o : fops F) c g sc : crate_curve o c g sc ->
  curve_facts o c g (modulus sc).
Proof.
  intros HV. destruct HV as [F o inj HP|F o inj HP|F o inj HP|F o inj HP|F o inj HP|F o inj HP|F o inj HP
    |F o inj HP|F o inj HP|F o inj HP|F o inj HP].
  - pose proof (prime_curve_facts bn256_g1_consts _ o inj HP bn256_g1_ok) as Hf. constructor.
    + apply (curve_laws_3b o (curve_of o inj bn256_g1_consts)); [exact (cf_laws _ _ _ _ Hf)|reflexivity|reflexivity|].
      intros x. exact (bn256_g1_3b o inj x HP).
    + exact (cf_gen _ _ _ _ Hf).
    + exact (cf_order _ _ _ _ Hf).
    + exact (cf_three _ _ _ _ Hf).
  - exact (prime_curve_facts grumpkin_consts _ o inj HP grumpkin_ok).
  - exact (prime_curve_facts bls_g1_consts _ o inj HP bls_g1_ok).
  - exact (prime_curve_facts secp256k1_consts _ o inj HP secp256k1_ok).
  - exact (prime_curve_facts secq256k1_consts _ o inj HP secq256k1_ok).
  - exact (prime_curve_facts secp256r1_consts _ o inj HP secp256r1_ok).
  - exact (prime_curve_facts pluto_consts _ o inj HP pluto_ok).
  - exact (prime_curve_facts eris_consts _ o inj HP eris_ok).
  - pose proof (bn256_tower_facts o inj HP) as T.
    exact (quad_curve_facts bn256_tower bn256_g2_consts _ o inj HP (mnr_neg o) (quad_square_complex o)
      (mnr_neg_inj o inj _ HP) (sq_complex o inj _ HP) (tf_2 _ _ _ _ _ T) (tf_2z _ _ _ _ _ T)
      (tf_2fin _ _ _ _ _ T) bn256_g2_ok).
  - pose proof (bls_tower_facts o inj HP) as T.
    exact (quad_curve_facts bls12381_tower bls_g2_consts _ o inj HP (mnr_neg o) (quad_square_complex o)
      (mnr_neg_inj o inj _ HP) (sq_complex o inj _ HP) (tf_2 _ _ _ _ _ T) (tf_2z _ _ _ _ _ T)
      (tf_2fin _ _ _ _ _ T) bls_g2_ok).
  - pose proof (pluto_tower_facts o inj HP) as T.
    exact (quad_curve_facts pluto_tower triton_consts _ o inj HP (mnr_m5 o) (quad_square o (mnr_m5 o))
      (mnr_m5_inj o inj _ HP)
      (quad_square_mul o (mnr_m5 o) _ (fl_rl _ (pf_laws _ _ _ HP)) (mnr_m5_inj o inj _ HP))
      (tf_2 _ _ _ _ _ T) (tf_2z _ _ _ _ _ T) (tf_2fin _ _ _ _ _ T) triton_ok).
Qed.

(** [$base::ZETA] of each curve with a = 0. *)
Inductive endo_curve : forall {F : Type}, fops F -> cconf F -> aff F -> fconf -> F -> Prop :=
| ev_prime F (o : fops F) inj cc : In cc endo_curves -> prime_field (modulus (cc_base cc)) o inj ->
    forall c, ca c = ca (curve_of o inj cc) -> crate_curve o c (gen_aff inj cc) (cc_scalar cc) ->
    endo_curve o c (gen_aff inj cc) (cc_scalar cc) (inj (zeta (cc_base cc)))
| ev_bn256_g2 F (o : fops F) inj : prime_field (modulus bn256_fq) o inj ->
    endo_curve (bn256_fq2 o) (curve_of (bn256_fq2 o) (inj2 inj) bn256_g2_consts)
      (gen_aff (inj2 inj) bn256_g2_consts) bn256_fr (inj2 inj (zeta bn256_fq * zeta bn256_fq, 0))
| ev_bls_g2 F (o : fops F) inj : prime_field (modulus bls12381_fq) o inj ->
    endo_curve (bls_fq2 o) (curve_of (bls_fq2 o) (inj2 inj) bls_g2_consts)
      (gen_aff (inj2 inj) bls_g2_consts) bls12381_fr (inj2 inj (zeta bls12381_fq * zeta bls12381_fq, 0))
| ev_triton F (o : fops F) inj : prime_field (modulus pluto_eris_fp) o inj ->
    endo_curve (pluto_fp2 o) (curve_of (pluto_fp2 o) (inj2 inj) triton_consts)
      (gen_aff (inj2 inj) triton_consts) pluto_eris_fq (inj2 inj (zeta pluto_eris_fp * zeta pluto_eris_fp, 0)).

Lemma endo_curve_crate {F} (o : fops F) c g sc z : endo_curve o c g sc z -> crate_curve o c g sc.
Proof.
  intros HV. destruct HV as [F o inj cc Hi HP c Ec HV|F o inj HP|F o inj HP|F o inj HP].
  - exact HV.
  - exact (cv_bn256_g2 F o inj HP).
  - exact (cv_bls_g2 F o inj HP).
  - exact (cv_triton F o inj HP).
Qed.

Lemma endo_cert cc : In cc endo_curves -> exists u, prime_curve_check cc u = true.
Proof.
  cbn [endo_curves In]. intros [<-|[<-|[<-|[<-|[<-|[<-|[<-|[]]]]]]]].
  - exact (ex_intro _ bn256_g1_noroot bn256_g1_ok).
  - exact (ex_intro _ grumpkin_noroot grumpkin_ok).
  - exact (ex_intro _ bls_g1_noroot bls_g1_ok).
  - exact (ex_intro _ secp256k1_noroot secp256k1_ok).
  - exact (ex_intro _ secq256k1_noroot secq256k1_ok).
  - exact (ex_intro _ pluto_noroot pluto_ok).
  - exact (ex_intro _ eris_noroot eris_ok).
Qed.

Theorem endo_curve_facts {F} (o : fops F) c g sc z : endo_curve o c g sc z ->
  ca c = f0 o /\ fmul o (fmul o z z) z = f1 o
  /\ pt_endo o z (Some (ax g, ay g)) = pt_mulz o (ca c) (zeta sc) (Some (ax g, ay g)).
Proof.
  intros HV. destruct HV as [F o inj cc Hi HP c Ec HV|F o inj HP|F o inj HP|F o inj HP].
  - destruct (endo_cert cc Hi) as (u & Hu).
    assert (He : prime_endo_check cc = true).
    { exact (proj1 (forallb_forall _ _) endo_curves_ok cc Hi). }
    rewrite Ec. exact (prime_curve_endo cc u o inj HP Hu He).
  - pose proof (bn256_tower_facts o inj HP) as T.
    exact (quad_curve_endo bn256_tower bn256_g2_consts _ o inj HP (mnr_neg o) (quad_square_complex o)
      (mnr_neg_inj o inj _ HP) (sq_complex o inj _ HP) (tf_2 _ _ _ _ _ T) (tf_2z _ _ _ _ _ T)
      (tf_2fin _ _ _ _ _ T) bn256_g2_ok (proj1 quad_endo_ok)).
  - pose proof (bls_tower_facts o inj HP) as T.
    exact (quad_curve_endo bls12381_tower bls_g2_consts _ o inj HP (mnr_neg o) (quad_square_complex o)
      (mnr_neg_inj o inj _ HP) (sq_complex o inj _ HP) (tf_2 _ _ _ _ _ T) (tf_2z _ _ _ _ _ T)
      (tf_2fin _ _ _ _ _ T) bls_g2_ok (proj1 (proj2 quad_endo_ok))).
  - pose proof (pluto_tower_facts o inj HP) as T.
    exact (quad_curve_endo pluto_tower triton_consts _ o inj HP (mnr_m5 o) (quad_square o (mnr_m5 o))
      (mnr_m5_inj o inj _ HP)
      (quad_square_mul o (mnr_m5 o) _ (fl_rl _ (pf_laws _ _ _ HP)) (mnr_m5_inj o inj _ HP))
      (tf_2 _ _ _ _ _ T) (tf_2z _ _ _ _ _ T) (tf_2fin _ _ _ _ _ T) triton_ok (proj2 (proj2 quad_endo_ok))).
Qed.
