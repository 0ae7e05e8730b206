(** Properties C25-C28, C35 and C44: the curve group.  [crate_curve o c g sc]
    ranges over the eleven curves of the crate, over any representation [o] of
    the base field; [g] is the generator literal and [sc] the scalar field.
    [prep o c p P]: the homogeneous coordinates [p] stand for the point [P];
    [arep o c p P]: the same for affine coordinates (CurveFacts.v). *)
From Verif Require Import Base Algebra Tower TowerFacts SpecField Field FieldFacts FieldSerdeFacts Params PrimeField
  Certs TowerParams TowerInst SpecCurve SpecCurveFacts Curve CurveFacts CurveGroup CurveParams CurveInst CrateCurves
  Props_Field Props_Tower.
Local Open Scope Z_scope.

(** Concrete instances of every curve. *)
Lemma ex_field c : In c all_fields -> prime_field (modulus c) (zp_ops (modulus c)) (zp_inj (modulus c)).
Proof. exact (field_in c). Qed.
Example crate_curve_bn256_g1 : let p := modulus bn256_fq in
  crate_curve (zp_ops p) (curve_of_bn256_g1 (zp_ops p) (zp_inj p) bn256_g1_consts)
    (gen_aff (zp_inj p) bn256_g1_consts) bn256_fr.
Proof. apply cv_bn256_g1, field_in. vm_compute. auto 20. Qed.
Example crate_curve_secp256r1 : let p := modulus secp256r1_fp in
  crate_curve (zp_ops p) (curve_of (zp_ops p) (zp_inj p) secp256r1_consts)
    (gen_aff (zp_inj p) secp256r1_consts) secp256r1_fq.
Proof. apply cv_secp256r1, field_in. vm_compute. auto 20. Qed.
Example crate_curve_bls_g2 : let p := modulus bls12381_fq in
  crate_curve (bls_fq2 (zp_ops p)) (curve_of (bls_fq2 (zp_ops p)) (inj2 (zp_inj p)) bls_g2_consts)
    (gen_aff (inj2 (zp_inj p)) bls_g2_consts) bls12381_fr.
Proof. apply cv_bls_g2, field_in. vm_compute. auto 20. Qed.
(** The generator meets the hypotheses [prep] and [arep] of the theorems below. *)
Example generator_reps : forall F (o : fops F) c g sc, crate_curve o c g sc ->
  arep o c g (Some (ax g, ay g)) /\ prep o c (to_curve o g) (Some (ax g, ay g)).
Proof.
  intros F o c g sc HV. pose proof (crate_curve_facts o c g sc HV) as Hf.
  split; [exact (cf_gen _ _ _ _ Hf)|]. apply (to_curve_repr o c (cf_laws _ _ _ _ Hf)). exact (cf_gen _ _ _ _ Hf).
Qed.

Section Statements.
Context {F : Type} (o : fops F) (c : cconf F) (g : aff F) (sc : fconf) (HV : crate_curve o c g sc).
Local Notation add := (pt_add o (ca c)). Local Notation neg := (pt_neg o). Local Notation mulz := (pt_mulz o (ca c)).
Let Hf := crate_curve_facts o c g sc HV.
Let HC := cf_laws _ _ _ _ Hf.

Lemma prep_on p P : prep o c p P -> on_curve o (ca c) (cb c) P.
Proof. exact (fun E => proj1 E). Qed.
Lemma prep_not_zero p P : prep o c p P -> (px p, py p, pz p) <> (f0 o, f0 o, f0 o).
Proof.
  intros [_ E] X. pose proof (f_equal snd X) as X3. pose proof (f_equal (fun t => snd (fst t)) X) as X2. cbn in X2, X3. destruct P as [[x y]|].
  - exact (proj1 E X3).
  - destruct E as (_ & Y & _). exact (Y X2).
Qed.
Lemma on_comm P Q : on_curve o (ca c) (cb c) P -> on_curve o (ca c) (cb c) Q -> add P Q = add Q P.
Proof. exact (add_comm o (ca c) (cb c) (cl_field _ _ HC) (cl_two _ _ HC) P Q). Qed.
Lemma on_assoc P Q R : on_curve o (ca c) (cb c) P -> on_curve o (ca c) (cb c) Q -> on_curve o (ca c) (cb c) R ->
  add (add P Q) R = add P (add Q R).
Proof.
  apply (add_assoc o (ca c) (cb c) (cl_field _ _ HC) (cl_two _ _ HC)).
  intros x E. destruct (cl_no2 _ _ HC x E).
Qed.
Lemma scalar_in : In sc all_fields.
Proof.
  clear Hf HC. destruct HV; cbn [all_fields In]; repeat (first [left; reflexivity|right]).
Qed.
Lemma scalar_odd : odd_conf sc.
Proof. exact (proj1 (Forall_forall _ _) all_fields_odd sc scalar_in). Qed.
Lemma scalar_prime : prime (modulus sc).
Proof. exact (proj1 (Forall_forall _ _) all_moduli_prime sc scalar_in). Qed.

Lemma s_add p q P Q : prep o c p P -> prep o c q Q -> prep o c (proj_add o c p q) (add P Q).
Proof. exact (add_repr o c HC p q P Q). Qed.
Lemma s_comm p q P Q : prep o c p P -> prep o c q Q ->
  proj_eq o (proj_add o c p q) (proj_add o c q p) = true.
Proof.
  intros Hp Hq. apply (proj_eq_repr o c HC _ _ _ _ (s_add _ _ _ _ Hp Hq) (s_add _ _ _ _ Hq Hp)).
  apply on_comm; [exact (proj1 Hp)|exact (proj1 Hq)].
Qed.
Lemma s_assoc p q r P Q R : prep o c p P -> prep o c q Q -> prep o c r R ->
  proj_eq o (proj_add o c (proj_add o c p q) r) (proj_add o c p (proj_add o c q r)) = true.
Proof.
  intros Hp Hq Hr. apply (proj_eq_repr o c HC _ _ _ _ (s_add _ _ _ _ (s_add _ _ _ _ Hp Hq) Hr)
    (s_add _ _ _ _ Hp (s_add _ _ _ _ Hq Hr))).
  apply on_assoc; [exact (proj1 Hp)|exact (proj1 Hq)|exact (proj1 Hr)].
Qed.
Lemma s_id p P : prep o c p P ->
  proj_eq o (proj_add o c p (proj_identity o)) p = true
  /\ proj_eq o (proj_add o c (proj_identity o) p) p = true.
Proof.
  intros Hp. pose proof (identity_repr o c HC) as Hi. split.
  - apply (proj_eq_repr o c HC _ _ _ _ (s_add _ _ _ _ Hp Hi) Hp). destruct P as [[x y]|]; reflexivity.
  - apply (proj_eq_repr o c HC _ _ _ _ (s_add _ _ _ _ Hi Hp) Hp). reflexivity.
Qed.
Lemma s_neg p P : prep o c p P ->
  proj_eq o (proj_add o c p (proj_neg o p)) (proj_identity o) = true
  /\ proj_is_identity o (proj_sub o c p p) = true.
Proof.
  intros Hp. pose proof (neg_repr o c HC p P Hp) as Hn. split.
  - apply (proj_eq_repr o c HC _ _ _ _ (s_add _ _ _ _ Hp Hn) (identity_repr o c HC)).
    exact (add_neg o (ca c) (cl_field _ _ HC) P).
  - rewrite (is_identity_repr o c HC _ _ (sub_repr o c HC _ _ _ _ Hp Hp)).
    rewrite (add_neg o (ca c) (cl_field _ _ HC) P). reflexivity.
Qed.
Lemma s_eq_equiv p q r P Q R : prep o c p P -> prep o c q Q -> prep o c r R ->
  proj_eq o p p = true /\ (proj_eq o p q = true -> proj_eq o q p = true)
  /\ (proj_eq o p q = true -> proj_eq o q r = true -> proj_eq o p r = true)
  /\ (proj_eq o p q = true -> proj_eq o (proj_add o c p r) (proj_add o c q r) = true).
Proof.
  intros Hp Hq Hr. repeat split.
  - apply (proj_eq_repr o c HC _ _ _ _ Hp Hp). reflexivity.
  - intros E. apply (proj_eq_repr o c HC _ _ _ _ Hp Hq) in E. subst.
    apply (proj_eq_repr o c HC _ _ _ _ Hq Hp). reflexivity.
  - intros E E'. apply (proj_eq_repr o c HC _ _ _ _ Hp Hq) in E. apply (proj_eq_repr o c HC _ _ _ _ Hq Hr) in E'.
    apply (proj_eq_repr o c HC _ _ _ _ Hp Hr). congruence.
  - intros E. apply (proj_eq_repr o c HC _ _ _ _ Hp Hq) in E. subst.
    apply (proj_eq_repr o c HC _ _ _ _ (s_add _ _ _ _ Hp Hr) (s_add _ _ _ _ Hq Hr)). reflexivity.
Qed.
Lemma s_mul p P k x : prep o c p P -> represents (num_limbs sc) (modulus sc) k x ->
  prep o c (proj_mul o c p (to_repr sc k)) (mulz x P).
Proof.
  intros Hp Hk. destruct (to_repr_spec sc scalar_odd k x Hk) as (_ & B & <-).
  exact (proj_mul_repr o c HC p P _ Hp B).
Qed.
Lemma s_amul p P k x : arep o c p P -> represents (num_limbs sc) (modulus sc) k x ->
  prep o c (aff_mul o c p (to_repr sc k)) (mulz x P).
Proof.
  intros Hp Hk. destruct (to_repr_spec sc scalar_odd k x Hk) as (_ & B & <-).
  exact (aff_mul_repr o c HC p P _ Hp B).
Qed.
Lemma s_round p P : prep o c p P -> proj_eq o (to_curve o (to_affine o p)) p = true.
Proof.
  intros Hp. apply (proj_eq_repr o c HC _ _ _ _
    (to_curve_repr o c HC _ _ (to_affine_repr o c HC _ _ Hp)) Hp). reflexivity.
Qed.
Lemma s_round_aff q Q : arep o c q Q -> to_affine o (to_curve o q) = q.
Proof.
  intros Hq. exact (arepr_unique o c _ _ _ (to_affine_repr o c HC _ _ (to_curve_repr o c HC _ _ Hq)) Hq).
Qed.
Lemma s_z0 x y : proj_is_on_curve o c (mk_proj x y (f0 o)) = true.
Proof. apply (proj_on_curve_iff o c HC). left. reflexivity. Qed.
Lemma s_z0_bad : ~ exists P, prep o c (mk_proj (f0 o) (f0 o) (f0 o)) P.
Proof. intros [P E]. exact (prep_not_zero _ _ E eq_refl). Qed.
Lemma s_order k : mulz k (Some (ax g, ay g)) = None <-> (modulus sc | k).
Proof.
  apply (mulz_order o c HC); [exact (proj1 (cf_gen _ _ _ _ Hf))|exact scalar_prime|discriminate|].
  exact (cf_order _ _ _ _ Hf).
Qed.

Let HR := fl_rl _ (cl_field _ _ HC).
Add Field FP : (field_thy o (cl_field _ _ HC)).
Notation "4" := (fadd o (fadd o (f1 o) (f1 o)) (fadd o (f1 o) (f1 o))).
Notation "3" := (fadd o (fadd o (f1 o) (f1 o)) (f1 o)).
Infix "*" := (fmul o). Infix "+" := (fadd o).
Lemma s_disc : 4 * (ca c * ca c * ca c) + 3 * 3 * 3 * (cb c * cb c) <> f0 o.
Proof.
  pose proof (cl_field _ _ HC) as H. pose proof (cl_two _ _ HC) as H2. pose proof (cf_three _ _ _ _ Hf) as H3.
  intros E. destruct (feqb_dec o H (ca c) (f0 o)) as [A|A].
  - rewrite A in E.
    assert (X : (3 * 3 * 3) * (cb c * cb c) = f0 o) by (rewrite <- E; ring).
    apply (mul_integral o H) in X. destruct X as [X|X].
    + apply (mul_integral o H) in X. destruct X as [X|X]; [|exact (H3 X)].
      apply (mul_integral o H) in X. destruct X; contradiction.
    + assert (B : cb c = f0 o) by (apply (mul_integral o H) in X; destruct X; assumption).
      apply (cl_no2 _ _ HC (f0 o)). rewrite B. ring.
  - set (d := (f1 o + f1 o) * ca c). assert (D : d <> f0 o) by (apply (mul_nonzero o H); assumption).
    set (x := quot o (fneg o (3 * cb c)) d).
    assert (X : x * d = fneg o (3 * cb c)) by (apply (quot_mul o H); exact D).
    apply (cl_no2 _ _ HC x).
    apply (mul_cancel_l o H (d * d * d)); [apply (mul_nonzero o H); [apply (mul_nonzero o H)|]; exact D|].
    transitivity ((x * d) * (x * d) * (x * d) + ca c * d * d * (x * d) + cb c * d * d * d); [ring|].
    rewrite X. unfold d.
    transitivity (fneg o (cb c * (4 * (ca c * ca c * ca c) + 3 * 3 * 3 * (cb c * cb c)))); [ring|].
    rewrite E. ring.
Qed.
End Statements.

(** C25 *)
Theorem C25_add : forall F (o : fops F) c g sc, crate_curve o c g sc -> forall p q P Q,
  prep o c p P -> prep o c q Q ->
  prep o c (proj_add o c p q) (pt_add o (ca c) P Q)
  /\ prep o c (proj_sub o c p q) (pt_add o (ca c) P (pt_neg o Q))
  /\ prep o c (proj_double o c p) (pt_add o (ca c) P P)
  /\ prep o c (proj_neg o p) (pt_neg o P).
Proof.
  intros F o c g sc HV p q P Q Hp Hq. pose proof (cf_laws _ _ _ _ (crate_curve_facts o c g sc HV)) as HC.
  split; [exact (add_repr o c HC p q P Q Hp Hq)|]. split; [exact (sub_repr o c HC p q P Q Hp Hq)|].
  split; [exact (double_repr o c HC p P Hp)|exact (neg_repr o c HC p P Hp)].
Qed.
Print Assumptions C25_add.
Theorem C25_mixed : forall F (o : fops F) c g sc, crate_curve o c g sc -> forall p q r P Q R,
  prep o c p P -> arep o c q Q -> arep o c r R ->
  prep o c (proj_madd o c p q) (pt_add o (ca c) P Q)
  /\ prep o c (proj_msub o c p q) (pt_add o (ca c) P (pt_neg o Q))
  /\ prep o c (aff_add_proj o c q p) (pt_add o (ca c) P Q)
  /\ prep o c (aff_sub_proj o c q p) (pt_add o (ca c) (pt_neg o P) Q)
  /\ prep o c (aff_add o c q r) (pt_add o (ca c) Q R)
  /\ prep o c (aff_sub o c q r) (pt_add o (ca c) Q (pt_neg o R))
  /\ arep o c (aff_neg o q) (pt_neg o Q).
Proof.
  intros F o c g sc HV p q r P Q R Hp Hq Hr.
  pose proof (cf_laws _ _ _ _ (crate_curve_facts o c g sc HV)) as HC.
  refine (conj _ (conj _ (conj _ (conj _ (conj _ (conj _ _)))))).
  - exact (madd_repr o c HC p q P Q Hp Hq).
  - exact (msub_repr o c HC p q P Q Hp Hq).
  - exact (madd_repr o c HC p q P Q Hp Hq).
  - exact (madd_repr o c HC _ q _ Q (neg_repr o c HC p P Hp) Hq).
  - exact (aff_add_repr o c HC q r Q R Hq Hr).
  - exact (aff_add_repr o c HC q _ Q _ Hq (aneg_repr o c HC r R Hr)).
  - exact (aneg_repr o c HC q Q Hq).
Qed.
Print Assumptions C25_mixed.
(** No operation returns the invalid triple: no triple standing for a point is (0,0,0). *)
Theorem C25_never_zero_triple : forall F (o : fops F) c p P, prep o c p P ->
  (px p, py p, pz p) <> (f0 o, f0 o, f0 o) /\ on_curve o (ca c) (cb c) P.
Proof. exact (fun F o c p P Hp => conj (prep_not_zero o c p P Hp) (proj1 Hp)). Qed.
Print Assumptions C25_never_zero_triple.
Theorem C25_sum : forall F (o : fops F) c g sc, crate_curve o c g sc -> forall ps Ps,
  Forall2 (prep o c) ps Ps -> prep o c (proj_sum o c ps) (pt_sum o (ca c) Ps).
Proof.
  exact (fun F o c g sc HV => proj_sum_repr o c (cf_laws _ _ _ _ (crate_curve_facts o c g sc HV))).
Qed.
Print Assumptions C25_sum.

(** C26 *)
Theorem C26_group : forall F (o : fops F) c g sc, crate_curve o c g sc -> forall p q r P Q R,
  prep o c p P -> prep o c q Q -> prep o c r R ->
  proj_eq o (proj_add o c p q) (proj_add o c q p) = true
  /\ proj_eq o (proj_add o c (proj_add o c p q) r) (proj_add o c p (proj_add o c q r)) = true
  /\ proj_eq o (proj_add o c p (proj_identity o)) p = true
  /\ proj_eq o (proj_add o c (proj_identity o) p) p = true
  /\ proj_eq o (proj_add o c p (proj_neg o p)) (proj_identity o) = true
  /\ proj_is_identity o (proj_sub o c p p) = true.
Proof.
  intros F o c g sc HV p q r P Q R Hp Hq Hr.
  destruct (s_id o c g sc HV p P Hp), (s_neg o c g sc HV p P Hp).
  repeat apply conj; try assumption.
  - exact (s_comm o c g sc HV p q P Q Hp Hq).
  - exact (s_assoc o c g sc HV p q r P Q R Hp Hq Hr).
Qed.
Print Assumptions C26_group.
(** [proj_eq] is a congruence on points. *)
Theorem C26_eq : forall F (o : fops F) c g sc, crate_curve o c g sc -> forall p q r P Q R,
  prep o c p P -> prep o c q Q -> prep o c r R ->
  proj_eq o p p = true /\ (proj_eq o p q = true -> proj_eq o q p = true)
  /\ (proj_eq o p q = true -> proj_eq o q r = true -> proj_eq o p r = true)
  /\ (proj_eq o p q = true -> proj_eq o (proj_add o c p r) (proj_add o c q r) = true).
Proof. exact (fun F o c g sc HV => s_eq_equiv o c g sc HV). Qed.
Print Assumptions C26_eq.

(** C27.  [k] are the Montgomery limbs of a scalar of value [x]. *)
Theorem C27_mul : forall F (o : fops F) c g sc, crate_curve o c g sc -> forall p P k x,
  prep o c p P -> represents (num_limbs sc) (modulus sc) k x ->
  prep o c (proj_mul o c p (to_repr sc k)) (pt_mulz o (ca c) x P).
Proof. exact (fun F o c g sc HV => s_mul o c g sc HV). Qed.
Print Assumptions C27_mul.
Theorem C27_mul_affine : forall F (o : fops F) c g sc, crate_curve o c g sc -> forall p P k x,
  arep o c p P -> represents (num_limbs sc) (modulus sc) k x ->
  prep o c (aff_mul o c p (to_repr sc k)) (pt_mulz o (ca c) x P).
Proof. exact (fun F o c g sc HV => s_amul o c g sc HV). Qed.
Print Assumptions C27_mul_affine.

(** C28 *)
Theorem C28_eq : forall F (o : fops F) c g sc, crate_curve o c g sc -> 
  (forall p q P Q, prep o c p P -> prep o c q Q -> (proj_eq o p q = true <-> P = Q))
  /\ (forall p q P Q, arep o c p P -> arep o c q Q -> (aff_eq o p q = true <-> P = Q)).
Proof.
  intros F o c g sc HV. pose proof (cf_laws _ _ _ _ (crate_curve_facts o c g sc HV)) as HC.
  exact (conj (proj_eq_repr o c HC) (aff_eq_repr o c HC)).
Qed.
Print Assumptions C28_eq.
Theorem C28_conversions : forall F (o : fops F) c g sc, crate_curve o c g sc ->
  (forall p P, prep o c p P -> arep o c (to_affine o p) P
     /\ proj_eq o (to_curve o (to_affine o p)) p = true)
  /\ (forall q Q, arep o c q Q -> prep o c (to_curve o q) Q /\ to_affine o (to_curve o q) = q).
Proof.
  intros F o c g sc HV. pose proof (cf_laws _ _ _ _ (crate_curve_facts o c g sc HV)) as HC. split.
  - intros p P Hp. exact (conj (to_affine_repr o c HC p P Hp) (s_round o c g sc HV p P Hp)).
  - intros q Q Hq. exact (conj (to_curve_repr o c HC q Q Hq) (s_round_aff o c g sc HV q Q Hq)).
Qed.
Print Assumptions C28_conversions.
(** For every vector, also of triples standing for no point; no panic. *)
Theorem C28_batch_normalize : forall F (o : fops F) c g sc, crate_curve o c g sc -> forall ps,
  batch_normalize o ps = Some (map (to_affine o) ps).
Proof.
  exact (fun F o c g sc HV => batch_normalize_spec o c (cf_laws _ _ _ _ (crate_curve_facts o c g sc HV))).
Qed.
Print Assumptions C28_batch_normalize.
Theorem C28_affine_on_curve : forall F (o : fops F) c g sc, crate_curve o c g sc -> forall p,
  (aff_is_on_curve o c p = true <-> exists P, arep o c p P)
  /\ (forall x y, from_xy o c x y = Some p <-> p = mk_aff x y /\ exists P, arep o c p P).
Proof.
  intros F o c g sc HV p. pose proof (cf_laws _ _ _ _ (crate_curve_facts o c g sc HV)) as HC.
  split; [exact (aff_on_curve_iff o c HC p)|].
  intros x y. destruct (from_xy_spec o c HC x y) as [[-> E]|[-> E]]; split.
  - intros X. inversion X; subst. auto.
  - intros [-> _]. reflexivity.
  - discriminate.
  - intros [-> X]. contradiction.
Qed.
Print Assumptions C28_affine_on_curve.
(** The projective test: exact for z <> 0 ... *)
Theorem C28_proj_on_curve_partial : forall F (o : fops F) c g sc, crate_curve o c g sc -> forall p,
  pz p <> f0 o -> (proj_is_on_curve o c p = true <-> exists P, prep o c p P).
Proof.
  intros F o c g sc HV p Hz. pose proof (cf_laws _ _ _ _ (crate_curve_facts o c g sc HV)) as HC.
  rewrite (proj_on_curve_iff o c HC p). split.
  - intros [E|(x & y & E)]; [contradiction|eauto].
  - intros [[[x y]|] E]; [eauto|]. destruct E as (_ & _ & _ & E). contradiction.
Qed.
Print Assumptions C28_proj_on_curve_partial.
(** ... but it accepts every triple with z = 0, also (0,0,0), which is no point. *)
Theorem C28_proj_on_curve_refuted : forall F (o : fops F) c g sc, crate_curve o c g sc ->
  (forall x y, proj_is_on_curve o c (mk_proj x y (f0 o)) = true)
  /\ ~ exists P, prep o c (mk_proj (f0 o) (f0 o) (f0 o)) P.
Proof. exact (fun F o c g sc HV => conj (s_z0 o c g sc HV) (s_z0_bad o c)). Qed.
Print Assumptions C28_proj_on_curve_refuted.
Theorem C28_jacobian : forall F (o : fops F) c g sc, crate_curve o c g sc -> forall p P, prep o c p P ->
  let '(x, y, z) := jacobian_coordinates o p in exists q, new_jacobian o c x y z = Some q /\ prep o c q P.
Proof.
  exact (fun F o c g sc HV => jacobian_round_trip o c (cf_laws _ _ _ _ (crate_curve_facts o c g sc HV))).
Qed.
Print Assumptions C28_jacobian.

(** C35.  [endo_curve o c g sc z]: the ten curves with a = 0, with [z] the ZETA of the base field. *)
Theorem C35_endo : forall F (o : fops F) c g sc z, endo_curve o c g sc z ->
  (forall p P, prep o c p P -> prep o c (proj_endo o z p) (pt_endo o z P))
  /\ (forall P Q, on_curve o (ca c) (cb c) P -> on_curve o (ca c) (cb c) Q ->
        pt_endo o z (pt_add o (ca c) P Q) = pt_add o (ca c) (pt_endo o z P) (pt_endo o z Q))
  /\ (forall k, let P := pt_mulz o (ca c) k (Some (ax g, ay g)) in
        pt_endo o z P = pt_mulz o (ca c) (zeta sc) P).
Proof.
  intros F o c g sc z HE. pose proof (endo_curve_crate o c g sc z HE) as HV.
  pose proof (crate_curve_facts o c g sc HV) as Hf. pose proof (cf_laws _ _ _ _ Hf) as HC.
  destruct (endo_curve_facts o c g sc z HE) as (A & Z3 & EG). split; [|split].
  - exact (proj_endo_repr o c HC z A Z3).
  - exact (endo_add o c HC z A Z3).
  - exact (endo_eigen o c HC z A Z3 (zeta sc) _ (proj1 (cf_gen _ _ _ _ Hf)) EG).
Qed.
Print Assumptions C35_endo.
(** The same on coordinates: [endo(p)] and [p * ZETA] are equal points for every
    [p] of the subgroup, where [zl] are the limbs of the scalar ZETA. *)
Theorem C35_endo_mul : forall F (o : fops F) c g sc z, endo_curve o c g sc z -> forall p k zl,
  prep o c p (pt_mulz o (ca c) k (Some (ax g, ay g))) ->
  represents (num_limbs sc) (modulus sc) zl (zeta sc) ->
  proj_eq o (proj_endo o z p) (proj_mul o c p (to_repr sc zl)) = true.
Proof.
  intros F o c g sc z HE p k zl Hp Hz. pose proof (endo_curve_crate o c g sc z HE) as HV.
  destruct (C35_endo F o c g sc z HE) as (E1 & _ & E3).
  apply (proj1 (C28_eq F o c g sc HV) _ _ _ _ (E1 _ _ Hp) (s_mul o c g sc HV _ _ _ _ Hp Hz)). exact (E3 k).
Qed.
Print Assumptions C35_endo_mul.
Example C35_instance : let p := modulus secp256k1_fp in
  endo_curve (zp_ops p) (curve_of (zp_ops p) (zp_inj p) secp256k1_consts)
    (gen_aff (zp_inj p) secp256k1_consts) secp256k1_fq (zp_inj p (zeta secp256k1_fp)).
Proof.
  assert (HP : prime_field (modulus secp256k1_fp) (zp_ops (modulus secp256k1_fp)) (zp_inj (modulus secp256k1_fp)))
    by (apply field_in; vm_compute; auto 20).
  apply (ev_prime _ _ _ secp256k1_consts);
    [cbn [endo_curves In]; auto 10|exact HP|reflexivity|exact (cv_secp256k1 _ _ _ HP)].
Qed.
(** On secp256r1, where a <> 0, [endo] does not even map the generator to a curve point. *)
Theorem C35_secp256r1_refuted : let p := modulus secp256r1_fp in let o := zp_ops p in
  let c := curve_of o (zp_inj p) secp256r1_consts in
  aff_is_on_curve o c (gen_aff (zp_inj p) secp256r1_consts) = true
  /\ proj_is_on_curve o c (proj_endo o (zp_inj p (zeta secp256r1_fp)) (gen_proj o (zp_inj p) secp256r1_consts)) = false.
Proof. vm_compute. auto. Qed.
Print Assumptions C35_secp256r1_refuted.

(** C44.  [curve_literals]: the constants below are the literals of the source. *)
Theorem C44_generator : forall F (o : fops F) c g sc, crate_curve o c g sc ->
  on_curve o (ca c) (cb c) (Some (ax g, ay g))
  /\ aff_is_on_curve o c g = true
  /\ (forall k, pt_mulz o (ca c) k (Some (ax g, ay g)) = None <-> (modulus sc | k)).
Proof.
  intros F o c g sc HV. pose proof (crate_curve_facts o c g sc HV) as Hf.
  pose proof (cf_gen _ _ _ _ Hf) as Hg. split; [exact (proj1 Hg)|]. split.
  - apply (aff_on_curve_iff o c (cf_laws _ _ _ _ Hf)). eauto.
  - exact (s_order o c g sc HV).
Qed.
Print Assumptions C44_generator.
Theorem C44_discriminant : forall F (o : fops F) c g sc, crate_curve o c g sc ->
  let two := fadd o (f1 o) (f1 o) in let three := fadd o two (f1 o) in let a := ca c in let b := cb c in
  fadd o (fmul o (fadd o two two) (fmul o (fmul o a a) a))
         (fmul o (fmul o (fmul o three three) three) (fmul o b b)) <> f0 o.
Proof. exact (fun F o c g sc HV => s_disc o c g sc HV). Qed.
Print Assumptions C44_discriminant.
Theorem C44_no_order_two : forall F (o : fops F) c g sc, crate_curve o c g sc -> forall x y,
  on_curve o (ca c) (cb c) (Some (x, y)) -> y <> f0 o.
Proof. exact (fun F o c g sc HV => no_y0 o c (cf_laws _ _ _ _ (crate_curve_facts o c g sc HV))). Qed.
Print Assumptions C44_no_order_two.
Theorem C44_literals :
  lits_denote (modulus bn256_fq) 4 bn256_g1_src (consts1 bn256_g1_consts) = true
  /\ lits_denote (modulus bn256_fr) 4 grumpkin_src (consts1 grumpkin_consts) = true
  /\ lits_denote (modulus bls12381_fq) 6 bls_g1_src (consts1 bls_g1_consts) = true
  /\ lits_denote (modulus secp256k1_fp) 4 secp256k1_src (consts1 secp256k1_consts) = true
  /\ lits_denote (modulus secp256k1_fq) 4 secq256k1_src (consts1 secq256k1_consts) = true
  /\ lits_denote (modulus secp256r1_fp) 4 secp256r1_src (consts1 secp256r1_consts) = true
  /\ lits_denote (modulus pluto_eris_fp) 7 pluto_src (consts1 pluto_consts) = true
  /\ lits_denote (modulus pluto_eris_fq) 7 eris_src (consts1 eris_consts) = true
  /\ lits_denote (modulus bn256_fq) 4 bn256_g2_src (consts2 bn256_g2_consts) = true
  /\ lits_denote (modulus bls12381_fq) 6 bls_g2_src (consts2 bls_g2_consts) = true
  /\ lits_denote (modulus pluto_eris_fp) 7 triton_src (consts2 triton_consts) = true.
Proof. exact curve_literals. Qed.
Print Assumptions C44_literals.
