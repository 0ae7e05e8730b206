(** Property theorems C36 and C38: the maps to the curve are total and land on the
    curve; so do the isogenies behind them. *)
From Verif Require Import Base Algebra Pow Tower TowerFacts FiniteField Word Field Params PrimeField ConstFacts
  TowerParams TowerInst SpecCurve SpecCurveFacts Curve CurveFacts CurveParams CurveCheck CurveInst CrateCurves
  Sqrt2 Props_Sqrt2 SpecH2c H2c H2cParams H2cFacts H2cInst H2cSuites H2cSuiteFacts LimbField Serde SerdeInst Props_Curve.
Local Open Scope Z_scope.

(** The literals of the crate denote the integers used below (those of the arrays
    [ISO11_*] are wrapped once more in the Montgomery conversion). *)
Theorem C38_literals :
  lits_denote (modulus secp256k1_fp) 4 secp256k1_sswu_src (sw1 secp256k1_sswu) = true
  /\ lits_denote (modulus secp256r1_fp) 4 secp256r1_sswu_src (sw1 secp256r1_sswu) = true
  /\ lits_denote (modulus bls12381_fq) 6 bls_g1_sswu_src (sw1 bls_g1_sswu) = true
  /\ lits_denote (modulus bls12381_fq) 6 bls_g2_sswu_src (sw2 bls_g2_sswu) = true.
Proof. exact sswu_literals. Qed.
Print Assumptions C38_literals.

(** C38.  Every affine point (t, s) of the isogenous curve, in any projective
    coordinates, goes to the affine point (XN(t)/XD(t), s YN(t)/YD(t)) of the target
    curve, and the denominators do not vanish. *)
Theorem C38_secp256k1 : forall F (o : fops F) inj, prime_field (modulus secp256k1_fp) o inj -> forall t s z, z <> f0 o ->
  on_curve o (inj (sw_a secp256k1_sswu)) (inj (sw_b secp256k1_sswu)) (Some (t, s)) ->
  let ev i := peval o (map inj (nth i secp_iso_polys [])) t in
  exists X Y, fmul o X (ev 1%nat) = ev 0%nat /\ fmul o Y (ev 3%nat) = fmul o s (ev 2%nat) /\ ev 1%nat <> f0 o /\ ev 3%nat <> f0 o /\
    prep o (curve_of o inj secp256k1_consts)
      (iso_map_secp256k1 o (map (map inj) (sw_iso secp256k1_sswu)) (fmul o t z) (fmul o s z) z) (Some (X, Y)).
Proof. intros F o inj HP t s z Zz On. exact (secp256k1_iso o inj HP t s z Zz On). Qed.
Print Assumptions C38_secp256k1.
Theorem C38_bls_g2 : forall F (o : fops F) inj, prime_field (modulus bls12381_fq) o inj ->
  let o2 := bls_fq2 o in forall t s z, z <> f0 o2 ->
  on_curve o2 (inj2 inj (sw_a bls_g2_sswu)) (inj2 inj (sw_b bls_g2_sswu)) (Some (t, s)) ->
  let ev i := peval o2 (map (inj2 inj) (nth i (sw_iso bls_g2_sswu) [])) t in
  exists X Y, fmul o2 X (ev 1%nat) = ev 0%nat /\ fmul o2 Y (ev 3%nat) = fmul o2 s (ev 2%nat) /\ ev 1%nat <> f0 o2 /\ ev 3%nat <> f0 o2 /\
    prep o2 (curve_of o2 (inj2 inj) bls_g2_consts)
      (iso_map_g2 o2 (map (map (inj2 inj)) (sw_iso bls_g2_sswu)) (fmul o2 t z) (fmul o2 s z) z) (Some (X, Y)).
Proof. intros F o inj HP o2 t s z Zz On. exact (bls_g2_iso o inj HP t s z Zz On). Qed.
Print Assumptions C38_bls_g2.
(** Partial: the points of the kernel, the roots of XD, are left out ... *)
Theorem C38_bls_g1_partial : forall F (o : fops F) inj, prime_field (modulus bls12381_fq) o inj -> forall t s z, z <> f0 o ->
  on_curve o (inj (sw_a bls_g1_sswu)) (inj (sw_b bls_g1_sswu)) (Some (t, s)) ->
  let ev i := peval o (map inj (nth i (sw_iso bls_g1_sswu) [])) t in ev 1%nat <> f0 o ->
  exists X Y, fmul o X (ev 1%nat) = ev 0%nat /\ fmul o Y (ev 3%nat) = fmul o s (ev 2%nat) /\ ev 3%nat <> f0 o /\
    prep o (curve_of o inj bls_g1_consts)
      (iso_map_g1 o (map (map inj) (sw_iso bls_g1_sswu)) (fmul o t z) (fmul o s z) z) (Some (X, Y)).
Proof. intros F o inj HP t s z Zz On ev ZD. exact (bls_g1_iso o inj HP t s z Zz On ZD). Qed.
Print Assumptions C38_bls_g1_partial.
(** ... and there are some, on which the map returns (0, 0, 0): not the identity
    and no point at all. *)
Theorem C38_bls_g1_refuted : forall F (o : fops F) inj, prime_field (modulus bls12381_fq) o inj ->
  let x := inj bls_g1_kernel in let y := inj bls_g1_kernel_y in
  on_curve o (inj (sw_a bls_g1_sswu)) (inj (sw_b bls_g1_sswu)) (Some (x, y)) /\
  forall z, z <> f0 o ->
  let q := iso_map_g1 o (map (map inj) (sw_iso bls_g1_sswu)) (fmul o x z) (fmul o y z) z in
  q = mk_proj (f0 o) (f0 o) (f0 o) /\ forall P, ~ prep o (curve_of o inj bls_g1_consts) q P.
Proof.
  intros F o inj HP x y. split.
  - exact (proj1 (kernel_point o inj HP)).
  - intros z Zz. cbv zeta. split; [exact (kernel_iso o inj HP y z Zz)|].
    unfold x. rewrite (kernel_iso o inj HP y z Zz). intros [[X Y]|] (_ & N); cbn [px py pz] in N; tauto.
Qed.
Print Assumptions C38_bls_g1_refuted.
(** The same at the identity (0 : y : 0) of the isogenous curve, for the three maps. *)
Section Identity.
Context {F : Type} (o : fops F) (H : field_laws o).
Let HR := fl_rl _ H.
Add Ring RI : (rl_ring _ HR).
Lemma secp_identity K y : iso_map_secp256k1 o K (f0 o) y (f0 o) = mk_proj (f0 o) (f0 o) (f0 o).
Proof. unfold iso_map_secp256k1. cbv zeta. rewrite (rl_sqr _ HR). f_equal; ring. Qed.
Lemma finish_identity K zp y : iso_finish o K zp (f0 o) y (f0 o) = mk_proj (f0 o) (f0 o) (f0 o).
Proof. unfold iso_finish. cbv zeta. f_equal; ring. Qed.
End Identity.
Theorem C38_identity_refuted : forall F (o : fops F), field_laws o -> forall K y,
  let q := mk_proj (f0 o) (f0 o) (f0 o) in
  iso_map_secp256k1 o K (f0 o) y (f0 o) = q /\ iso_map_g1 o K (f0 o) y (f0 o) = q /\
  iso_map_g2 o K (f0 o) y (f0 o) = q /\ forall c P, ~ prep o c q P.
Proof.
  intros F o H K y q. split; [|split; [|split]].
  - exact (secp_identity o H K y).
  - exact (finish_identity o H K _ y).
  - exact (finish_identity o H K _ y).
  - intros c [[X Y]|] (_ & N); cbn [q px py pz] in N; tauto.
Qed.
Print Assumptions C38_identity_refuted.

(** ** C36 *)
(** The suites of the crate with the field they hash to, except that of bls12-381
    G1: base field, curve and [map_to_curve] closure.  [is_odd] is any function;
    [qnr] any correct test of non-residues. *)
Inductive h2c_suite : forall {F : Type}, fops F -> cconf F -> (F -> h2c (proj F)) -> Prop :=
| hs_secp256k1 F (o : fops F) inj odd : prime_field (modulus secp256k1_fp) o inj ->
    h2c_suite o (curve_of o inj secp256k1_consts) (secp256k1_map o inj odd)
| hs_secp256r1 F (o : fops F) inj odd : prime_field (modulus secp256r1_fp) o inj ->
    h2c_suite o (curve_of o inj secp256r1_consts) (secp256r1_map o inj odd)
| hs_bls_g2 F (o : fops F) inj odd : prime_field (modulus bls12381_fq) o inj ->
    h2c_suite (bls_fq2 o) (curve_of (bls_fq2 o) (inj2 inj) bls_g2_consts) (bls_g2_map o inj odd)
| hs_bn256_g1 F (o : fops F) inj odd qnr : prime_field (modulus bn256_fq) o inj -> qnr_ok o qnr ->
    h2c_suite o (curve_of_bn256_g1 o inj bn256_g1_consts) (bn256_g1_map o inj odd qnr)
| hs_bn256_g2 F (o : fops F) inj odd qnr : prime_field (modulus bn256_fq) o inj -> qnr_ok o qnr ->
    h2c_suite (bn256_fq2 o) (curve_of (bn256_fq2 o) (inj2 inj) bn256_g2_consts)
      (bn256_g2_map o inj odd (quad_qnr o (mnr_neg o) qnr))
| hs_grumpkin F (o : fops F) inj odd qnr : prime_field (modulus bn256_fr) o inj -> qnr_ok o qnr ->
    h2c_suite o (curve_of o inj grumpkin_consts) (grumpkin_map o inj odd qnr)
| hs_secq256k1 F (o : fops F) inj odd qnr : prime_field (modulus secp256k1_fq) o inj -> qnr_ok o qnr ->
    h2c_suite o (curve_of o inj secq256k1_consts) (secq256k1_map o inj odd qnr)
| hs_pluto F (o : fops F) inj odd qnr : prime_field (modulus pluto_eris_fp) o inj -> qnr_ok o qnr ->
    h2c_suite o (curve_of o inj pluto_consts) (pluto_map o inj odd qnr)
| hs_eris F (o : fops F) inj odd qnr : prime_field (modulus pluto_eris_fq) o inj -> qnr_ok o qnr ->
    h2c_suite o (curve_of o inj eris_consts) (eris_map o inj odd qnr).

Lemma sswu_to_map {F} (o : fops F) c (m : h2c (proj F)) iso (S : F -> F -> Prop) :
  (exists t s w X Y, m = HRet (iso (fmul o t w) (fmul o s w) w) /\ w <> f0 o /\ S t s /\
     prep o c (iso (fmul o t w) (fmul o s w) w) (Some (X, Y))) ->
  exists q X Y, m = HRet q /\ prep o c q (Some (X, Y)).
Proof. intros (t & s & w & X & Y & E & _ & _ & P). eexists _, X, Y. split; [exact E|exact P]. Qed.
Lemma svdw_to_map {F} (o : fops F) c (m : h2c (proj F)) (S : F -> F -> Prop) :
  (exists x y, m = HRet (mk_proj x y (f1 o)) /\ S x y /\ prep o c (mk_proj x y (f1 o)) (Some (x, y))) ->
  exists q X Y, m = HRet q /\ prep o c q (Some (X, Y)).
Proof. intros (x & y & E & _ & P). eexists _, x, y. split; [exact E|exact P]. Qed.

Section Specs.
Context {F : Type} (o : fops F) (inj : Z -> F) (is_odd : F -> bool).

Lemma secp256k1_map_spec : prime_field (modulus secp256k1_fp) o inj -> forall u, exists t s w X Y,
  secp256k1_map o inj is_odd u = HRet (iso_map_secp256k1 o (map (map inj) (sw_iso secp256k1_sswu)) (fmul o t w) (fmul o s w) w) /\
  w <> f0 o /\
  sswu_spec o is_odd (inj (sw_a secp256k1_sswu)) (inj (sw_b secp256k1_sswu)) (inj (sw_z secp256k1_sswu)) u t s /\
  prep o (curve_of o inj secp256k1_consts)
    (iso_map_secp256k1 o (map (map inj) (sw_iso secp256k1_sswu)) (fmul o t w) (fmul o s w) w) (Some (X, Y)).
Proof.
  intros HP u. pose proof (cf_laws _ _ _ _ (crate_curve_facts _ _ _ _ (cv_secp256k1 F o inj HP))) as HC.
  assert (HS : sqrt_ok o (fq_sqrt o inj secp256k1_fp)) by (apply fq_sqrt_ok; [in_fields|exact HP]).
  destruct (sswu1_ok secp256k1_fp o inj HP _ _ (cl_two _ _ HC) (proj1 sswu_checks)) as (A & B & C).
  apply (sswu_total o _ HC _ (prime_field_finite _ _ _ HP) _ HS is_odd _ _ _ _ A B C).
  intros t s z Zz On. destruct (C38_secp256k1 F o inj HP t s z Zz On) as (X & Y & _ & _ & _ & _ & P). exists X, Y. exact P.
Qed.
Lemma secp256r1_map_spec : prime_field (modulus secp256r1_fp) o inj -> forall u, exists t s w X Y,
  secp256r1_map o inj is_odd u = HRet (iso_map_secp256r1 (fmul o t w) (fmul o s w) w) /\ w <> f0 o /\
  sswu_spec o is_odd (inj (sw_a secp256r1_sswu)) (inj (sw_b secp256r1_sswu)) (inj (sw_z secp256r1_sswu)) u t s /\
  prep o (curve_of o inj secp256r1_consts) (iso_map_secp256r1 (fmul o t w) (fmul o s w) w) (Some (X, Y)).
Proof.
  intros HP u. pose proof (cf_laws _ _ _ _ (crate_curve_facts _ _ _ _ (cv_secp256r1 F o inj HP))) as HC.
  assert (HS : sqrt_ok o (fq_sqrt o inj secp256r1_fp)) by (apply fq_sqrt_ok; [in_fields|exact HP]).
  destruct (sswu1_ok secp256r1_fp o inj HP _ _ (cl_two _ _ HC) (proj1 (proj2 sswu_checks))) as (A & B & C).
  apply (sswu_total o _ HC _ (prime_field_finite _ _ _ HP) _ HS is_odd _ _ _ _ A B C).
  intros t s z Zz On. exists t, s. split; [exact On|]. split; [exact Zz|]. split; reflexivity.
Qed.
(** Partial for bls12-381 G1: unless the intermediate point is in the kernel. *)
Lemma bls_g1_map_spec : prime_field (modulus bls12381_fq) o inj -> forall u, exists t s w,
  bls_g1_map o inj is_odd u = HRet (iso_map_g1 o (map (map inj) (sw_iso bls_g1_sswu)) (fmul o t w) (fmul o s w) w) /\
  w <> f0 o /\
  sswu_spec o is_odd (inj (sw_a bls_g1_sswu)) (inj (sw_b bls_g1_sswu)) (inj (sw_z bls_g1_sswu)) u t s /\
  (peval o (map inj (nth 1 (sw_iso bls_g1_sswu) [])) t <> f0 o -> exists X Y,
   prep o (curve_of o inj bls_g1_consts)
    (iso_map_g1 o (map (map inj) (sw_iso bls_g1_sswu)) (fmul o t w) (fmul o s w) w) (Some (X, Y))).
Proof.
  intros HP u. pose proof (cf_laws _ _ _ _ (crate_curve_facts _ _ _ _ (cv_bls_g1 F o inj HP))) as HC.
  assert (HS : sqrt_ok o (fq_sqrt o inj bls12381_fq)) by (apply fq_sqrt_ok; [in_fields|exact HP]).
  destruct (sswu1_ok bls12381_fq o inj HP _ _ (cl_two _ _ HC) (proj1 (proj2 (proj2 sswu_checks)))) as (A & B & C).
  destruct (sswu_map_spec o (cl_field _ _ HC) (cl_is0 _ _ HC) _ (prime_field_finite _ _ _ HP) (cl_two _ _ HC) _ HS is_odd
    _ _ _ u A B C) as (x & y & w & t & s & E & Zw & -> & -> & On & Sp).
  exists t, s, w. unfold bls_g1_map, sswu_suite, sswu_closure. rewrite E. cbn [h_bind].
  split; [reflexivity|]. split; [exact Zw|]. split; [exact Sp|]. intros ZD.
  destruct (C38_bls_g1_partial F o inj HP t s w Zw On ZD) as (X & Y & _ & _ & _ & P). exists X, Y. exact P.
Qed.

Lemma svdw_map_spec' fc (Hi : In fc all_fields) (HP : prime_field (modulus fc) o inj) qnr (HQ : qnr_ok o qnr) cc cert c :
  curve_laws o c -> svdw_check1 (modulus fc) 1 cc cert = true -> ca c = inj (cc_a cc) -> cb c = inj (cc_b cc) ->
  forall u, exists x y, svdw_suite o inj is_odd qnr fc c u = HRet (mk_proj x y (f1 o)) /\
    svdw_spec o is_odd (ca c) (cb c) (f1 o) u x y /\ prep o c (mk_proj x y (f1 o)) (Some (x, y)).
Proof.
  intros HC Ck Ea Eb u. unfold svdw_suite.
  pose proof (svdw1_ok fc o inj HP 1 cc cert c (cl_two _ _ HC) Ck Ea Eb) as X. cbv zeta in X.
  rewrite (zh_1 _ _ (pf_hom _ _ _ HP)) in X.
  exact (svdw_total o c HC _ (prime_field_finite _ _ _ HP) _ (fq_sqrt_ok fc Hi o inj HP) is_odd qnr _ (f1 o) HQ
    (two_inv1 fc Hi o inj HP) X u).
Qed.
End Specs.

Section Specs2.
Context {F : Type} (o : fops F) (inj : Z -> F) (is_odd : quad F -> bool).
Lemma bls_g2_map_spec : prime_field (modulus bls12381_fq) o inj -> let o2 := bls_fq2 o in forall u, exists t s w X Y,
  let q := iso_map_g2 o2 (map (map (inj2 inj)) (sw_iso bls_g2_sswu)) (fmul o2 t w) (fmul o2 s w) w in
  bls_g2_map o inj is_odd u = HRet q /\ w <> f0 o2 /\
  sswu_spec o2 is_odd (inj2 inj (sw_a bls_g2_sswu)) (inj2 inj (sw_b bls_g2_sswu)) (inj2 inj (sw_z bls_g2_sswu)) u t s /\
  prep o2 (curve_of o2 (inj2 inj) bls_g2_consts) q (Some (X, Y)).
Proof.
  intros HP o2 u. pose proof (cf_laws _ _ _ _ (crate_curve_facts _ _ _ _ (cv_bls_g2 F o inj HP))) as HC.
  pose proof (bls_tower_facts o inj HP) as T.
  assert (HS : sqrt_ok o2 (fun x => SqRet (bls_fq2_sqrt o x))).
  { intros x. pose proof (C24_bls12381 F o inj HP x) as E. destruct (bls_fq2_sqrt o x) as [r|]; [left; exists r; auto|right; auto]. }
  destruct (sswu2_ok bls12381_tower o inj HP (mnr_neg o) (quad_square_complex o) (mnr_neg_inj o inj _ HP) (sq_complex o inj _ HP)
      (tf_2 _ _ _ _ _ T) (tf_2fin _ _ _ _ _ T) (cl_two _ _ HC) _ _ (proj2 (proj2 (proj2 sswu_checks)))) as (A & B & C).
  refine (sswu_total o2 _ HC _ (tf_2fin _ _ _ _ _ T) _ HS is_odd
    (iso_map_g2 o2 (map (map (inj2 inj)) (sw_iso bls_g2_sswu))) _ _ _ A B C _ u).
  intros t s z Zz On. destruct (C38_bls_g2 F o inj HP t s z Zz On) as (X & Y & _ & _ & _ & _ & P). exists X, Y. exact P.
Qed.
Lemma bn256_g2_map_spec qnr : prime_field (modulus bn256_fq) o inj -> qnr_ok o qnr ->
  let o2 := bn256_fq2 o in let c := curve_of o2 (inj2 inj) bn256_g2_consts in
  forall u, exists x y, bn256_g2_map o inj is_odd (quad_qnr o (mnr_neg o) qnr) u = HRet (mk_proj x y (f1 o2)) /\
    svdw_spec o2 is_odd (ca c) (cb c) (f1 o2) u x y /\ prep o2 c (mk_proj x y (f1 o2)) (Some (x, y)).
Proof.
  intros HP HQ o2 c u. pose proof (cf_laws _ _ _ _ (crate_curve_facts _ _ _ _ (cv_bn256_g2 F o inj HP))) as HC.
  pose proof (bn256_tower_facts o inj HP) as T. pose proof (pf_hom _ _ _ HP) as Hh.
  assert (HS : sqrt_ok o2 (fun x => SqRet (bn256_fq2_sqrt o x))).
  { intros x. pose proof (C24_bn256 F o inj HP x) as E. destruct (bn256_fq2_sqrt o x) as [r|]; [left; exists r; auto|right; auto]. }
  pose proof (svdw2_ok bn256_tower o inj HP (mnr_neg o) (quad_square_complex o) (mnr_neg_inj o inj _ HP) (sq_complex o inj _ HP)
      (tf_2 _ _ _ _ _ T) (cl_two _ _ HC) (1, 0) bn256_g2_consts _ c
      (proj2 (proj2 (proj2 (proj2 (proj2 svdw_checks))))) eq_refl eq_refl) as X. cbv zeta in X.
  assert (E1 : inj2 inj (1, 0) = f1 o2).
  { unfold inj2. cbn [fst snd]. rewrite (zh_1 _ _ Hh), (zh_0 _ _ Hh). reflexivity. }
  rewrite E1 in X.
  refine (svdw_total o2 c HC _ (tf_2fin _ _ _ _ _ T) _ HS is_odd (quad_qnr o (mnr_neg o) qnr) _ (f1 o2) _ _ X u).
  - apply (quad_qnr_ok (modulus bn256_fq) o inj HP (mnr_neg o) (inj (t_beta bn256_tower)) (quad_square_complex o)).
    + vm_compute. reflexivity.
    + exact (mnr_neg_inj o inj _ HP).
    + exact (beta_nr bn256_tower o inj HP bn256_tower_ok).
    + exact (sq_complex o inj _ HP).
    + exact HQ.
  - unfold inj2. cbn [fst snd]. rewrite (zh_0 _ _ Hh).
    pose proof (two_inv1 bn256_fq ltac:(in_fields) o inj HP) as E.
    change (mk_quad (fadd o (inj (two_inv_int bn256_fq)) (inj (two_inv_int bn256_fq))) (fadd o (f0 o) (f0 o)) = mk_quad (f1 o) (f0 o)).
    rewrite E, (Radd_0_l (rl_ring _ (fl_rl _ (pf_laws _ _ _ HP)))). reflexivity.
Qed.
End Specs2.

(** C36: for every field element the map returns, and what it returns is an affine
    point of the curve. *)
Theorem C36_map : forall F (o : fops F) c map_to_curve, h2c_suite o c map_to_curve ->
  forall u, exists q X Y, map_to_curve u = HRet q /\ prep o c q (Some (X, Y)).
Proof.
  intros F o c m HS u. destruct svdw_checks as (S1 & S2 & S3 & S4 & S5 & _).
  assert (L : forall F (o : fops F) c g sc, crate_curve o c g sc -> curve_laws o c)
    by (intros F0 o0 c0 g sc HV; exact (cf_laws _ _ _ _ (crate_curve_facts _ _ _ _ HV))).
  destruct HS as [F o inj odd HP|F o inj odd HP|F o inj odd HP|F o inj odd qnr HP HQ|F o inj odd qnr HP HQ
    |F o inj odd qnr HP HQ|F o inj odd qnr HP HQ|F o inj odd qnr HP HQ|F o inj odd qnr HP HQ].
  - eapply (sswu_to_map o). exact (secp256k1_map_spec o inj odd HP u).
  - eapply (sswu_to_map o). exact (secp256r1_map_spec o inj odd HP u).
  - eapply (sswu_to_map (bls_fq2 o)). exact (bls_g2_map_spec o inj odd HP u).
  - eapply svdw_to_map.
    exact (svdw_map_spec' o inj odd bn256_fq ltac:(in_fields) HP qnr HQ _ _ _ (L _ _ _ _ _ (cv_bn256_g1 F o inj HP)) S1 eq_refl eq_refl u).
  - eapply svdw_to_map. exact (bn256_g2_map_spec o inj odd qnr HP HQ u).
  - eapply svdw_to_map.
    exact (svdw_map_spec' o inj odd bn256_fr ltac:(in_fields) HP qnr HQ _ _ _ (L _ _ _ _ _ (cv_grumpkin F o inj HP)) S2 eq_refl eq_refl u).
  - eapply svdw_to_map.
    exact (svdw_map_spec' o inj odd secp256k1_fq ltac:(in_fields) HP qnr HQ _ _ _ (L _ _ _ _ _ (cv_secq256k1 F o inj HP)) S3 eq_refl eq_refl u).
  - eapply svdw_to_map.
    exact (svdw_map_spec' o inj odd pluto_eris_fp ltac:(in_fields) HP qnr HQ _ _ _ (L _ _ _ _ _ (cv_pluto F o inj HP)) S4 eq_refl eq_refl u).
  - eapply svdw_to_map.
    exact (svdw_map_spec' o inj odd pluto_eris_fq ltac:(in_fields) HP qnr HQ _ _ _ (L _ _ _ _ _ (cv_eris F o inj HP)) S5 eq_refl eq_refl u).
Qed.
Print Assumptions C36_map.

Lemma h2c_suite_curve F (o : fops F) c m : h2c_suite o c m -> exists g sc, crate_curve o c g sc.
Proof. intros [ | | | | | | | | ]; eexists _, _; constructor; eassumption. Qed.

(** [Suite::hash_to_curve] on the two outputs of [hash_to_field] (C37: [Some] for any
    hash function and message): the sum of two points of the curve. *)
Theorem C36 : forall F (o : fops F) c map_to_curve, h2c_suite o c map_to_curve ->
  forall u0 u1, exists q Q0 Q1, suite_hash_to_curve o c map_to_curve (Some (u0, u1)) = HRet q /\
  on_curve o (ca c) (cb c) Q0 /\ on_curve o (ca c) (cb c) Q1 /\ prep o c q (pt_add o (ca c) Q0 Q1).
Proof.
  intros F o c m HS u0 u1.
  destruct (C36_map F o c m HS u0) as (q0 & X0 & Y0 & E0 & P0).
  destruct (C36_map F o c m HS u1) as (q1 & X1 & Y1 & E1 & P1).
  destruct (h2c_suite_curve F o c m HS) as (g & sc & HV).
  pose proof (crate_curve_facts _ _ _ _ HV) as CF.
  exists (proj_add o c q0 q1), (Some (X0, Y0)), (Some (X1, Y1)).
  unfold suite_hash_to_curve. cbn [h_unwrap h_bind]. rewrite E0. cbn [h_bind]. rewrite E1. cbn [h_bind].
  split; [reflexivity|]. split; [exact (proj1 P0)|]. split; [exact (proj1 P1)|].
  exact (add_repr o c (cf_laws _ _ _ _ CF) _ _ _ _ P0 P1).
Qed.
Print Assumptions C36.

(** bls12-381 G1: total, and on the curve unless the intermediate point is a root
    of the denominator of the isogeny ... *)
Theorem C36_bls_g1_partial : forall F (o : fops F) inj, prime_field (modulus bls12381_fq) o inj -> forall odd u,
  exists t s q, bls_g1_map o inj odd u = HRet q /\
  sswu_spec o odd (inj (sw_a bls_g1_sswu)) (inj (sw_b bls_g1_sswu)) (inj (sw_z bls_g1_sswu)) u t s /\
  (peval o (map inj (nth 1 (sw_iso bls_g1_sswu) [])) t <> f0 o -> exists X Y,
   prep o (curve_of o inj bls_g1_consts) q (Some (X, Y))).
Proof.
  intros F o inj HP odd u. destruct (bls_g1_map_spec o inj odd HP u) as (t & s & w & E & _ & Sp & P).
  eexists t, s, _. split; [exact E|]. split; [exact Sp|exact P].
Qed.
Print Assumptions C36_bls_g1_partial.
(** ... which happens for the explicit u below: the hash is then (0, 0, 0). *)
Theorem C36_bls_g1_refuted : forall F (o : fops F) inj, prime_field (modulus bls12381_fq) o inj -> forall odd,
  let q := mk_proj (f0 o) (f0 o) (f0 o) in
  bls_g1_map o inj odd (inj bls_g1_kernel_u) = HRet q /\ (forall P, ~ prep o (curve_of o inj bls_g1_consts) q P).
Proof.
  intros F o inj HP odd q. split; [exact (sswu_kernel o inj HP odd)|].
  intros [[X Y]|] (_ & N); cbn [q px py pz] in N; tauto.
Qed.
Print Assumptions C36_bls_g1_refuted.

(** C46: the maps are those of RFC 9380, with [is_odd] in the place of sgn0. *)
Theorem C46_secp256k1 : forall F (o : fops F) inj, prime_field (modulus secp256k1_fp) o inj -> forall odd u,
  exists t s z, z <> f0 o /\
  sswu_spec o odd (inj (sw_a secp256k1_sswu)) (inj (sw_b secp256k1_sswu)) (inj (sw_z secp256k1_sswu)) u t s /\
  secp256k1_map o inj odd u = HRet (iso_map_secp256k1 o (map (map inj) (sw_iso secp256k1_sswu)) (fmul o t z) (fmul o s z) z).
Proof.
  intros F o inj HP odd u. destruct (secp256k1_map_spec o inj odd HP u) as (t & s & w & X & Y & E & Zw & Sp & _).
  exists t, s, w. auto.
Qed.
Print Assumptions C46_secp256k1.
Theorem C46_secp256r1 : forall F (o : fops F) inj, prime_field (modulus secp256r1_fp) o inj -> forall odd u,
  exists x y z, z <> f0 o /\ secp256r1_map o inj odd u = HRet (mk_proj (fmul o x z) (fmul o y z) z) /\
  sswu_spec o odd (inj (cc_a secp256r1_consts)) (inj (cc_b secp256r1_consts)) (inj (-10)) u x y.
Proof.
  intros F o inj HP odd u. destruct (secp256r1_map_spec o inj odd HP u) as (t & s & w & X & Y & E & Zw & Sp & _).
  exists t, s, w. split; [exact Zw|]. split; [exact E|].
  assert (Z10 : inj (-10) = inj (sw_z secp256r1_sswu)).
  { rewrite <- (pf_mod _ _ _ HP (-10)), <- (pf_mod _ _ _ HP (sw_z secp256r1_sswu)).
    assert (Ez : (-10) mod modulus secp256r1_fp = sw_z secp256r1_sswu mod modulus secp256r1_fp) by (vm_compute; reflexivity).
    rewrite Ez. reflexivity. }
  rewrite Z10. exact Sp.
Qed.
Print Assumptions C46_secp256r1.
Theorem C46_bls_g2 : forall F (o : fops F) inj, prime_field (modulus bls12381_fq) o inj ->
  let o2 := bls_fq2 o in forall odd u,
  exists t s z, z <> f0 o2 /\
  sswu_spec o2 odd (inj2 inj (sw_a bls_g2_sswu)) (inj2 inj (sw_b bls_g2_sswu)) (inj2 inj (sw_z bls_g2_sswu)) u t s /\
  bls_g2_map o inj odd u = HRet (iso_map_g2 o2 (map (map (inj2 inj)) (sw_iso bls_g2_sswu)) (fmul o2 t z) (fmul o2 s z) z).
Proof.
  intros F o inj HP o2 odd u. destruct (bls_g2_map_spec o inj odd HP u) as (t & s & w & X & Y & E & Zw & Sp & _).
  exists t, s, w. auto.
Qed.
Print Assumptions C46_bls_g2.
(** The parameters of RFC 9380, sections 8.2, 8.7 and 8.8. *)
Theorem C46_constants :
  (let p := modulus secp256k1_fp in sw_z secp256k1_sswu = (-11) mod p /\ sw_b secp256k1_sswu = 1771)
  /\ (let p := modulus secp256r1_fp in sw_z secp256r1_sswu = (-10) mod p /\ sw_a secp256r1_sswu = (-3) mod p)
  /\ sw_z bls_g1_sswu = 11
  /\ (let p := modulus bls12381_fq in sw_z bls_g2_sswu = ((-2) mod p, (-1) mod p)
      /\ sw_a bls_g2_sswu = (0, 240) /\ sw_b bls_g2_sswu = (1012, 1012)).
Proof. vm_compute. repeat split. Qed.
Print Assumptions C46_constants.
(** The curves hashed to with the Shallue-van de Woestijne map, with Z = 1. *)
Theorem C46_svdw : forall F (o : fops F) inj odd qnr, qnr_ok o qnr ->
  let spec c (m : F -> h2c (proj F)) := forall u, exists x y, m u = HRet (mk_proj x y (f1 o)) /\
    svdw_spec o odd (ca c) (cb c) (f1 o) u x y in
  (prime_field (modulus bn256_fq) o inj ->
    spec (curve_of_bn256_g1 o inj bn256_g1_consts) (bn256_g1_map o inj odd qnr)) /\
  (prime_field (modulus bn256_fr) o inj -> spec (curve_of o inj grumpkin_consts) (grumpkin_map o inj odd qnr)) /\
  (prime_field (modulus secp256k1_fq) o inj -> spec (curve_of o inj secq256k1_consts) (secq256k1_map o inj odd qnr)) /\
  (prime_field (modulus pluto_eris_fp) o inj -> spec (curve_of o inj pluto_consts) (pluto_map o inj odd qnr)) /\
  (prime_field (modulus pluto_eris_fq) o inj -> spec (curve_of o inj eris_consts) (eris_map o inj odd qnr)).
Proof.
  intros F o inj odd qnr HQ spec. destruct svdw_checks as (S1 & S2 & S3 & S4 & S5 & _).
  assert (L : forall F (o : fops F) c g sc, crate_curve o c g sc -> curve_laws o c)
    by (intros F0 o0 c0 g sc HV; exact (cf_laws _ _ _ _ (crate_curve_facts _ _ _ _ HV))).
  split; [|split; [|split; [|split]]]; intros HP u.
  - destruct (svdw_map_spec' o inj odd bn256_fq ltac:(in_fields) HP qnr HQ _ _ _ (L _ _ _ _ _ (cv_bn256_g1 F o inj HP)) S1 eq_refl eq_refl u)
      as (x & y & E & Sp & _). exists x, y. split; [exact E|exact Sp].
  - destruct (svdw_map_spec' o inj odd bn256_fr ltac:(in_fields) HP qnr HQ _ _ _ (L _ _ _ _ _ (cv_grumpkin F o inj HP)) S2 eq_refl eq_refl u)
      as (x & y & E & Sp & _). exists x, y. split; [exact E|exact Sp].
  - destruct (svdw_map_spec' o inj odd secp256k1_fq ltac:(in_fields) HP qnr HQ _ _ _ (L _ _ _ _ _ (cv_secq256k1 F o inj HP)) S3 eq_refl eq_refl u)
      as (x & y & E & Sp & _). exists x, y. split; [exact E|exact Sp].
  - destruct (svdw_map_spec' o inj odd pluto_eris_fp ltac:(in_fields) HP qnr HQ _ _ _ (L _ _ _ _ _ (cv_pluto F o inj HP)) S4 eq_refl eq_refl u)
      as (x & y & E & Sp & _). exists x, y. split; [exact E|exact Sp].
  - destruct (svdw_map_spec' o inj odd pluto_eris_fq ltac:(in_fields) HP qnr HQ _ _ _ (L _ _ _ _ _ (cv_eris F o inj HP)) S5 eq_refl eq_refl u)
      as (x & y & E & Sp & _). exists x, y. split; [exact E|exact Sp].
Qed.
Print Assumptions C46_svdw.

(** Hypotheses are satisfiable: the integers modulo p, with the Euler test for [qnr]. *)
Definition euler_qnr (c : fconf) {F} (o : fops F) (x : F) : bool :=
  negb (feqb o x (f0 o)) && negb (feqb o (fpowz o x ((modulus c - 1) / 2)) (f1 o)).
Lemma euler_qnr_ok c {F} (o : fops F) inj : 2 < modulus c -> prime_field (modulus c) o inj -> qnr_ok o (euler_qnr c o).
Proof.
  intros H2 HP x. pose proof (pf_laws _ _ _ HP) as H. unfold euler_qnr.
  destruct (feqb o x (f0 o)) eqn:E0; cbn [negb andb].
  - apply (fl_eqb _ H) in E0. split; [discriminate|]. intros N. exfalso. apply N. rewrite E0. exists (f0 o).
    exact (fpowz_zero _ (fl_rl _ H) 2 ltac:(lia)).
  - assert (Nx : x <> f0 o) by (intros X; apply (fl_eqb _ H) in X; congruence).
    pose proof (euler o H _ (prime_field_finite _ _ _ HP) (pf_two _ _ _ HP H2) x Nx) as E.
    destruct (feqb o (fpowz o x ((modulus c - 1) / 2)) (f1 o)) eqn:Ep; cbn [negb].
    + apply (fl_eqb _ H) in Ep. split; [discriminate|]. intros N. exfalso. exact (N (proj1 E Ep)).
    + split; [|reflexivity]. intros _ S. apply (proj2 E), (fl_eqb _ H) in S. congruence.
Qed.
Example ex_C36_suite : exists F (o : fops F) c m, h2c_suite o c m.
Proof.
  pose proof (ex_field bn256_fq ltac:(in_fields)) as HP.
  eexists _, _, _, _. eapply (hs_bn256_g1 _ _ _ (fun _ => false)); [exact HP|].
  apply (euler_qnr_ok bn256_fq _ _ ltac:(vm_compute; reflexivity) HP).
Qed.
