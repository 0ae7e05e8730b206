(** C46 and C52: the sign of the y coordinate in the two G2 suites, and uniqueness of the maps. *)
From Coq Require Import String.
From Verif Require Import Base Word Bytes Field SpecField Params FieldFacts BytesFacts
  Algebra Pow Tower TowerFacts FiniteField PrimeField Primality Certs TowerParams TowerInst SpecCurve SpecCurveFacts
  Curve CurveFacts CurveGroup CurveParams CurveInst CrateCurves Pairing PairingParams Sqrt2
  SpecH2c H2c H2cParams H2cSuites H2cFacts IsoFacts H2cInst H2cSuiteFacts H2cUnique
  Hash SpecHash HashFacts Cofactor Jacobi LimbField Serde SerdeInst Sha256 HashToCurve
  Props_Field Props_Field2 Props_Sqrt2 Props_Hash Props_H2c Props_Jacobi Props_Cofactor Compute Props_HashToCurve.
From Bignums Require Import BigZ.
Local Open Scope Z_scope.

(** The two G2 maps are those of the RFC when the first coefficients of u and of the y
    coordinate are not zero (and those of bn256 need nothing of the square root c3) ... *)
Section Sub.
Context (fc : fconf) (Hi : In fc all_fields) (Hc : odd_conf fc).
Notation o := (lf_ops fc Hc).
Let N (x : quad (lf fc)) : Prop := q0 x <> f0 o.
Lemma sub_sgn x : N x -> sgn0 fc (q0 x) = sgn0_2 fc x.
Proof using All. intros X. rewrite <- (t2_odd_c0 fc Hc). exact (C52_sgn fc Hc Hi x X). Qed.
Lemma sub_neg mnr sq x : N (fneg (quad_ops o mnr sq) x) -> N x.
Proof using All.
  intros X E. apply X. cbn [quad_ops fneg quad_neg q0]. rewrite E. apply (fneg_0 o (pf_laws _ _ _ (lf_pf7 _ Hi Hc))).
Qed.
(** [sgn0_2] tells the two roots apart. *)
Lemma sgn0_2_ok mnr sq : sgn_ok (quad_ops o mnr sq) (sgn0_2 fc).
Proof using All.
  intros x Nx. pose proof (zr fc Hi Hc) as R.
  assert (V0 : lf_val fc (f0 o) = 0) by exact (zr_0 _ _ _ _ R).
  assert (VZ : forall y, (lf_val fc y =? 0) = true -> y = f0 o).
  { intros y E. apply Z.eqb_eq in E. rewrite <- (zr_inj_val _ _ _ _ R y), E, <- (zr_inj_val _ _ _ _ R (f0 o)), V0. reflexivity. }
  pose proof (pf_laws _ _ _ (lf_pf7 _ Hi Hc)) as H.
  unfold sgn0_2. cbn [quad_ops fneg quad_neg q0 q1]. destruct (lf_val fc (q0 x) =? 0) eqn:E0.
  - apply VZ in E0. assert (N1 : q1 x <> f0 o).
    { intros E1. apply Nx. destruct x as [x0 x1]. cbn [q0 q1] in *. subst. reflexivity. }
    rewrite E0, (fneg_0 o H). unfold sgn0 at 1 3. rewrite V0. cbn [Z.odd orb Z.eqb andb]. exact (sgn0_ok fc Hi Hc _ N1).
  - assert (N0 : q0 x <> f0 o) by (intros E; rewrite E, V0 in E0; discriminate E0).
    rewrite (sgn0_ok fc Hi Hc _ N0). destruct (lf_val fc (fneg o (q0 x)) =? 0) eqn:E1.
    + apply VZ in E1. exfalso. apply N0. rewrite <- (fneg_neg o H (q0 x)), E1. apply (fneg_0 o H).
    + cbn [andb]. rewrite !orb_false_r. reflexivity.
Qed.
End Sub.
Theorem C52_bls_g2_sgn : forall Hc, let fc := bls12381_fq in let o := lf_ops fc Hc in let o2 := bls_fq2 o in forall a b z u t s,
  q0 u <> f0 o -> q0 s <> f0 o ->
  sswu_spec o2 (fun x => sgn0 fc (q0 x)) a b z u t s -> sswu_spec o2 (sgn0_2 fc) a b z u t s.
Proof.
  intros Hc fc o o2 a b z u t s Nu Ns. assert (Hi : In fc all_fields) by (unfold fc; in_fields).
  exact (sswu_spec_sub o2 (fun x => q0 x <> f0 o) _ _ (sub_sgn fc Hi Hc) (sub_neg fc Hi Hc _ _) a b z u t s Nu Ns).
Qed.

(** Certificates for the two sign theorems: an element v of the extension (in the arithmetic of
    the checks) has a second coefficient with inverse i, so a root of v has a first one. *)
Definition c1_check (t : tower_conf) (v : quad bigZ) (i : Z) : bool :=
  let ob := bz_ops (BigZ.of_Z (modulus (t_field t))) in feqb ob (fmul ob (q1 v) (BigZ.of_Z i)) (f1 ob).
Lemma c1_root t {F} (o : fops F) inj (HP : prime_field (modulus (t_field t)) o inj) mnr sq v i :
  c1_check t v i = true -> forall r, fmul (quad_ops o mnr sq) r r = quad_map (fun b => inj (BigZ.to_Z b)) v -> q0 r <> f0 o.
Proof.
  intros E r Er Z0. set (phi := fun b => inj (BigZ.to_Z b)) in *.
  pose proof (bz_hom (modulus (t_field t)) o inj HP) as Hh. pose proof (pf_laws _ _ _ HP) as H.
  assert (E1 : phi (q1 v) = f0 o).
  { change (q1 (quad_map phi v) = f0 o). rewrite <- Er. exact (quad_sq_c1 o H mnr r Z0). }
  unfold c1_check in E. cbv zeta in E. cbn [bz_ops feqb] in E. apply BigZ.eqb_eq in E. apply (f_equal inj) in E.
  assert (E2 : fmul o (phi (q1 v)) (phi (BigZ.of_Z i)) = f1 o).
  { transitivity (phi (fmul (bz_ops (BigZ.of_Z (modulus (t_field t)))) (q1 v) (BigZ.of_Z i))); [symmetry; exact (fh_mul _ _ _ Hh _ _)|].
    transitivity (phi (f1 (bz_ops (BigZ.of_Z (modulus (t_field t)))))); [exact E|exact (fh_1 _ _ _ Hh)]. }
  exact (nz_of_inv o H _ _ E2 E1).
Qed.

Section Lit.
Local Open Scope bool_scope.
(** u = (0, 1): the two candidates for x and the inverses of the second coefficients of g. *)
Definition g2_sgn_x1 : Z * Z :=
  (0x83c12791abdd5d2fe2f284f0cc6e5aa9b8c2d3f6f3f792302cf75e62bfc4df1d6834443da498888725d8cccccccb1c3,
   0x101f6225b3027f9d1a16442433f6993ddd02486c079f4e2efd6b11f3284eff01ea0e7ae0782ef5c263f523d70a3d3bc1).
Definition g2_sgn_inv : Z * Z :=
  (0xc2af43902cc6157c51075d5d13205e381768a4524b8668847dba51de0a85992d2311f24ef591e4af72328a3d70a1583,
   0xc2af43902cc6157c51075d5d13205e381768a4524b8668847dba51de0a85992d2311f24ef591e4af72328a3d70a1583).
Definition g2_sgn_i1 : Z := 0x11f615f12906b3c238affe54d9d6883c2df1f53b25a66be68a58576d49f77229b64257e1d3c48667ea14b2248a4181ba.
Definition g2_sgn_i2 : Z := 0x1267e4301b5a6eac8173607f59105b5b779e2c8cfed8a0e8120557fdaa2c1c4712ead4a384d5868507837f2da6abf7ab.
Definition g2_sgn_check : bool :=
  let t := bls12381_tower in let o := bz2_ops t in
  let z := b2 (sw_z bls_g2_sswu) in let a := b2 (sw_a bls_g2_sswu) in let b := b2 (sw_b bls_g2_sswu) in let u := b2 (0, 1) in
  let t1 := fmul o z (fmul o u u) in let tv := fadd o (fmul o t1 t1) t1 in let x1 := b2 g2_sgn_x1 in
  feqb o (fmul o (fmul o a tv) (b2 g2_sgn_inv)) (f1 o)
  && feqb o (fmul o x1 (fmul o a tv)) (fmul o (fneg o b) (fadd o tv (f1 o)))
  && c1_check t (curve_rhs o a b x1) g2_sgn_i1 && c1_check t (curve_rhs o a b (fmul o t1 x1)) g2_sgn_i2.
Lemma g2_sgn_ok : g2_sgn_check = true.
Proof. vm_compute. reflexivity. Qed.
End Lit.
(** A generic form of the check. *)
Lemma sgn_roots {B F} (ob : fops B) (o : fops F) (phi : B -> F) (Hf : fhom ob o phi) (H : field_laws o)
    (Heq : forall x y, feqb ob x y = true -> phi x = phi y) odd z a b u x1 i :
  let t1 := fmul ob z (fmul ob u u) in let tv := fadd ob (fmul ob t1 t1) t1 in
  feqb ob (fmul ob (fmul ob a tv) i) (f1 ob) = true ->
  feqb ob (fmul ob x1 (fmul ob a tv)) (fmul ob (fneg ob b) (fadd ob tv (f1 ob))) = true ->
  forall t s, sswu_spec o odd (phi a) (phi b) (phi z) (phi u) t s -> (forall x, is_square o x \/ ~ is_square o x) ->
  fmul o s s = phi (curve_rhs ob a b x1) \/ fmul o s s = phi (curve_rhs ob a b (fmul ob t1 x1)).
Proof.
  intros t1 tv E1 E2 t s Sp Dec. pose proof (sswu_on o H _ _ _ _ _ _ _ Sp) as On. cbn [on_curve] in On.
  destruct Sp as (x & _ & A & C & D & _). cbv zeta in A, D.
  apply Heq in E1, E2. rewrite (fh_mul _ _ _ Hf), (fh_1 _ _ _ Hf) in E1.
  rewrite !(fh_mul _ _ _ Hf), (fh_neg _ _ _ Hf), (fh_add _ _ _ Hf), (fh_1 _ _ _ Hf) in E2.
  pose proof (nz_of_inv o H _ _ E1) as N. rewrite (fh_mul _ _ _ Hf) in N.
  assert (Et1 : phi t1 = fmul o (phi z) (fmul o (phi u) (phi u))) by (unfold t1; rewrite !(fh_mul _ _ _ Hf); reflexivity).
  assert (Etv : phi tv = fadd o (fmul o (phi t1) (phi t1)) (phi t1)) by (unfold tv; rewrite (fh_add _ _ _ Hf), (fh_mul _ _ _ Hf); reflexivity).
  rewrite <- Et1, <- Etv in A. rewrite <- Et1 in D.
  pose proof (rl_ring _ (fl_rl _ H)) as R.
  assert (Ex : x = phi x1).
  { assert (Nt : phi tv <> f0 o) by (intros Z0; apply N; rewrite Z0; apply (fmul_0_r o H)).
    apply (mul_cancel_l o H _ _ _ N). rewrite (Rmul_comm R _ x), (Rmul_comm R _ (phi x1)), (A Nt), E2. reflexivity. }
  subst x. rewrite !(phi_rhs ob o phi Hf), (fh_mul _ _ _ Hf).
  destruct (Dec (curve_rhs o (phi a) (phi b) (phi x1))) as [S|S].
  - left. rewrite <- (C S). exact On.
  - right. rewrite <- (D S). exact On.
Qed.

(** ... and not otherwise: for u = (0, 1), whose sgn0 is 1, bls12-381 G2 gives the other root. *)
Theorem C46_bls_g2_sgn_refuted : forall Hc, let fc := bls12381_fq in let o := lf_ops fc Hc in let inj := lf_inj fc Hc in
  let o2 := bls_fq2 o in let a := inj2 inj (sw_a bls_g2_sswu) in let b := inj2 inj (sw_b bls_g2_sswu) in
  let z := inj2 inj (sw_z bls_g2_sswu) in let u := mk_quad (f0 o) (f1 o) in
  exists t s w, w <> f0 o2 /\
  bls_g2_map o inj (t2_odd fc Hc) u = HRet (iso_map_g2 o2 (map (map (inj2 inj)) (sw_iso bls_g2_sswu)) (fmul o2 t w) (fmul o2 s w) w) /\
  sswu_spec o2 (sgn0_2 fc) a b z u t (fneg o2 s) /\ s <> fneg o2 s.
Proof.
  intros Hc fc o inj o2 a b z u. assert (Hi : In fc all_fields) by (unfold fc; in_fields). pose proof (lf_pf7 _ Hi Hc) as HP.
  pose proof (cf_laws _ _ _ _ (crate_curve_facts _ _ _ _ (cv_bls_g2 _ o inj HP))) as HC. pose proof (cl_field _ _ HC) as H2.
  pose proof (bls_tower_facts o inj HP) as T.
  destruct (C46_bls_g2 _ o inj HP (t2_odd fc Hc) u) as (t & s & w & Zw & Sp & E).
  exists t, s, w. split; [exact Zw|]. split; [exact E|].
  apply (sswu_spec_ext o2 _ (fun x => sgn0 fc (q0 x)) (t2_odd_c0 _ Hc)) in Sp.
  pose (phi := fun b => inj (BigZ.to_Z b)).
  pose proof (phi2_hom bls12381_tower o inj HP (mnr_neg o) (quad_square_complex o) (mnr_neg_inj o inj _ HP) (sq_complex o inj _ HP)) as Hf.
  assert (Ns : q0 s <> f0 o).
  { pose proof g2_sgn_ok as K. unfold g2_sgn_check in K. cbv zeta in K.
    apply andb_prop in K as (K & K4). apply andb_prop in K as (K & K3). apply andb_prop in K as (K1 & K2).
    assert (Eu : u = quad_map phi (b2 (0, 1))).
    { unfold u. symmetry. etransitivity; [exact (phi2_b2 inj (0, 1))|]. unfold inj2. cbn [fst snd].
      exact (f_equal2 (@mk_quad _) (zh_0 _ _ (pf_hom _ _ _ HP)) (zh_1 _ _ (pf_hom _ _ _ HP))). }
    assert (Sp' : sswu_spec o2 (fun x => sgn0 fc (q0 x)) (quad_map phi (b2 (sw_a bls_g2_sswu))) (quad_map phi (b2 (sw_b bls_g2_sswu)))
      (quad_map phi (b2 (sw_z bls_g2_sswu))) (quad_map phi (b2 (0, 1))) t s).
    { rewrite <- Eu, !(phi2_b2 inj). exact Sp. }
    destruct (sgn_roots (bz2_ops bls12381_tower) o2 (quad_map phi) Hf H2 (phi2_eqb bls12381_tower inj) _ _ _ _ _ _ _ K1 K2 t s Sp'
      (square_dec o2 H2 _ (tf_2fin _ _ _ _ _ T) (cl_two _ _ HC))) as [X|X].
    - exact (c1_root bls12381_tower o inj HP _ _ _ _ K3 s X).
    - exact (c1_root bls12381_tower o inj HP _ _ _ _ K4 s X). }
  pose proof (sub_sgn fc Hi Hc) as Sub. pose proof (sgn0_2_ok fc Hi Hc (mnr_neg o) (quad_square_complex o)) as SO.
  destruct Sp as (x1 & A & B & C & D & r & Er & Es).
  assert (Nr : q0 r <> f0 o).
  { destruct (Bool.eqb _ _); [rewrite <- Es; exact Ns|]. apply (sub_neg fc Hi Hc (mnr_neg o) (quad_square_complex o)).
    rewrite Es in Ns. exact Ns. }
  assert (Nz : r <> f0 o2) by (intros Z0; apply Nr; rewrite Z0; reflexivity).
  assert (Sr : sgn0_2 fc (fneg o2 r) = negb (sgn0_2 fc r)) by exact (SO r Nz).
  assert (V0 : lf_val fc (f0 o) = 0) by exact (zr_0 _ _ _ _ (zr fc Hi Hc)).
  assert (V1 : lf_val fc (f1 o) = 1) by exact (zr_1 _ _ _ _ (zr fc Hi Hc)).
  assert (U0 : sgn0 fc (q0 u) = false) by (unfold sgn0; cbn [u q0]; rewrite V0; reflexivity).
  assert (U1 : sgn0_2 fc u = true).
  { unfold sgn0_2, sgn0. cbn [u q0 q1]. rewrite V0, V1. reflexivity. }
  split.
  - exists x1. do 4 (split; [assumption|]). exists r. split; [exact Er|]. rewrite U1, <- (Sub r Nr). rewrite Es, U0.
    destruct (sgn0 fc (q0 r)); cbn [Bool.eqb]; [apply (fneg_neg o2 H2)|reflexivity].
  - intros X. assert (Y : sgn0_2 fc s = negb (sgn0_2 fc s)).
    { rewrite X at 1. apply SO. intros Z0. apply Ns. rewrite Z0. reflexivity. }
    destruct (sgn0_2 fc s); discriminate Y.
Qed.
Print Assumptions C46_bls_g2_sgn_refuted.

(** bn256 G2: as above, with the constant c3 of the map, whose first coefficient is not zero. *)
Definition bn_sgn_i : Z := 0x2b03d3f456650025159cafbeac01321a4dc85eba23f35eb66e55d1db6b19c4ba.
Definition bn_sgn_v : quad bigZ :=
  let o := bz2_ops bn256_tower in let z := f1 o in let a := b2 (cc_a bn256_g2_consts) in
  fmul o (fneg o (curve_rhs o a (b2 (cc_b bn256_g2_consts)) z))
    (fadd o (fmul o (fadd o (fadd o (f1 o) (f1 o)) (f1 o)) (fmul o z z))
            (fmul o (fadd o (fadd o (fadd o (f1 o) (f1 o)) (f1 o)) (f1 o)) a)).
Lemma bn_sgn_ok : c1_check bn256_tower bn_sgn_v bn_sgn_i = true.
Proof. vm_compute. reflexivity. Qed.
Theorem C52_bn256_g2_sgn : forall Hc, let fc := bn256_fq in let o := lf_ops fc Hc in let inj := lf_inj fc Hc in
  let o2 := bn256_fq2 o in let c := curve_of o2 (inj2 inj) bn256_g2_consts in forall u x y,
  q0 u <> f0 o -> q0 y <> f0 o ->
  svdw_spec o2 (fun x => sgn0 fc (q0 x)) (ca c) (cb c) (f1 o2) u x y -> svdw_spec o2 (sgn0_2 fc) (ca c) (cb c) (f1 o2) u x y.
Proof.
  intros Hc fc o inj o2 c u x y Nu Ny. assert (Hi : In fc all_fields) by (unfold fc; in_fields). pose proof (lf_pf7 _ Hi Hc) as HP.
  pose proof (cf_laws _ _ _ _ (crate_curve_facts _ _ _ _ (cv_bn256_g2 _ o inj HP))) as HC. pose proof (cl_field _ _ HC) as H2.
  assert (Hf : fhom (bz2_ops bn256_tower) o2 (quad_map (fun b => inj (BigZ.to_Z b))))
    by exact (phi2_hom bn256_tower o inj HP (mnr_neg o) (quad_square_complex o) (mnr_neg_inj o inj _ HP) (sq_complex o inj _ HP)).
  refine (svdw_spec_sub o2 H2 (fun x => q0 x <> f0 o) _ _ (sub_sgn fc Hi Hc) (sub_neg fc Hi Hc _ _) (ca c) (cb c) (f1 o2) u x y _ Nu Ny).
  intros r Er. apply (c1_root bn256_tower o inj HP (mnr_neg o) (quad_square_complex o) bn_sgn_v bn_sgn_i bn_sgn_ok r).
  etransitivity; [exact Er|]. symmetry. unfold bn_sgn_v. cbv zeta.
  rewrite (fh_mul _ _ _ Hf), (fh_neg _ _ _ Hf), (phi_rhs _ _ _ Hf), !(fh_add _ _ _ Hf), !(fh_mul _ _ _ Hf), !(fh_add _ _ _ Hf), !(fh_1 _ _ _ Hf),
    !(phi2_b2 inj). reflexivity.
Qed.
Definition C52_sgn_all := (C52_bls_g2_sgn, C52_bn256_g2_sgn).
Print Assumptions C52_sgn_all.

(** ** Uniqueness: u determines the point, so C52 determines the hash *)
Definition functional {A B} (R : A -> B -> Prop) : Prop := forall u P P', R u P -> R u P' -> P = P'.
Theorem C52_unique : forall fc (Hc : odd_conf fc), In fc all_fields -> let o := lf_ops fc Hc in forall a b z polys,
  (a <> f0 o -> z <> f0 o -> functional (sswu_point o (sgn0 fc) a b z) /\ functional (sswu_iso_point o (sgn0 fc) a b z polys)) /\
  (let three := fadd o (fadd o (f1 o) (f1 o)) (f1 o) in
   fadd o (fmul o three (fmul o z z)) (fmul o (fadd o three (f1 o)) a) <> f0 o -> functional (svdw_point o (sgn0 fc) a b z)).
Proof.
  intros fc Hc Hi o a b z polys. pose proof (lf_pf7 _ Hi Hc) as HP. pose proof (pf_laws _ _ _ HP) as H.
  pose proof (sgn0_ok fc Hi Hc) as SO. pose proof (lf_sq_dec fc Hi Hc) as Dec.
  assert (H2 : fadd o (f1 o) (f1 o) <> f0 o).
  { apply (pf_two _ _ _ HP). pose proof (proj1 Hc) as A. pose proof (proj2 Hc) as B. clear - A B.
    destruct (Z.eq_dec (modulus fc) 2) as [E|E]; [rewrite E in B; discriminate B|lia]. }
  split; [intros Za Zz; split|intros three ZT].
  - intros u [x y] [x' y'] A B. destruct (sswu_unique o H _ SO Dec _ _ _ _ _ _ _ _ Za Zz A B) as [E E']. cbn [fst snd] in *. congruence.
  - intros u [X Y] [X' Y'] (t & s & S & N1 & N3 & A & B) (t' & s' & S' & _ & _ & A' & B'). cbv beta zeta in *. cbn [fst snd] in *.
    destruct (sswu_unique o H _ SO Dec _ _ _ _ _ _ _ _ Za Zz S S') as [<- <-].
    pose proof (rl_ring _ (fl_rl _ H)) as R. f_equal.
    + refine (mul_cancel_l o H _ _ _ N1 _). etransitivity; [exact (Rmul_comm R _ X)|]. etransitivity; [exact A|].
      symmetry. etransitivity; [exact (Rmul_comm R _ X')|exact A'].
    + refine (mul_cancel_l o H _ _ _ N3 _). etransitivity; [exact (Rmul_comm R _ Y)|]. etransitivity; [exact B|].
      symmetry. etransitivity; [exact (Rmul_comm R _ Y')|exact B'].
  - intros u [x y] [x' y'] A B. destruct (svdw_unique o H _ SO Dec _ _ _ _ _ _ _ _ H2 ZT A B) as [E E']. cbn [fst snd] in *. congruence.
Qed.
Print Assumptions C52_unique.
