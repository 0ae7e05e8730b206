(** C43, C48: cofactor clearing, the subgroup tests and the number of points of the curves. *)
From Verif Require Import Base Field SpecField Params
  Algebra Pow Tower TowerFacts FiniteField PrimeField Primality Certs Compute TowerParams TowerInst SpecCurve SpecCurveFacts Group GroupSum
  Curve CurveFacts CurveGroup CurveParams CurveCheck CurveCerts CurveInst CrateCurves Pairing PairingParams PairingLines TwistFrob
  Cofactor CofactorFacts CurveSum OrderFacts SmallOrder PointFacts CofPoints CofCerts CofGroups CofGroups2 CofBls2 CofBn2 CofTriton
  Inverse LimbField Props_Field2 SerdeInst Props_Serde SpecPairing PairingMiller Props_Pairing Props_Miller.
From Bignums Require Import BigZ.
Local Open Scope Z_scope.

(** ** The specification *)
(** [gen] generates the points killed by [r]; [clear] multiplies by [m], which maps the curve
    onto that group, and [tf] decides membership. *)
Record cofactor_spec {F} (o : fops F) (c : cconf F) (gen : F * F) (r m : Z) (clear : proj F -> proj F) (tf : proj F -> bool) : Prop := {
  cs_group : forall P, on_curve o (ca c) (cb c) P -> (pt_mulz o (ca c) r P = None <-> exists k, P = pt_mulz o (ca c) k (Some gen));
  cs_clear : forall p P, prep o c p P -> prep o c (clear p) (pt_mulz o (ca c) m P);
  cs_into : forall P, on_curve o (ca c) (cb c) P -> exists k, pt_mulz o (ca c) m P = pt_mulz o (ca c) k (Some gen);
  cs_onto : forall k, exists P, on_curve o (ca c) (cb c) P /\ pt_mulz o (ca c) m P = pt_mulz o (ca c) k (Some gen);
  cs_free : forall p P, prep o c p P -> (tf p = true <-> pt_mulz o (ca c) r P = None) }.

Section Spec.
Context {F : Type} (o : fops F) (c : cconf F) (HC : curve_laws o c).
Notation G := (cpt o c). Notation g := (cpt_ops o c HC). Notation gm := (gmul g).
Let GL := cpt_laws o c HC.
Lemma lift P : on_curve o (ca c) (cb c) P -> exists Q : G, proj1_sig Q = P.
Proof. intros H. exists (mkpt o c HC P H). reflexivity. Qed.
Lemma zero_iff (Q : G) : Q = g0 g <-> proj1_sig Q = None.
Proof. split; [intros ->; reflexivity|]. intros E. apply cpt_ext. exact E. Qed.
Lemma eq_iff (P Q : G) : P = Q <-> proj1_sig P = proj1_sig Q.
Proof. split; [intros ->; reflexivity|apply cpt_ext]. Qed.
Lemma cofactor_spec_intro r h e Gen bs gen m clear tf : cof_group o c HC r h e Gen bs -> proj1_sig Gen = Some gen ->
  (e | m) -> ~ (r | m) ->
  (forall p (P : G), grep o c p P -> grep o c (clear p) (gm m P)) ->
  (forall p (P : G), grep o c p P -> (tf p = true <-> gm r P = g0 g)) ->
  cofactor_spec o c gen r m clear tf.
Proof.
  intros C Eg De Nr Hcl Htf.
  assert (KG : forall P : G, gm r P = g0 g <-> exists k, proj1_sig P = pt_mulz o (ca c) k (Some gen)).
  { intros P. rewrite (cg_killed o c HC r h e Gen bs C P). split; intros (k & E); exists k.
    - rewrite E, (gmul_pt o c HC), Eg. reflexivity.
    - apply cpt_ext. rewrite (gmul_pt o c HC), Eg. exact E. }
  constructor.
  - intros P HP. destruct (lift P HP) as (Q & <-). rewrite <- (gmul_pt o c HC), <- zero_iff. apply KG.
  - intros p P A. destruct (lift P (proj1 A)) as (Q & <-). rewrite <- (gmul_pt o c HC). apply Hcl. exact A.
  - intros P HP. destruct (lift P HP) as (Q & <-). rewrite <- (gmul_pt o c HC). apply KG. destruct De as [w ->].
    rewrite <- (gmul_mul _ GL). replace (r * (w * e)) with (w * (r * e)) by ring.
    rewrite (gmul_mul _ GL), (cg_exp o c HC r h e Gen bs C). apply (gmul_g0 _ GL).
  - intros k. destruct (cg_onto o c HC r h e Gen bs C (gm m) (gmul_gadd g GL m) m eq_refl Nr k) as (P & E).
    exists (proj1_sig P). split; [apply (cpt_on o c HC)|]. rewrite <- (gmul_pt o c HC), E, (gmul_pt o c HC), Eg. reflexivity.
  - intros p P A. destruct (lift P (proj1 A)) as (Q & <-). rewrite <- (gmul_pt o c HC), <- zero_iff. apply Htf. exact A.
Qed.
Lemma proj_of_pair x y : on_curve o (ca c) (cb c) (Some (x, y)) -> prep o c (mk_proj x y (f1 o)) (Some (x, y)).
Proof.
  intros H. split; [exact H|]. cbn [px py pz]. pose proof (fl_rl _ (cl_field _ _ HC)) as R.
  split; [exact (fl_1_0 _ (cl_field _ _ HC))|]. pose proof (rl_ring _ R) as RR.
  split; rewrite (Rmul_comm RR), (Rmul_1_l RR); reflexivity.
Qed.
End Spec.
Lemma divide_of a b : a <> 0 -> (b mod a =? 0) = true -> (a | b).
Proof. intros Ha E. apply Z.eqb_eq in E. apply Z.mod_divide; assumption. Qed.

Lemma gmul_cong {G} (g : gops G) (GL : grp_laws g) r a b (P : G) : gmul g r P = g0 g -> a mod r = b mod r -> gmul g a P = gmul g b P.
Proof. intros K E. rewrite <- (gmul_mod g GL r a P K), E. apply (gmul_mod g GL r b P K). Qed.

(** ** The curves without a cofactor *)
Lemma whole_crate {F} (o : fops F) c g sc : whole_curve o c g sc -> crate_curve o c g sc.
Proof.
  intros [F' o' inj HP|F' o' inj HP|F' o' inj HP|F' o' inj HP|F' o' inj HP|F' o' inj HP|F' o' inj HP]; constructor; exact HP.
Qed.
Theorem C43_plain : forall F (o : fops F) c g sc, whole_curve o c g sc ->
  cofactor_spec o c (ax g, ay g) (modulus sc) 1 plain_clear_cofactor plain_is_torsion_free
  /\ forall p : proj F, plain_into_subgroup p = Some (Some p).
Proof.
  intros F o c g sc X. split; [|reflexivity]. pose proof (C33_whole F o c g sc X) as W.
  assert (E1 : forall P, pt_mulz o (ca c) 1 P = P) by (intros P; change (pt_add o (ca c) P None = P); destruct P as [[x y]|]; reflexivity).
  constructor.
  - intros P HP. destruct (W P HP) as (A & B). tauto.
  - intros p P A. rewrite E1. exact A.
  - intros P HP. rewrite E1. exact (proj1 (W P HP)).
  - intros k. exists (pt_mulz o (ca c) k (Some (ax g, ay g))). split; [|apply E1].
    pose proof (crate_curve_facts o c g sc (whole_crate o c g sc X)) as CF.
    pose proof (cf_laws _ _ _ _ CF) as HC. pose proof (proj1 (cf_gen _ _ _ _ CF)) as Hg.
    exact (eq_ind _ (on_curve o (ca c) (cb c)) (cpt_on o c HC _) _ (gmul_pt o c HC k (mkpt o c HC _ Hg))).
  - intros p P A. split; [|reflexivity]. intros _. exact (proj2 (W P (proj1 A))).
Qed.
Print Assumptions C43_plain.

(** ** bls12-381 G1 *)
Section BlsG1.
Context {F : Type} (o : fops F) (inj : Z -> F) (HP : prime_field (modulus bls12381_fq) o inj).
Let c := curve_of o inj bls_g1_consts.
Let HC := prime_curve_laws bls_g1_consts _ o inj HP bls_g1_ok.
Let GL := cpt_laws o c HC.
Notation g := (cpt_ops o c HC). Notation gm := (gmul g).
Notation phi := (g1_phi o inj HP).
Let zt := inj (zeta bls12381_fq).
Lemma g1_repr_x p (P : cpt o c) k : grep o c p (gm k P) -> grep o c (mul_by_x o c p) (gm (- 0xd201000000010000 * k) P).
Proof.
  intros A. unfold grep in *. rewrite (gmul_mul _ GL), (gmul_pt o c HC). apply (mul_by_x_repr o c HC). exact A.
Qed.
Lemma g1_clear_repr p (P : cpt o c) : grep o c p P -> grep o c (bls_g1_clear_cofactor o c p) (gm 0xd201000000010001 P).
Proof.
  intros A. pose proof A as A1. rewrite <- (gmul_1 _ GL P) in A1. apply g1_repr_x in A1.
  replace 0xd201000000010001 with (1 - (- 0xd201000000010000 * 1)) by reflexivity.
  rewrite (gmul_sub _ GL), (gmul_1 _ GL). apply (sub_repr o c HC); assumption.
Qed.
Definition g1_m : Z := 0xd201000000010000 * 0xd201000000010000.
Lemma g1_neg_repr p (P : cpt o c) : grep o c p P ->
  grep o c (proj_endo o zt (proj_neg o (mul_by_x o c (mul_by_x o c p)))) (phi (gm (- g1_m) P)).
Proof.
  intros A. pose proof A as A1. rewrite <- (gmul_1 _ GL P) in A1. apply g1_repr_x in A1. apply g1_repr_x in A1.
  apply (neg_repr o c HC) in A1.
  replace (- g1_m) with (- (- 0xd201000000010000 * (- 0xd201000000010000 * 1))) by reflexivity.
  rewrite (gmul_opp _ GL).
  exact (proj_endo_repr o c HC zt (proj1 (g1_endo o inj HP)) (proj2 (g1_endo o inj HP)) _ _ A1).
Qed.
Lemma g1_free P : phi (gm (- g1_m) P) = P -> gm (g1_m * g1_m - g1_m + 1) P = g0 g.
Proof.
  intros E. pose proof (fun k S => h_mul g GL phi (g1_phi_add o inj HP) k S) as HM.
  set (m := g1_m) in *. clearbody m.
  pose proof (g1_phi_rel o inj HP P) as R. apply (f_equal (gm (m * m))) in R. rewrite (gmul_gadd _ GL) in R.
  assert (E1 : gm (m * m) (phi P) = gm (- m) P).
  { rewrite <- HM. rewrite <- E at 2. rewrite <- HM. f_equal. rewrite <- (gmul_mul _ GL). f_equal. ring. }
  assert (E2 : gm (m * m) (phi (phi P)) = P).
  { rewrite <- HM, E1. exact E. }
  rewrite (gmul_gneg _ GL), E1, E2 in R.
  rewrite !(gmul_add _ GL), (gmul_1 _ GL). replace (m * m - m) with (m * m + - m) by ring. rewrite (gmul_add _ GL), R. apply (g_neg_l _ GL).
Qed.
End BlsG1.
Lemma g1_nums2 : ((g1_m * g1_m - g1_m + 1 =? modulus bls12381_fr)
  && ((- g1_m * zeta bls12381_fr) mod modulus bls12381_fr =? 1)
  && (0xd201000000010001 mod g1_e =? 0) && negb (0xd201000000010001 mod modulus bls12381_fr =? 0))%bool = true.
Proof. vm_compute. reflexivity. Qed.
Lemma pos_r : 0 < modulus bls12381_fr /\ 0 < modulus bn256_fr /\ 0 < modulus pluto_eris_fq /\ g1_e <> 0 /\ g2_e <> 0 /\ bn_h <> 0 /\ tr_h <> 0.
Proof. split; [|split; [|split; [|split; [|split; [|split]]]]]; vm_compute; (reflexivity || discriminate). Qed.

(** clear_cofactor multiplies by the h_eff of RFC 9380, 8.8.1 *)
Theorem C43_bls_g1 : forall F (o : fops F) inj, prime_field (modulus bls12381_fq) o inj ->
  let c := curve_of o inj bls_g1_consts in
  cofactor_spec o c (inj (cc_gx bls_g1_consts), inj (cc_gy bls_g1_consts)) (modulus bls12381_fr) 0xd201000000010001
    (bls_g1_clear_cofactor o c) (bls_g1_is_torsion_free o c (inj (zeta bls12381_fq))).
Proof.
  intros F o inj HP c. destruct (bls_g1_group o inj HP) as (Gen & bs & Eg & C).
  set (HC := prime_curve_laws bls_g1_consts _ o inj HP bls_g1_ok) in *. pose proof (cpt_laws o c HC) as GL.
  pose proof g1_nums2 as N. apply andb_prop in N as (N & N4). apply andb_prop in N as (N & N3). apply andb_prop in N as (N1 & N2).
  destruct pos_r as (Pr & _ & _ & Pe & _).
  apply (cofactor_spec_intro o c HC _ _ _ _ _ _ _ _ _ C Eg (divide_of _ _ Pe N3) (not_div_of _ _ Pr N4)).
  - exact (g1_clear_repr o inj HP).
  - intros p P A. unfold bls_g1_is_torsion_free.
    pose proof (g1_neg_repr o inj HP p P A) as B. refine (iff_trans (proj_eq_repr o c HC _ _ _ _ B A) _).
    refine (iff_trans (iff_sym (eq_iff o c _ _)) _). split.
    + intros E. apply Z.eqb_eq in N1. pose proof (g1_free o inj HP P E) as X. rewrite N1 in X. exact X.
    + intros E. pose proof (fun k S => h_mul _ GL (g1_phi o inj HP) (g1_phi_add o inj HP) k S) as HM.
      apply (cg_killed o c HC _ _ _ _ _ C) in E. destruct E as (k & ->).
      assert (EG : g1_phi o inj HP Gen = gmul (cpt_ops o c HC) (zeta bls12381_fr) Gen).
      { apply cpt_ext. rewrite (gmul_pt o c HC). unfold is_pt in Eg. cbn [fst snd] in Eg. cbn [g1_phi mkpt proj1_sig].
        refine (eq_trans (f_equal _ Eg) (eq_trans _ (f_equal _ (eq_sym Eg)))).
        assert (He : prime_endo_check bls_g1_consts = true).
        { apply (proj1 (forallb_forall _ _) endo_curves_ok). cbn [endo_curves In]. auto. }
        destruct (prime_curve_endo bls_g1_consts _ o inj HP bls_g1_ok He) as (_ & _ & X). exact X. }
      refine (eq_trans (HM _ _) _). refine (eq_trans (f_equal _ (HM _ _)) _). refine (eq_trans (f_equal _ (f_equal _ EG)) _).
      rewrite <- !(gmul_mul _ GL). apply (gmul_cong _ GL _ _ _ _ (proj1 (cg_gen _ _ _ _ _ _ _ _ C))).
      apply Z.eqb_eq in N2. revert N2 Pr. generalize (- g1_m) (zeta bls12381_fr) (modulus bls12381_fr). clear. intros a z r E Pr.
      transitivity ((k * (a * z)) mod r); [f_equal; ring|]. rewrite <- Z.mul_mod_idemp_r, E, Z.mul_1_r by lia. reflexivity.
Qed.
Print Assumptions C43_bls_g1.

(** ** The twists *)
(** The coefficients of psi are U^2, U^3 and that of psi^2 is (conj(U) U)^2. *)
Definition q_lit_chk (t : tower_conf) (u ux uy u2 : Z * Z) : bool :=
  let ob := bz_ops (BigZ.of_Z (modulus (t_field t))) in
  let bmnr := fun x => fmul ob (BigZ.of_Z (t_beta t)) x in
  let o2b := quad_ops ob bmnr (quad_square ob bmnr) in
  let U := b2 u in let n := fmul o2b (quad_conjugate ob U) U in
  feqb o2b (fmul o2b U U) (b2 ux) && feqb o2b (fmul o2b (fmul o2b U U) U) (b2 uy) && feqb o2b (fmul o2b n n) (b2 u2).
Lemma q_lit_ok t {F} (o : fops F) inj (HP : prime_field (modulus (t_field t)) o inj) mnr sq
  (Hm : forall x, mnr x = fmul o (inj (t_beta t)) x) (Hsq : forall a, sq a = quad_mul o mnr a a) u ux uy u2 :
  q_lit_chk t u ux uy u2 = true -> let o2 := quad_ops o mnr sq in let U := inj2 inj u in let n := fmul o2 (quad_conjugate o U) U in
  fmul o2 U U = inj2 inj ux /\ fmul o2 (fmul o2 U U) U = inj2 inj uy /\ fmul o2 n n = inj2 inj u2.
Proof.
  intros E. unfold q_lit_chk in E. cbv zeta in E. apply andb_prop in E as (E & E3). apply andb_prop in E as (E1 & E2). cbv zeta.
  apply (phi2_eqb t inj) in E1, E2, E3. pose proof (phi2_hom t o inj HP mnr sq Hm Hsq) as Hf.
  repeat rewrite (fh_mul _ _ _ Hf) in E1. repeat rewrite (fh_mul _ _ _ Hf) in E2. repeat rewrite (fh_mul _ _ _ Hf) in E3.
  rewrite (conj_b2 t o inj HP) in E3. rewrite !(phi2_b2 inj) in E1, E2, E3. auto.
Qed.
Lemma psi_literals : lits_denote (modulus bls12381_fq) 6 bls_psi_src [bls_psi_x; bls_psi_y; bls_psi2_x] = true
  /\ lits_denote (modulus bn256_fq) 4 bn256_psi_src [bn256_psi_x; bn256_psi_y] = true.
Proof. split; vm_compute; reflexivity. Qed.
Print Assumptions psi_literals.
Lemma psi_coeffs : q_lit_chk bls12381_tower bls_u bls_psi_x bls_psi_y bls_psi2_x = true
  /\ q_lit_chk bn256_tower bn_u bn256_psi_x bn256_psi_y
    (0x30644e72e131a0295e6dd9e7e0acccb0c28f069fbb966e3de4bd44e5607cfd48, 0) = true.
Proof. split; vm_compute; reflexivity. Qed.

(** RFC 9380, 8.8.2 *)
Definition bls_g2_h_eff : Z :=
  0xbc69f08f2ee75b3584c6a0ea91b352888e2a8e9145ad7689986ff031508ffe1329c2f178731db956d82bf015d1212b02ec0ec69d7477c1ae954cbc06689f6a359894c0adebbf6b4e8020005aaa95551.
Lemma bls_g2_nums : ((bls_xa ^ 4 - bls_xa ^ 2 + 1 =? modulus bls12381_fr) && ((bls_g2_h_eff - qt_eval (- bls_xa) bls_cc) mod modulus bls12381_fr =? 0)
  && (bls_g2_h_eff mod g2_e =? 0) && negb (bls_g2_h_eff mod modulus bls12381_fr =? 0))%bool = true.
Proof. vm_compute. reflexivity. Qed.
Theorem C43_bls_g2 : forall F (o : fops F) inj, prime_field (modulus bls12381_fq) o inj ->
  let o2 := bls_fq2 o in let c := curve_of o2 (inj2 inj) bls_g2_consts in
  let ux := inj2 inj bls_psi_x in let uy := inj2 inj bls_psi_y in let u2 := inj2 inj bls_psi2_x in
  cofactor_spec o2 c (inj2 inj (cc_gx bls_g2_consts), inj2 inj (cc_gy bls_g2_consts)) (modulus bls12381_fr) bls_g2_h_eff
    (bls_g2_clear_cofactor o2 c (quad_conjugate o) ux uy u2) (bls_g2_is_torsion_free o2 c (quad_conjugate o) ux uy).
Proof.
  intros F o inj HP o2 c ux uy u2. pose proof (bls_tower_facts o inj HP) as T. destruct (bls_g2_group o inj HP) as (Gen & bs & Eg & C & Ep & K).
  pose proof (q_lit_ok bls12381_tower o inj HP (mnr_neg o) (quad_square_complex o) (mnr_neg_inj o inj _ HP) (sq_complex o inj _ HP)
    _ _ _ _ (proj1 psi_coeffs)) as (L1 & L2 & L3).
  pose proof bls_g2_nums as N. apply andb_prop in N as (N & N4). apply andb_prop in N as (N & N3). apply andb_prop in N as (N1 & N2).
  destruct pos_r as (Pr & _ & _ & _ & Pe & _).
  set (HC := g2_HC o inj HP) in *. pose proof (cpt_laws _ _ HC) as GL.
  pose proof (fun k S => h_mul _ GL (g2_psi o inj HP) (g2_psi_add o inj HP) k S) as HM.
  set (Htw := proj1 (andb_prop _ _ g2_tw)). set (Hnm := proj2 (andb_prop _ _ g2_tw)).
  pose proof (qp_u bls12381_tower bls_g2_consts bls_g2_noroot o inj HP (mnr_neg o) (quad_square_complex o) (mnr_neg_inj o inj _ HP) (sq_complex o inj _ HP)
    (tf_2 _ _ _ _ _ T) (tf_2z _ _ _ _ _ T) (tf_2fin _ _ _ _ _ T) bls_g2_ok bls_u Htw) as Un.
  pose proof (qp_n bls12381_tower o inj HP (mnr_neg o) (quad_square_complex o) (mnr_neg_inj o inj _ HP) (sq_complex o inj _ HP) bls_u Hnm) as Un2.
  apply (cofactor_spec_intro o2 c HC _ _ _ _ _ _ _ _ _ C Eg (divide_of _ _ Pe N3) (not_div_of _ _ Pr N4)).
  - intros p P A. unfold ux, uy, u2. rewrite <- L1, <- L2, <- L3.
    assert (E : gmul (cpt_ops o2 c HC) bls_g2_h_eff P = act (cpt_ops o2 c HC) (g2_psi o inj HP) bls_cc P).
    { symmetry. apply (cg_is o2 c HC _ _ _ _ _ C (act _ (g2_psi o inj HP) bls_cc) (g2_act_add o inj HP bls_cc) (qt_eval (- bls_xa) bls_cc)).
      - exact K.
      - apply (act_eval _ GL (g2_psi o inj HP) (g2_psi_add o inj HP) (g2_psi_four o inj HP)). intros k. refine (eq_trans (HM _ _) _). refine (eq_trans (f_equal _ Ep) _).
        rewrite <- !(gmul_mul _ GL). f_equal. ring.
      - exact (divide_of _ _ (fun E => Z.lt_irrefl 0 (eq_ind _ (fun z => 0 < z) Pr _ E)) N2).
      - exact (divide_of _ _ Pe N3). }
    unfold grep. rewrite E.
    exact (bls_clear_repr o2 c HC _ _ _ (conj_invol bls12381_tower o inj HP) _ Un _ Un2 p P A).
  - intros p P A. unfold ux, uy. rewrite <- L1, <- L2.
    refine (iff_trans (bls_torsion o2 c HC (qp_a bls12381_tower bls_g2_consts o inj HP (mnr_neg o) (quad_square_complex o) bls_a0) _ (conj_hom bls12381_tower o inj HP (mnr_neg o) (quad_square_complex o) (mnr_neg_inj o inj _ HP) (sq_complex o inj _ HP))
      (conj_invol bls12381_tower o inj HP) _ Un (qp_b bls12381_tower bls_g2_consts o inj HP (mnr_neg o) (quad_square_complex o) (mnr_neg_inj o inj _ HP) (sq_complex o inj _ HP) bls_u Htw) p P A) _).
    change (g2_psi o inj HP P = gmul (cpt_ops o2 c HC) (- bls_xa) P <-> gmul (cpt_ops o2 c HC) (modulus bls12381_fr) P = g0 (cpt_ops o2 c HC)). split.
    + intros E. apply Z.eqb_eq in N1. rewrite <- N1. replace (bls_xa ^ 4 - bls_xa ^ 2 + 1) with ((- bls_xa) ^ 4 - (- bls_xa) ^ 2 + 1) by ring.
      exact (torsion_killed o2 c HC _ _ _ (conj_invol bls12381_tower o inj HP) _ Un _ Un2 (- bls_xa) P E).
    + intros E. apply (cg_killed o2 c HC _ _ _ _ _ C) in E. destruct E as (k & ->).
      refine (eq_trans (HM _ _) _). refine (eq_trans (f_equal _ Ep) _). rewrite <- !(gmul_mul _ GL). f_equal. ring.
Qed.
Print Assumptions C43_bls_g2.

(** *** bn256 G2 *)
(** The integer is fixed by m = 0 mod 2p - r, m = x + 3x l + x l^2 + l^3 mod r for l = p mod r,
    and 0 <= m < r (2p - r). *)
Definition bn_m : Z :=
  0x925c4b8763cbf9c489cc347d5abc08e052d4015a2223c4d4517bf2834b384f38d79b3f77302474029d14f3f70f8afb4a429874c0aeac6a1211b707a3206c1a3.
Definition bn_l : Z := modulus bn256_fq mod modulus bn256_fr.
Definition bn_tf_b : quart :=
  (1469306990098747947612402495217174680644553844552944252430, 734653495049373973658254490726798021314063399421879442165,
   -734653495049373973806201247608587340314828430225682852893, 734653495049373973806201247608587340319794091592875701774).
Lemma bn_tf_norm : qt_mul bn_tf_b bn_tf = (modulus bn256_fr, 0, 0, 0).
Proof. vm_compute. reflexivity. Qed.
Lemma bn_nums2 : (((bn_m - qt_eval bn_l bn_cc) mod modulus bn256_fr =? 0) && (qt_eval bn_l bn_tf mod modulus bn256_fr =? 0)
  && (bn_m mod bn_h =? 0) && negb (bn_m mod modulus bn256_fr =? 0) && (0 <=? bn_m) && (bn_m <? modulus bn256_fr * bn_h))%bool = true.
Proof. vm_compute. reflexivity. Qed.
Theorem C43_bn256_g2 : forall F (o : fops F) inj, prime_field (modulus bn256_fq) o inj ->
  let o2 := bn256_fq2 o in let c := curve_of o2 (inj2 inj) bn256_g2_consts in
  let ux := inj2 inj bn256_psi_x in let uy := inj2 inj bn256_psi_y in
  cofactor_spec o2 c (inj2 inj (cc_gx bn256_g2_consts), inj2 inj (cc_gy bn256_g2_consts)) (modulus bn256_fr) bn_m
    (bn_g2_clear_cofactor o2 c (quad_conjugate o) ux uy) (bn_g2_is_torsion_free o2 c (quad_conjugate o) ux uy).
Proof.
  intros F o inj HP o2 c ux uy. pose proof (bn256_tower_facts o inj HP) as T. destruct (bn256_g2_group o inj HP) as (Gen & bs & Eg & C & Ep & K).
  pose proof (q_lit_ok bn256_tower o inj HP (mnr_neg o) (quad_square_complex o) (mnr_neg_inj o inj _ HP) (sq_complex o inj _ HP)
    _ _ _ _ (proj2 psi_coeffs)) as (L1 & L2 & _).
  pose proof bn_nums2 as N. apply andb_prop in N as (N & _). apply andb_prop in N as (N & _).
  apply andb_prop in N as (N & N4). apply andb_prop in N as (N & N3). apply andb_prop in N as (N1 & N2).
  destruct pos_r as (_ & Pr & _ & _ & _ & Pe & _).
  set (HC := bn2_HC o inj HP) in *. pose proof (cpt_laws _ _ HC) as GL.
  pose proof (fun k S => h_mul _ GL (bn2_psi o inj HP) (bn2_psi_add o inj HP) k S) as HM.
  set (Htw := proj1 (andb_prop _ _ bn_tw)). set (Hnm := proj2 (andb_prop _ _ bn_tw)).
  pose proof (qp_u bn256_tower bn256_g2_consts bn256_g2_noroot o inj HP (mnr_neg o) (quad_square_complex o) (mnr_neg_inj o inj _ HP) (sq_complex o inj _ HP)
    (tf_2 _ _ _ _ _ T) (tf_2z _ _ _ _ _ T) (tf_2fin _ _ _ _ _ T) bn256_g2_ok bn_u Htw) as Un.
  pose proof (qp_n bn256_tower o inj HP (mnr_neg o) (quad_square_complex o) (mnr_neg_inj o inj _ HP) (sq_complex o inj _ HP) bn_u Hnm) as Un2.
  assert (EV : forall a, act (cpt_ops o2 c HC) (bn2_psi o inj HP) a Gen = gmul (cpt_ops o2 c HC) (qt_eval bn_l a) Gen).
  { intros a. apply (act_eval _ GL (bn2_psi o inj HP) (bn2_psi_add o inj HP) (bn2_psi_four o inj HP)).
    intros k. refine (eq_trans (HM _ _) _). refine (eq_trans (f_equal _ Ep) _). fold bn_l.
    rewrite <- !(gmul_mul _ GL). f_equal. ring. }
  apply (cofactor_spec_intro o2 c HC _ _ _ _ _ _ _ _ _ C Eg (divide_of _ _ Pe N3) (not_div_of _ _ Pr N4)).
  - intros p P A. unfold ux, uy. rewrite <- L1, <- L2.
    assert (E : gmul (cpt_ops o2 c HC) bn_m P = act (cpt_ops o2 c HC) (bn2_psi o inj HP) bn_cc P).
    { symmetry. apply (cg_is o2 c HC _ _ _ _ _ C (act _ (bn2_psi o inj HP) bn_cc) (bn2_act_add o inj HP bn_cc) (qt_eval bn_l bn_cc)).
      - exact K.
      - exact (EV bn_cc).
      - exact (divide_of _ _ (fun E => Z.lt_irrefl 0 (eq_ind _ (fun z => 0 < z) Pr _ E)) N1).
      - exact (divide_of _ _ Pe N3). }
    unfold grep. rewrite E.
    exact (bn_clear_repr o2 c HC _ _ _ (conj_invol bn256_tower o inj HP) _ Un _ Un2 p P A).
  - intros p P A. unfold ux, uy. rewrite <- L1, <- L2.
    refine (iff_trans (bn_torsion o2 c HC (qp_a bn256_tower bn256_g2_consts o inj HP (mnr_neg o) (quad_square_complex o) bn_a0) _ (conj_hom bn256_tower o inj HP (mnr_neg o) (quad_square_complex o) (mnr_neg_inj o inj _ HP) (sq_complex o inj _ HP))
      (conj_invol bn256_tower o inj HP) _ Un (qp_b bn256_tower bn256_g2_consts o inj HP (mnr_neg o) (quad_square_complex o) (mnr_neg_inj o inj _ HP) (sq_complex o inj _ HP) bn_u Htw) Un2 p P A) _).
    change (act (cpt_ops o2 c HC) (bn2_psi o inj HP) bn_tf P = g0 (cpt_ops o2 c HC) <-> gmul (cpt_ops o2 c HC) (modulus bn256_fr) P = g0 (cpt_ops o2 c HC)). split.
    + intros E. exact (act_killed o2 c HC _ _ _ (conj_invol bn256_tower o inj HP) _ Un _ Un2 bn_tf bn_tf_b _ P bn_tf_norm E).
    + intros E. apply (cg_killed o2 c HC _ _ _ _ _ C) in E. destruct E as (k & ->).
      pose proof (h_mul _ GL _ (bn2_act_add o inj HP bn_tf) k Gen) as X. refine (eq_trans X _).
      refine (eq_trans (f_equal _ (EV bn_tf)) _). apply Z.eqb_eq in N2.
      refine (eq_trans (f_equal _ (gmul_cong _ GL _ _ 0 _ (proj1 (cg_gen _ _ _ _ _ _ _ _ C)) _)) _); [|apply (gmul_g0 _ GL)].
      exact N2.
Qed.
Print Assumptions C43_bn256_g2.

(** *** pluto G2 (triton) *)
Lemma tr_nums2 : ((bits_val 0 (skipn 1 (flat_map byte_bits_be triton_cofactor_bytes)) =? tr_h)
  && (bits_val 0 (skipn 1 (flat_map byte_bits_be triton_order_bytes)) =? modulus pluto_eris_fq)
  && (tr_h mod tr_h =? 0) && negb (tr_h mod modulus pluto_eris_fq =? 0))%bool = true.
Proof. vm_compute. reflexivity. Qed.
Theorem C43_triton : forall F (o : fops F) inj, prime_field (modulus pluto_eris_fp) o inj ->
  let o2 := pluto_fp2 o in let c := curve_of o2 (inj2 inj) triton_consts in
  cofactor_spec o2 c (inj2 inj (cc_gx triton_consts), inj2 inj (cc_gy triton_consts)) (modulus pluto_eris_fq)
    (2 * modulus pluto_eris_fp - modulus pluto_eris_fq) (triton_clear_cofactor o2 c) (triton_is_torsion_free o2 c).
Proof.
  intros F o inj HP o2 c. destruct (triton_group o inj HP) as (Gen & bs & Eg & C). rewrite <- tr_h_is.
  pose proof tr_nums2 as N. apply andb_prop in N as (N & N4). apply andb_prop in N as (N & N3). apply andb_prop in N as (N1 & N2).
  destruct pos_r as (_ & _ & Pr & _ & _ & _ & Pe). apply Z.eqb_eq in N1, N2.
  set (HC := tr_HC o inj HP) in *. pose proof (cpt_laws _ _ HC) as GL.
  apply (cofactor_spec_intro o2 c HC _ _ _ _ _ _ _ _ _ C Eg (divide_of _ _ Pe N3) (not_div_of _ _ Pr N4)).
  - intros p P A. unfold grep, triton_clear_cofactor. rewrite (gmul_pt o2 c HC), <- N1. apply (bytes_mul_repr o2 c HC). exact A.
  - intros p P A. unfold triton_is_torsion_free.
    pose proof (bytes_mul_repr o2 c HC triton_order_bytes p _ A) as B. rewrite N2 in B.
    exact (grep_0 o2 c HC _ (gmul _ _ P) (eq_ind_r (prep o2 c _) B (gmul_pt o2 c HC _ P))).
Qed.
Print Assumptions C43_triton.

(** ** into_subgroup *)
(** On bls12-381 it accepts every point, so it accepts points outside the subgroup. *)
Theorem C43_into_subgroup_bls_refuted :
  (forall F (o : fops F) inj, prime_field (modulus bls12381_fq) o inj -> let c := curve_of o inj bls_g1_consts in
     exists p P, prep o c p P /\ bls_g1_into_subgroup p = Some (Some p) /\ pt_mulz o (ca c) (modulus bls12381_fr) P <> None)
  /\ (forall F (o : fops F) inj, prime_field (modulus bls12381_fq) o inj ->
     let o2 := bls_fq2 o in let c := curve_of o2 (inj2 inj) bls_g2_consts in
     exists p P, prep o2 c p P /\ bls_g2_into_subgroup p = Some (Some p) /\ pt_mulz o2 (ca c) (modulus bls12381_fr) P <> None).
Proof.
  split.
  - intros F o inj HP c. destruct (bls_g1_small o inj HP) as (On & _ & K).
    pose proof (crate_curve_facts o c _ _ (cv_bls_g1 F o inj HP)) as CF.
    match type of On with on_curve _ _ _ (Some (?x, ?y)) => exists (mk_proj x y (f1 o)), (Some (x, y)) end.
    split; [|split; [reflexivity|exact K]]. exact (proj_of_pair o c (cf_laws _ _ _ _ CF) _ _ On).
  - intros F o inj HP o2 c. destruct (bls_g2_small o inj HP) as ((On & _ & K) & _).
    pose proof (crate_curve_facts o2 c _ _ (cv_bls_g2 F o inj HP)) as CF.
    match type of On with on_curve _ _ _ (Some (?x, ?y)) => exists (mk_proj x y (f1 o2)), (Some (x, y)) end.
    split; [|split; [reflexivity|exact K]]. exact (proj_of_pair o2 c (cf_laws _ _ _ _ CF) _ _ On).
Qed.
Print Assumptions C43_into_subgroup_bls_refuted.
(** On bn256 G2 it is `unimplemented!()`. *)
Theorem C43_into_subgroup_bn256_refuted : forall F (p : proj F), bn_g2_into_subgroup p = None.
Proof. reflexivity. Qed.
Print Assumptions C43_into_subgroup_bn256_refuted.
(** On triton it returns a point of the subgroup, but a different one from the point it is
    given: for the generator too. *)
Lemma tr_moves : negb ((tr_h - 1) mod modulus pluto_eris_fq =? 0) = true.
Proof. vm_compute. reflexivity. Qed.
Theorem C43_into_subgroup_triton_refuted : forall F (o : fops F) inj, prime_field (modulus pluto_eris_fp) o inj ->
  let o2 := pluto_fp2 o in let c := curve_of o2 (inj2 inj) triton_consts in
  (forall p P, prep o2 c p P -> exists q Q, triton_into_subgroup o2 c p = Some (Some q) /\ prep o2 c q Q
     /\ pt_mulz o2 (ca c) (modulus pluto_eris_fq) Q = None)
  /\ exists p P q Q, prep o2 c p P /\ pt_mulz o2 (ca c) (modulus pluto_eris_fq) P = None
     /\ triton_into_subgroup o2 c p = Some (Some q) /\ prep o2 c q Q /\ Q <> P.
Proof.
  intros F o inj HP o2 c. pose proof (C43_triton F o inj HP) as S. cbv zeta in S. fold o2 in S. fold c in S. destruct S as [S1 S2 S3 _ _].
  split.
  - intros p P A. exists (triton_clear_cofactor o2 c p), (pt_mulz o2 (ca c) (2 * modulus pluto_eris_fp - modulus pluto_eris_fq) P).
    split; [reflexivity|]. pose proof (S2 p P A) as B. split; [exact B|]. apply (S1 _ (proj1 B)). exact (S3 P (proj1 A)).
  - destruct (triton_group o inj HP) as (Gen & bs & Eg & C). set (HC := tr_HC o inj HP) in *. pose proof (cpt_laws _ _ HC) as GL.
    unfold is_pt in Eg. cbn [fst snd] in Eg.
    assert (A : prep o2 c (mk_proj (inj2 inj (cc_gx triton_consts)) (inj2 inj (cc_gy triton_consts)) (f1 o2)) (proj1_sig Gen)).
    { rewrite Eg. apply (proj_of_pair o2 c HC). exact (eq_ind _ (on_curve o2 (ca c) (cb c)) (cpt_on o2 c HC Gen) _ Eg). }
    match type of A with prep _ _ ?a _ => exists a, (proj1_sig Gen), (triton_clear_cofactor o2 c a),
      (pt_mulz o2 (ca c) (2 * modulus pluto_eris_fp - modulus pluto_eris_fq) (proj1_sig Gen)) end.
    split; [exact A|]. split; [|split; [reflexivity|split; [exact (S2 _ _ A)|]]].
    + rewrite <- (gmul_pt o2 c HC). exact (f_equal _ (proj1 (cg_gen _ _ _ _ _ _ _ _ C))).
    + rewrite <- tr_h_is, <- (gmul_pt o2 c HC). intros E. apply cpt_ext in E.
      destruct pos_r as (_ & _ & Pr & _). apply (not_div_of _ _ Pr tr_moves). apply (proj2 (cg_gen _ _ _ _ _ _ _ _ C)).
      refine (eq_trans (gmul_sub _ GL _ _ _) _). refine (eq_trans (f_equal (fun X => gadd _ X _) E) _).
      refine (eq_trans (f_equal (fun X => gadd _ _ (gneg _ X)) (gmul_1 _ GL Gen)) _). apply (gl_neg _ GL).
Qed.
Print Assumptions C43_into_subgroup_triton_refuted.

(** ** C48: the number of points *)
Theorem C48_prime : forall F (o : fops F) c g sc, whole_curve o c g sc -> point_count o c (modulus sc).
Proof.
  intros F o c g sc X. pose proof (crate_curve_facts o c g sc (whole_crate o c g sc X)) as CF.
  set (HC := cf_laws _ _ _ _ CF). set (Gen := mkpt o c HC _ (proj1 (cf_gen _ _ _ _ CF))).
  pose proof (cpt_laws o c HC) as GL.
  assert (Pr : prime (modulus sc)) by (destruct X; refine (proj1 (Forall_forall _ _) all_moduli_prime _ _); in_fields).
  assert (I : indep1 (cpt_ops o c HC) (modulus sc) Gen).
  { apply (indep1_prime _ GL); [exact Pr| |].
    - intros E. apply (f_equal (@proj1_sig _ _)) in E. discriminate E.
    - apply cpt_ext. rewrite (gmul_pt o c HC). exact (cf_order _ _ _ _ CF). }
  pose proof (span_cyc _ GL (modulus sc) Gen [] 1 1 (or_introl Pr) I (span_nil _ GL) (Z.gcd_1_r _)) as S. rewrite Z.mul_1_r in S.
  refine (whole_count o c HC _ _ _ S _). intros P. destruct (C33_whole F o c g sc X _ (cpt_on o c HC P)) as ((k & E) & _).
  exists k, (g0 (cpt_ops o c HC)). split; [reflexivity|]. rewrite (g_0_r _ GL). apply cpt_ext. rewrite (gmul_pt o c HC). exact E.
Qed.
Print Assumptions C48_prime.
Theorem C48_bls_g1 : forall F (o : fops F) inj, prime_field (modulus bls12381_fq) o inj ->
  point_count o (curve_of o inj bls_g1_consts) (modulus bls12381_fr * 0x396c8c005555e1568c00aaab0000aaab).
Proof.
  intros F o inj HP. destruct (bls_g1_group o inj HP) as (Gen & bs & _ & C). pose proof (cg_count _ _ _ _ _ _ _ _ C) as N.
  replace 0x396c8c005555e1568c00aaab0000aaab with g1_h by (vm_compute; reflexivity). exact N.
Qed.
Print Assumptions C48_bls_g1.
Theorem C48_bls_g2 : forall F (o : fops F) inj, prime_field (modulus bls12381_fq) o inj ->
  point_count (bls_fq2 o) (curve_of (bls_fq2 o) (inj2 inj) bls_g2_consts)
   (modulus bls12381_fr
    * 0x5d543a95414e7f1091d50792876a202cd91de4547085abaa68a205b2e5a7ddfa628f1cb4d9e82ef21537e293a6691ae1616ec6e786f0c70cf1c38e31c7238e5).
Proof.
  intros F o inj HP. destruct (bls_g2_group o inj HP) as (Gen & bs & _ & C & _). pose proof (cg_count _ _ _ _ _ _ _ _ C) as N.
  replace 0x5d543a95414e7f1091d50792876a202cd91de4547085abaa68a205b2e5a7ddfa628f1cb4d9e82ef21537e293a6691ae1616ec6e786f0c70cf1c38e31c7238e5
    with g2_h by (vm_compute; reflexivity). exact N.
Qed.
Print Assumptions C48_bls_g2.
Theorem C48_bn256_g2 : forall F (o : fops F) inj, prime_field (modulus bn256_fq) o inj ->
  point_count (bn256_fq2 o) (curve_of (bn256_fq2 o) (inj2 inj) bn256_g2_consts)
   (modulus bn256_fr * (2 * modulus bn256_fq - modulus bn256_fr)).
Proof.
  intros F o inj HP. destruct (bn256_g2_group o inj HP) as (Gen & bs & _ & C & _). pose proof (cg_count _ _ _ _ _ _ _ _ C) as N.
  rewrite <- bn_h_is. exact N.
Qed.
Print Assumptions C48_bn256_g2.
Theorem C48_triton : forall F (o : fops F) inj, prime_field (modulus pluto_eris_fp) o inj ->
  point_count (pluto_fp2 o) (curve_of (pluto_fp2 o) (inj2 inj) triton_consts)
   (modulus pluto_eris_fq * (2 * modulus pluto_eris_fp - modulus pluto_eris_fq)).
Proof.
  intros F o inj HP. destruct (triton_group o inj HP) as (Gen & bs & _ & C). pose proof (cg_count _ _ _ _ _ _ _ _ C) as N.
  rewrite <- tr_h_is. exact N.
Qed.
Print Assumptions C48_triton.

(** ** C47 for every point of order r *)
(** The points killed by r are the multiples of the generator, so C47 holds for all of them. *)
Theorem C47_bn256_killed : forall F (o : fops F) inj, prime_field (modulus bn256_fq) o inj ->
  let o2 := bn256_fq2 o in let o12 := bn256_fq12 o in
  let p := modulus bn256_fq in let r := modulus bn256_fr in
  let c1 := curve_of_bn256_g1 o inj bn256_g1_consts in let c2 := curve_of o2 (inj2 inj) bn256_g2_consts in
  let w := w12 o2 in let pi := pt_map (fun z => fpowz o12 z p) in
  forall P Q, on_curve o (ca c1) (cb c1) (Some (ax P, ay P)) ->
  on_curve o2 (ca c2) (cb c2) (Some (ax Q, ay Q)) -> pt_mulz o2 (ca c2) r (Some (ax Q, ay Q)) = None ->
  let Qh := Some (fmul o12 (emb2 o2 (ax Q)) (fmul o12 w w), fmul o12 (emb2 o2 (ay Q)) (fmul o12 (fmul o12 w w) w)) in
  on_curve o12 (f0 o12) (emb1 o o2 (cb c1)) Qh
  /\ bn256_pairing o inj P Q = Some (fpowz o12
       (miller_function_bn o12 (f0 o12) (skipn 1 (rev six_u_plus_2_naf)) Qh (pi Qh) (pt_neg o12 (pi (pi Qh)))
          (emb1 o o2 (ax P)) (emb1 o o2 (ay P))) ((p ^ 12 - 1) / r)).
Proof.
  intros F o inj HP o2 o12 p r c1 c2 w pi P Q OP OQ K. pose proof (C43_bn256_g2 F o inj HP) as S. cbv zeta in S.
  destruct S as [S _ _ _ _]. destruct (proj1 (S _ OQ) K) as (n & E). exact (C47_bn256 F o inj HP P Q n OP E).
Qed.
Print Assumptions C47_bn256_killed.
Theorem C47_pluto_killed : forall F (o : fops F) inj, prime_field (modulus pluto_eris_fp) o inj ->
  let o2 := pluto_fp2 o in let o12 := pluto_fp12 o inj in
  let p := modulus pluto_eris_fp in let r := modulus pluto_eris_fq in
  let c1 := curve_of o inj pluto_consts in let c2 := curve_of o2 (inj2 inj) triton_consts in
  let w := w12 o2 in let pi := pt_map (fun z => fpowz o12 z p) in
  forall P Q, on_curve o (ca c1) (cb c1) (Some (ax P, ay P)) ->
  on_curve o2 (ca c2) (cb c2) (Some (ax Q, ay Q)) -> pt_mulz o2 (ca c2) r (Some (ax Q, ay Q)) = None ->
  let Qh := Some (fmul o12 (emb2 o2 (ax Q)) (fmul o12 w w), fmul o12 (emb2 o2 (ay Q)) (fmul o12 (fmul o12 w w) w)) in
  on_curve o12 (f0 o12) (emb1 o o2 (cb c1)) Qh
  /\ pluto_pairing o inj P Q = Some (fpowz o12
       (miller_function_bn o12 (f0 o12) (skipn 1 (rev neg_six_u_plus_2_naf)) Qh (pt_neg o12 (pi Qh)) (pi (pi Qh))
          (emb1 o o2 (ax P)) (emb1 o o2 (ay P))) ((p ^ 12 - 1) / r)).
Proof.
  intros F o inj HP o2 o12 p r c1 c2 w pi P Q OP OQ K. pose proof (C43_triton F o inj HP) as S. cbv zeta in S.
  destruct S as [S _ _ _ _]. destruct (proj1 (S _ OQ) K) as (n & E). exact (C47_pluto F o inj HP P Q n OP E).
Qed.
Print Assumptions C47_pluto_killed.

(** ** Concrete cases *)
(** The crate's limb representation of the base field meets the hypothesis, the generator passes
    the test there and the point of order 11 fails it. *)
Example ex_C43_bls_g1 : let Hc := field_odd bls12381_fq ltac:(in_fields) in
  let o := lf_ops bls12381_fq Hc in let inj := lf_inj bls12381_fq Hc in let c := curve_of o inj bls_g1_consts in
  let zt := inj (zeta bls12381_fq) in
  prime_field (modulus bls12381_fq) o inj
  /\ bls_g1_is_torsion_free o c zt (mk_proj (inj (cc_gx bls_g1_consts)) (inj (cc_gy bls_g1_consts)) (f1 o)) = true
  /\ bls_g1_is_torsion_free o c zt (mk_proj (inj (fst bls_g1_pt11)) (inj (snd bls_g1_pt11)) (f1 o)) = false.
Proof.
  intros Hc o inj c zt. pose proof (lf_pf bls12381_fq ltac:(in_fields) Hc) as HP. split; [exact HP|].
  pose proof (C43_bls_g1 _ o inj HP) as S. cbv zeta in S. fold c in S. fold zt in S. destruct S as [_ _ _ _ S].
  pose proof (crate_curve_facts o c _ _ (cv_bls_g1 _ o inj HP)) as CF. split.
  - apply (S _ _ (proj_of_pair o c (cf_laws _ _ _ _ CF) _ _ (proj1 (cf_gen _ _ _ _ CF)))). exact (cf_order _ _ _ _ CF).
  - destruct (bls_g1_small o inj HP) as (On & _ & K).
    pose proof (S _ _ (proj_of_pair o c (cf_laws _ _ _ _ CF) _ _ On)) as [S1 _].
    match goal with |- ?b = false => destruct b; [|reflexivity] end. exfalso. exact (K (S1 eq_refl)).
Qed.
(** The number of points of bls12-381 G1 is p + 1 - t for the trace t = x + 1 of the curve
    with parameter x = - 0xd201000000010000. *)
Example ex_C48_bls_g1 : modulus bls12381_fr * 0x396c8c005555e1568c00aaab0000aaab
  = modulus bls12381_fq + 1 - (- 0xd201000000010000 + 1).
Proof. vm_compute. reflexivity. Qed.
(** On the others it lies in the Hasse interval. *)
Example ex_C48_hasse :
  forallb (fun '(q, n) => (n - q - 1) * (n - q - 1) <=? 4 * q)
    [(modulus bn256_fq, modulus bn256_fr); (modulus secp256k1_fp, modulus secp256k1_fq); (modulus secp256r1_fp, modulus secp256r1_fq);
     (modulus pluto_eris_fp, modulus pluto_eris_fq);
     (modulus bls12381_fq ^ 2, modulus bls12381_fr
       * 0x5d543a95414e7f1091d50792876a202cd91de4547085abaa68a205b2e5a7ddfa628f1cb4d9e82ef21537e293a6691ae1616ec6e786f0c70cf1c38e31c7238e5);
     (modulus bn256_fq ^ 2, modulus bn256_fr * (2 * modulus bn256_fq - modulus bn256_fr));
     (modulus pluto_eris_fp ^ 2, modulus pluto_eris_fq * (2 * modulus pluto_eris_fp - modulus pluto_eris_fq))] = true.
Proof. vm_compute. reflexivity. Qed.
