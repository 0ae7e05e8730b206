(** The map psi = (x, y) -> (conj x * u^2, conj y * u^3) on a curve over a quadratic
    extension, and relations between constants, checked by evaluation. *)
From Verif Require Import Base Algebra Pow Tower TowerFacts FiniteField Field Params PrimeField
  Primality Certs Compute TowerParams TowerInst Group SpecCurve SpecCurveFacts Curve CurveFacts CurveGroup
  CurveParams CurveCheck CurveCerts CurveInst SpecPairing Pairing PairingLines.
From Bignums Require Import BigZ.
Local Open Scope Z_scope.

Section Quad.
Context (t : tower_conf) (cc : curve_consts (Z * Z)) (nr : tri (Z * Z)).
Let p := modulus (t_field t).
Let r := modulus (cc_scalar cc).
Let ob := bz_ops (BigZ.of_Z p).
Let bmnr (x : bigZ) : bigZ := fmul ob (BigZ.of_Z (t_beta t)) x.
Let o2b := quad_ops ob bmnr (quad_square ob bmnr).
Let cB := curve_of o2b b2 cc.

Definition psi_check (u : Z * Z) (n : Z) : bool :=
  let U := b2 u in let U2 := fmul o2b U U in let U3 := fmul o2b U2 U in
  (0 <? n) && feqb o2b (fmul o2b (quad_conjugate ob (b2 (cc_b cc))) (fmul o2b U3 U3)) (b2 (cc_b cc))
  && mult_check o2b cB (b2 (cc_gx cc)) (b2 (cc_gy cc)) (Z.to_pos n)
       (fmul o2b (quad_conjugate ob (b2 (cc_gx cc))) U2) (fmul o2b (quad_conjugate ob (b2 (cc_gy cc))) U3).
(** [g1] = u^2, [half] = u^3, [g2] = conj g1 * g1, conj half * half = -1 *)
Definition bn_consts_check (u g1 half g2 : Z * Z) : bool :=
  let U := b2 u in let U2 := fmul o2b U U in let U3 := fmul o2b U2 U in
  feqb o2b U2 (b2 g1) && feqb o2b U3 (b2 half)
  && feqb o2b (fmul o2b (quad_conjugate ob (b2 g1)) (b2 g1)) (b2 g2)
  && feqb o2b (fadd o2b (fmul o2b (quad_conjugate ob (b2 half)) (b2 half)) (f1 o2b)) (f0 o2b).
(** b' xi = b *)
Definition d_twist_check (b : Z) : bool := feqb o2b (fmul o2b (b2 (cc_b cc)) (b2 (t_xi t))) (b2 (b, 0)).
(** b' = b xi *)
Definition m_twist_check (b : Z) : bool := feqb o2b (fmul o2b (b2 (b, 0)) (b2 (t_xi t))) (b2 (cc_b cc)).

Context {F : Type} (o : fops F) (inj : Z -> F) (HP : prime_field p o inj).
Context (mnr : F -> F) (sq : quad F -> quad F).
Hypothesis Hm : forall x, mnr x = fmul o (inj (t_beta t)) x.
Hypothesis Hsq : forall a, sq a = quad_mul o mnr a a.
Let o2 := quad_ops o mnr sq.
Hypothesis H2 : field_laws o2.
Hypothesis H2z : is0_law o2.
Hypothesis H2f : finite_field o2 (p * p).
Hypothesis Hc : quad_curve_check t cc nr = true.
Let Hh := pf_hom _ _ _ HP.
Let phi (b : bigZ) : F := inj (BigZ.to_Z b).
Let phi2m := quad_map phi.
Let Hphi1 : fhom ob o phi := bz_hom p o inj HP.
Let Hphi : fhom o2b o2 phi2m := phi2_hom t o inj HP mnr sq Hm Hsq.
Let emb := inj2 inj.
Let c := curve_of o2 emb cc.
Let HR1 := fl_rl _ (pf_laws _ _ _ HP).
Let HR2 := fl_rl _ H2.
Add Ring TFB : (rl_ring _ HR1).
Add Ring TFB2 : (rl_ring _ HR2).
Let Heq := phi2_eqb t inj : forall x y, feqb o2b x y = true -> phi2m x = phi2m y.
Let Hb2 := phi2_b2 inj : forall x, phi2m (b2 x) = emb x.
Let CF := quad_curve_facts t cc nr o inj HP mnr sq Hm Hsq H2 H2z H2f Hc : curve_facts o2 c (gen_aff emb cc) r.
Notation conj := (quad_conjugate o).

Lemma conj_b2 x : phi2m (quad_conjugate ob (b2 x)) = conj (emb x).
Proof. etransitivity; [exact (quad_conj_hom ob o phi Hphi1 (b2 x))|]. apply f_equal. exact (Hb2 x). Qed.
Lemma conj_hom : fhom o2 o2 conj.
Proof.
  constructor; intros; unfold o2, quad_ops; cbn [f0 f1 fadd fsub fmul fneg fsqr fdbl];
    rewrite ?Hsq, ?(quad_mul_school o mnr _ HR1 Hm); unfold quad_zero, quad_one, quad_add, quad_sub, quad_neg, quad_double, quad_conjugate;
    cbn [q0 q1]; rewrite ?(rl_dbl _ HR1); apply quad_ext; cbn [q0 q1]; ring.
Qed.
Lemma conj_invol x : conj (conj x) = x.
Proof. unfold quad_conjugate. apply quad_ext; cbn [q0 q1]; ring. Qed.
Lemma b_nonzero : cb c <> f0 o2.
Proof. intros E. apply (cl_no2 _ _ (cf_laws _ _ _ _ CF) (f0 o2)). rewrite E. ring. Qed.

Theorem psi_facts u n : psi_check u n = true ->
  emb u <> f0 o2
  /\ fmul o2 (conj (cb c)) (fmul o2 (fmul o2 (fmul o2 (emb u) (emb u)) (emb u)) (fmul o2 (fmul o2 (emb u) (emb u)) (emb u))) = cb c
  /\ tau o2 conj (emb u) (Some (emb (cc_gx cc), emb (cc_gy cc))) = pt_mulz o2 (ca c) n (Some (emb (cc_gx cc), emb (cc_gy cc))).
Proof.
  unfold psi_check. cbv zeta. intros E.
  apply andb_prop in E as (E & E3). apply andb_prop in E as (E1 & E2). apply Z.ltb_lt in E1.
  apply Heq in E2. rewrite !(fh_mul _ _ _ Hphi), conj_b2, !Hb2 in E2.
  assert (Eb : cb c = emb (cc_b cc)) by reflexivity.
  split; [|split].
  - intros Eu. apply b_nonzero. rewrite Eb, <- E2, Eu. ring.
  - rewrite Eb. exact E2.
  - pose proof (cf_gen _ _ _ _ CF) as (O & _). cbn [gen_aff ax ay] in O.
    pose proof (mult_check_ok o2b o2 phi2m Hphi H2 Heq cB c (Hb2 _)
      (qc_3b t cc o inj HP mnr sq Hm Hsq) (qc_az t cc nr o inj HP mnr sq H2 Hc) (cf_laws _ _ _ _ CF)
      (b2 (cc_gx cc)) (b2 (cc_gy cc)) _ _ _ ltac:(rewrite !Hb2; exact O) E3) as M.
    rewrite !(fh_mul _ _ _ Hphi), !conj_b2, !Hb2, Z2Pos.id in M by exact E1. symmetry. exact M.
Qed.
Theorem bn_consts u g1 half g2 : bn_consts_check u g1 half g2 = true ->
  fmul o2 (emb u) (emb u) = emb g1 /\ fmul o2 (fmul o2 (emb u) (emb u)) (emb u) = emb half
  /\ fmul o2 (conj (emb g1)) (emb g1) = emb g2
  /\ fmul o2 (conj (emb half)) (emb half) = fneg o2 (f1 o2).
Proof.
  unfold bn_consts_check. cbv zeta. intros E.
  apply andb_prop in E as (E & E4). apply andb_prop in E as (E & E3). apply andb_prop in E as (E1 & E2).
  apply Heq in E1, E2, E3, E4. rewrite ?(fh_add _ _ _ Hphi), ?(fh_mul _ _ _ Hphi), ?conj_b2, ?Hb2, ?(fh_1 _ _ _ Hphi), ?(fh_0 _ _ _ Hphi) in *.
  split; [exact E1|]. split; [exact E2|]. split; [exact E3|]. apply (sub_zero_eq o2 H2). rewrite <- E4. ring.
Qed.
Theorem d_twist b : d_twist_check b = true -> fmul o2 (cb c) (emb (t_xi t)) = mk_quad (inj b) (f0 o).
Proof.
  unfold d_twist_check. intros E. apply Heq in E. rewrite (fh_mul _ _ _ Hphi), !Hb2 in E.
  etransitivity; [exact E|]. unfold emb, inj2. cbn [fst snd]. rewrite (zh_0 _ _ Hh). reflexivity.
Qed.
Theorem m_twist b : m_twist_check b = true -> fmul o2 (mk_quad (inj b) (f0 o)) (emb (t_xi t)) = cb c.
Proof.
  unfold m_twist_check. intros E. apply Heq in E. rewrite (fh_mul _ _ _ Hphi), !Hb2 in E.
  etransitivity; [|exact E]. f_equal. unfold emb, inj2. cbn [fst snd]. rewrite (zh_0 _ _ Hh). reflexivity.
Qed.
End Quad.
