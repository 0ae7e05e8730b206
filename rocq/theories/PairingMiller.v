(** The Miller loops of the three engines are Miller's algorithm over Fp12. *)
From Verif Require Import Base Algebra Pow Tower TowerFacts FiniteField PrimeField Primality Certs Field Params TowerParams TowerInst
  SpecCurve SpecCurveFacts Curve CurveFacts CurveGroup CurveParams CurveCheck CurveCerts CurveInst CrateCurves Compute
  PairingParams SpecPairing Pairing PairingFacts PairingInst PairingLines TwistFrob.
Local Open Scope Z_scope.

Lemma pt_mulz_none {F} (o : fops F) a k : pt_mulz o a k None = None.
Proof.
  assert (X : forall n, pt_mul o a n None = None) by (induction n as [|n IH]; [reflexivity|]; cbn [pt_mul]; rewrite IH; reflexivity).
  destruct k as [|k|k]; cbn [pt_mulz]; [reflexivity|apply X|]. rewrite X. reflexivity.
Qed.

(** ** Fp2 and the sixth root w of xi in Fp12 *)
Section Embed.
Context {F : Type} (o : fops F).
Definition emb2 (o2 : fops (quad F)) (x : quad F) : quad (cubic (quad F)) :=
  mk_quad (mk_cubic x (f0 o2) (f0 o2)) (mk_cubic (f0 o2) (f0 o2) (f0 o2)).
Definition emb1 (o2 : fops (quad F)) (x : F) : quad (cubic (quad F)) := emb2 o2 (mk_quad x (f0 o)).
Definition w12 (o2 : fops (quad F)) : quad (cubic (quad F)) :=
  mk_quad (mk_cubic (f0 o2) (f0 o2) (f0 o2)) (mk_cubic (f1 o2) (f0 o2) (f0 o2)).
End Embed.

Section Tower.
Context (t : tower_conf) {F : Type} (o : fops F) (inj : Z -> F) (o2 : fops (quad F)) (mnr2 : quad F -> quad F).
Notation p := (modulus (t_field t)).
Context (HP : prime_field p o inj) (T : tower_facts t o inj o2 mnr2).
Hypothesis Hodd : p mod 2 = 1.
Hypothesis HSc : forall c s, scale2 o c s = fmul o2 c (mk_quad s (f0 o)).
Hypothesis Hz2 : mk_quad (f0 o) (f0 o) = f0 o2.
Notation o12 := (fq12_ops o2 mnr2).
Notation xi := (inj2 inj (t_xi t)).
Let H2 := tf_2 _ _ _ _ _ T.
Let HR2 := fl_rl _ H2.
Let H12 := tf_12 _ _ _ _ _ T.
Let HR := fl_rl _ H12.
Let Hm := tf_mnr _ _ _ _ _ T.
Add Ring RM2 : (rl_ring _ HR2).
Notation E2 := (emb2 o2). Notation w := (w12 o2).
Ltac unf := unfold fq12_ops, fq6_ops, quad_ops, cubic_ops, emb2, w12; cbv zeta; cbn [f0 f1 fadd fsub fmul fneg fsqr fdbl];
  unfold quad_square, quad_double, quad_mul, quad_add, quad_sub, quad_neg, quad_zero, quad_one;
  cbn [f0 f1 fadd fsub fmul fneg fsqr fdbl q0 q1];
  unfold cubic_mul_by_v, cubic_square, cubic_double, cubic_mul, cubic_add, cubic_sub, cubic_neg, cubic_zero, cubic_one; cbn [k0 k1 k2].
Ltac ring12 := unf; apply quad_ext; apply cubic_ext; cbn [q0 q1 k0 k1 k2]; repeat rewrite ?Hm, ?(rl_sqr _ HR2), ?(rl_dbl _ HR2); ring.
Lemma emb2_hom : fhom o2 o12 E2.
Proof. constructor; intros; ring12. Qed.
Lemma w2_val : fmul o12 w w = mk_quad (mk_cubic (f0 o2) (f1 o2) (f0 o2)) (mk_cubic (f0 o2) (f0 o2) (f0 o2)).
Proof. ring12. Qed.
Lemma w3_val : fmul o12 (fmul o12 w w) w = mk_quad (mk_cubic (f0 o2) (f0 o2) (f0 o2)) (mk_cubic (f0 o2) (f1 o2) (f0 o2)).
Proof. rewrite w2_val. ring12. Qed.
Lemma w6_val : fmul o12 (fmul o12 (fmul o12 w w) w) (fmul o12 (fmul o12 w w) w) = E2 xi.
Proof. rewrite w3_val. ring12. Qed.
Lemma dec_034 a b c : mk_quad (mk_cubic a (f0 o2) (f0 o2)) (mk_cubic b c (f0 o2)) =
  fadd o12 (E2 a) (fadd o12 (fmul o12 (E2 b) w) (fmul o12 (E2 c) (fmul o12 (fmul o12 w w) w))).
Proof. rewrite w3_val. ring12. Qed.
Lemma dec_014 a b c : mk_quad (mk_cubic a b (f0 o2)) (mk_cubic (f0 o2) c (f0 o2)) =
  fadd o12 (E2 a) (fadd o12 (fmul o12 (E2 b) (fmul o12 w w)) (fmul o12 (E2 c) (fmul o12 (fmul o12 w w) w))).
Proof. rewrite w3_val, w2_val. ring12. Qed.
Add Ring RM12 : (rl_ring _ HR).
Lemma w_nz : w <> f0 o12.
Proof. intros E. apply (f_equal (fun z => k0 (q1 z))) in E. exact (fl_1_0 _ H2 E). Qed.
Lemma emb2_nz x : x <> f0 o2 -> E2 x <> f0 o12.
Proof. intros N E. apply N. exact (f_equal (fun z => k0 (q0 z)) E). Qed.
Lemma mkq_nz y : y <> f0 o -> mk_quad y (f0 o) <> f0 o2.
Proof. intros N E. apply N. rewrite <- Hz2 in E. exact (f_equal q0 E). Qed.
Lemma two2 : fadd o2 (f1 o2) (f1 o2) <> f0 o2 -> fadd o12 (f1 o12) (f1 o12) <> f0 o12.
Proof. intros N E. apply N. exact (f_equal (fun z => k0 (q0 z)) E). Qed.

(** Factors killed by the final exponentiation. *)
Definition easy : Z := (p ^ 6 - 1) * (p ^ 2 + 1).
Definition K (x : quad (cubic (quad F))) : Prop := fpowz o12 x easy = f1 o12.
Lemma p_ge2 : 2 <= p.
Proof. exact (prime_ge_2 _ (pf_prime _ _ _ HP)). Qed.
Lemma p2_pos : 3 <= p ^ 2 - 1.
Proof. pose proof p_ge2 as G. rewrite Z.pow_2_r. clear - G. nia. Qed.
Lemma easy_val : easy = (p ^ 2 - 1) * 2 * ((p ^ 4 + p ^ 2 + 1) * ((p ^ 2 + 1) / 2)).
Proof.
  assert (X : p ^ 2 + 1 = 2 * ((p ^ 2 + 1) / 2)).
  { apply Z_div_exact_full_2; [discriminate|]. rewrite Z.pow_2_r, Z.add_mod, Z.mul_mod, Hodd by discriminate. reflexivity. }
  unfold easy. rewrite X at 1. set (h := (p ^ 2 + 1) / 2). ring.
Qed.
Lemma easy_cof : 0 <= (p ^ 4 + p ^ 2 + 1) * ((p ^ 2 + 1) / 2).
Proof.
  pose proof p_ge2 as G. assert (0 <= p ^ 4) by (apply Z.pow_nonneg; lia). assert (0 <= p ^ 2) by (apply Z.pow_nonneg; lia).
  apply Z.mul_nonneg_nonneg; [lia|]. apply Z.div_pos; lia.
Qed.
Lemma easy_nonneg : 0 <= easy.
Proof. rewrite easy_val. pose proof p2_pos. pose proof easy_cof. apply Z.mul_nonneg_nonneg; [lia|assumption]. Qed.
Lemma K_one : K (f1 o12).
Proof. unfold K. apply fpowz_one. exact HR. Qed.
Lemma K_mul a b : K a -> K b -> K (fmul o12 a b).
Proof. unfold K. intros A B. rewrite fpowz_mul_base by (exact HR || exact easy_nonneg). rewrite A, B. ring. Qed.
Lemma K_p2 x : fpowz o12 x ((p ^ 2 - 1) * 2) = f1 o12 -> K x.
Proof.
  intros E. unfold K. rewrite easy_val. pose proof p2_pos. pose proof easy_cof.
  rewrite fpowz_mul by (exact HR || lia). rewrite E. apply fpowz_one. exact HR.
Qed.
Lemma emb2_p2 x : x <> f0 o2 -> fpowz o12 (E2 x) (p ^ 2 - 1) = f1 o12.
Proof.
  intros N. rewrite <- (fh_powz _ _ _ emb2_hom).
  pose proof (fermat o2 H2 _ (tf_2fin _ _ _ _ _ T) x N) as Fe. rewrite <- Z.pow_2_r in Fe.
  rewrite Fe. apply (fh_1 _ _ _ emb2_hom).
Qed.
Lemma K_emb2 x : x <> f0 o2 -> K (E2 x).
Proof.
  intros N. apply K_p2. pose proof p2_pos. rewrite fpowz_mul by (exact HR || lia). rewrite emb2_p2 by exact N. apply fpowz_one. exact HR.
Qed.
Lemma xi_nz : xi <> f0 o2.
Proof.
  intros E. apply w_nz. apply (sqr_zero o12 H12).
  assert (W : fmul o12 (fmul o12 w w) w = f0 o12).
  { apply (sqr_zero o12 H12). rewrite w6_val, E. exact (fh_0 _ _ _ emb2_hom). }
  destruct (mul_integral o12 H12 _ _ W) as [Z0|Z0]; [exact Z0|]. rewrite Z0. ring.
Qed.
Lemma K_w3 : K (fmul o12 (fmul o12 w w) w).
Proof.
  apply K_p2. pose proof p2_pos. rewrite (Z.mul_comm (p ^ 2 - 1) 2). rewrite fpowz_mul by (exact HR || lia). rewrite fpowz_2 by exact HR.
  rewrite w6_val. apply emb2_p2. exact xi_nz.
Qed.

(** The sparse factors are multiples of lines. *)
Definition sp034 (c : quad F * quad F * quad F) (P : aff F) : quad (cubic (quad F)) :=
  mk_quad (mk_cubic (scale2 o (fst (fst c)) (ay P)) (f0 o2) (f0 o2)) (mk_cubic (scale2 o (snd (fst c)) (ax P)) (snd c) (f0 o2)).
Definition sp014 (c : quad F * quad F * quad F) (P : aff F) : quad (cubic (quad F)) :=
  mk_quad (mk_cubic (snd c) (scale2 o (snd (fst c)) (ax P)) (f0 o2)) (mk_cubic (f0 o2) (scale2 o (fst (fst c)) (ay P)) (f0 o2)).
Notation E1 := (emb1 o o2).
Lemma sp034_line P k l x y : ay P <> f0 o -> k <> f0 o2 -> exists kap, K kap /\
  sp034 (k, fneg o2 (fmul o2 k l), fmul o2 k (fsub o2 (fmul o2 l x) y)) P <> f0 o12 /\
  sp034 (k, fneg o2 (fmul o2 k l), fmul o2 k (fsub o2 (fmul o2 l x) y)) P =
  fmul o12 kap (fsub o12 (fsub o12 (E1 (ay P)) (fmul o12 (E2 y) (fmul o12 (fmul o12 w w) w)))
    (fmul o12 (fmul o12 (E2 l) w) (fsub o12 (E1 (ax P)) (fmul o12 (E2 x) (fmul o12 w w))))).
Proof.
  intros Ny Nk. exists (E2 k). split; [apply K_emb2; exact Nk|]. unfold sp034. cbn [fst snd]. split.
  - intros E. apply (f_equal (fun z => k0 (q0 z))) in E. cbn [q0 k0] in E. change (k0 (q0 (f0 o12))) with (f0 o2) in E.
    rewrite HSc in E. revert E. apply (mul_nonzero o2 H2); [exact Nk|]. apply mkq_nz. exact Ny.
  - rewrite dec_034, !HSc. unfold emb1.
    rewrite !(fh_mul _ _ _ emb2_hom), (fh_neg _ _ _ emb2_hom), (fh_sub _ _ _ emb2_hom), !(fh_mul _ _ _ emb2_hom). ring.
Qed.
Lemma sp014_line P u k l x y : ay P <> f0 o -> fmul o12 u w = f1 o12 -> k <> f0 o2 -> exists kap, K kap /\
  sp014 (k, fneg o2 (fmul o2 k l), fmul o2 k (fsub o2 (fmul o2 l x) y)) P <> f0 o12 /\
  sp014 (k, fneg o2 (fmul o2 k l), fmul o2 k (fsub o2 (fmul o2 l x) y)) P =
  fmul o12 kap (fsub o12 (fsub o12 (E1 (ay P)) (fmul o12 (E2 y) (fmul o12 (fmul o12 u u) u)))
    (fmul o12 (fmul o12 (E2 l) u) (fsub o12 (E1 (ax P)) (fmul o12 (E2 x) (fmul o12 u u))))).
Proof.
  intros Ny Eu Nk. exists (fmul o12 (E2 k) (fmul o12 (fmul o12 w w) w)). split; [apply K_mul; [apply K_emb2; exact Nk|exact K_w3]|].
  unfold sp014. cbn [fst snd]. split.
  - intros E. apply (f_equal (fun z => k1 (q1 z))) in E. cbn [q1 k1] in E. change (k1 (q1 (f0 o12))) with (f0 o2) in E.
    rewrite HSc in E. revert E. apply (mul_nonzero o2 H2); [exact Nk|]. apply mkq_nz. exact Ny.
  - rewrite dec_014, !HSc. unfold emb1.
    rewrite !(fh_mul _ _ _ emb2_hom), (fh_neg _ _ _ emb2_hom), (fh_sub _ _ _ emb2_hom), !(fh_mul _ _ _ emb2_hom).
    set (X := E2 (mk_quad (ax P) _)). set (Y := E2 (mk_quad (ay P) _)).
    symmetry. transitivity (fmul o12 (E2 k) (fsub o12 (fsub o12 (fmul o12 Y (fmul o12 (fmul o12 w w) w))
       (fmul o12 (E2 y) (fmul o12 (fmul o12 (fmul o12 u w) (fmul o12 u w)) (fmul o12 u w))))
       (fmul o12 (E2 l) (fsub o12 (fmul o12 X (fmul o12 (fmul o12 u w) (fmul o12 w w)))
          (fmul o12 (E2 x) (fmul o12 (fmul o12 (fmul o12 u w) (fmul o12 u w)) (fmul o12 u w))))))); [ring|].
    rewrite Eu. ring.
Qed.

(** Frobenius *)
Notation pi := (fun z => fpowz o12 z p).
Notation U := (nth 1 (map (inj2 inj) (t_c12 t)) (f0 o2)).
Lemma pi_emb2 x : fpowz o12 (E2 x) p = E2 (quad_conjugate o x).
Proof.
  rewrite <- (fh_powz _ _ _ emb2_hom). apply f_equal. symmetry.
  pose proof (tf_frob2 _ _ _ _ _ T 1 x ltac:(discriminate)) as E. rewrite Z.pow_1_r in E. exact E.
Qed.
Lemma p_nonneg : 0 <= p.
Proof. pose proof p_ge2 as G. clear - G. lia. Qed.
Hypothesis Hcj1 : quad_conjugate o (f1 o2) = f1 o2.
Hypothesis Hcj0 : quad_conjugate o (f0 o2) = f0 o2.
Lemma pi_w : fpowz o12 w p = fmul o12 (E2 U) w.
Proof.
  pose proof (tf_frob12 _ _ _ _ _ T 1 w ltac:(discriminate)) as E. rewrite Z.pow_1_r in E. etransitivity; [symmetry; exact E|].
  unfold tower_frob12, fq12_frobenius, fq6_frobenius, fq2_frobenius.
  change (1 mod 6) with 1. change (1 mod 12) with 1. change (1 mod 2 =? 0) with false. change (Z.to_nat 1) with 1%nat. cbv zeta.
  unfold w12. cbn [q0 q1 k0 k1 k2]. rewrite Hcj0, Hcj1. ring12.
Qed.
Lemma pi_mul a b : fpowz o12 (fmul o12 a b) p = fmul o12 (fpowz o12 a p) (fpowz o12 b p).
Proof. rewrite fpowz_mul_base by (exact HR || exact p_nonneg). reflexivity. Qed.
Lemma pi_tau Q : pt_map pi (tau o12 E2 w Q) = tau o12 E2 w (tau o2 (quad_conjugate o) U Q).
Proof.
  destruct Q as [[x y]|]; [|reflexivity]. cbn [tau pt_map].
  rewrite !pi_mul, !pi_emb2, pi_w, !(fh_mul _ _ _ emb2_hom). f_equal. f_equal; ring.
Qed.

(** The final exponentiation removes the factor in [K]. *)
Lemma fexp_kap s kap f k : 0 <= k -> K kap -> f = fmul o12 s kap ->
  fpowz o12 f (easy * k) = fpowz o12 s (easy * k).
Proof.
  intros Hk Kk ->. pose proof easy_nonneg as En. rewrite fpowz_mul_base by (exact HR || (apply Z.mul_nonneg_nonneg; assumption)).
  rewrite (fpowz_mul o12 HR kap) by assumption. unfold K in Kk. rewrite Kk, fpowz_one by exact HR. ring.
Qed.

(** ** BN engines *)
Section BN.
Context (cc : curve_consts (Z * Z)).
Notation c := (curve_of o2 (inj2 inj) cc).
Notation r := (modulus (cc_scalar cc)).
Notation gen := (Some (inj2 inj (cc_gx cc), inj2 inj (cc_gy cc))).
Context (HC : curve_laws o2 c) (Ha : ca c = f0 o2) (Hr : prime r).
Hypothesis Og : on_curve o2 (ca c) (cb c) gen.
Hypothesis Rg : pt_mulz o2 (ca c) r gen = None.
Context (b : F) (Hb : fmul o2 (cb c) xi = mk_quad b (f0 o)).
Notation mulz := (pt_mulz o2 (ca c)).
Let H2t := cl_two _ _ HC.

Lemma twist_b : fmul o12 (E2 (cb c)) (fmul o12 (fmul o12 (fmul o12 w w) w) (fmul o12 (fmul o12 w w) w)) = E1 b.
Proof. rewrite w6_val. rewrite <- (fh_mul _ _ _ emb2_hom), Hb. reflexivity. Qed.
Notation psi := (tau o2 (quad_conjugate o) U).
Hypothesis Hcjh : fhom o2 o2 (quad_conjugate o).
Hypothesis HU : U <> f0 o2.
Hypothesis Hpb : fmul o2 (quad_conjugate o (cb c)) (fmul o2 (fmul o2 (fmul o2 U U) U) (fmul o2 (fmul o2 U U) U)) = cb c.
Hypothesis Hpg : psi gen = mulz p gen.
Context (g1 half g2 : quad F).
Hypothesis Hg1 : fmul o2 U U = g1.
Hypothesis Hhalf : fmul o2 (fmul o2 U U) U = half.
Hypothesis Hg2 : fmul o2 (quad_conjugate o g1) g1 = g2.
Hypothesis Hhh : fmul o2 (quad_conjugate o half) half = fneg o2 (f1 o2).
Hypothesis Hinvol : forall x, quad_conjugate o (quad_conjugate o x) = x.

Lemma psi_mulz Q n : Q = mulz n gen -> psi Q = mulz p Q.
Proof.
  intros ->. pose proof (mulz_on o2 c HC n _ Og) as On.
  assert (E : forall k P, on_curve o2 (ca c) (cb c) P -> psi (mulz k P) = mulz k (psi P)).
  { intros k P O. rewrite !Ha in *. apply (tau_mulz o2 o2 H2 H2 (quad_conjugate o) Hcjh U HU H2t H2t (cb c) (cb c) Hpb). exact O. }
  rewrite E by exact Og. rewrite Hpg. rewrite <- !(mulz_mul o2 c HC) by exact Og. rewrite (Z.mul_comm n). reflexivity.
Qed.
Lemma q1_psi q : Some (ax (twist_q1 o o2 g1 half q), ay (twist_q1 o o2 g1 half q)) = psi (Some (ax q, ay q)).
Proof. unfold twist_q1. cbn [ax ay tau]. rewrite Hhalf, Hg1. reflexivity. Qed.
Lemma minusq2_psi q : Some (ax (twist_minusq2 o2 g2 q), ay (twist_minusq2 o2 g2 q)) = pt_neg o2 (psi (psi (Some (ax q, ay q)))).
Proof.
  unfold twist_minusq2. cbn [ax ay tau pt_neg]. rewrite Hhalf, Hg1, !(fh_mul _ _ _ Hcjh), !Hinvol. f_equal. f_equal.
  - rewrite <- Hg2. ring.
  - transitivity (fneg o2 (fmul o2 (ay q) (fneg o2 (f1 o2)))); [ring|]. rewrite <- Hhh. ring.
Qed.

Section Term.
Context (P : aff F) (q : aff (quad F)) (n : Z).
Notation Q := (Some (ax q, ay q)).
Hypothesis HyP : ay P <> f0 o.
Hypothesis HQ : Q = mulz n gen.
Lemma P_live : aff_is_identity o P = false.
Proof.
  destruct (aff_is_identity o P) eqn:E; [|reflexivity]. exfalso. apply HyP.
  unfold aff_is_identity in E. apply andb_prop in E as (_ & E). apply (pf_is0 _ _ _ HP). exact E.
Qed.
Lemma Q_on : on_curve o2 (ca c) (cb c) Q.
Proof. rewrite HQ. apply (mulz_on o2 c HC). exact Og. Qed.
Lemma Q_ord : mulz r Q = None.
Proof.
  rewrite HQ, <- (mulz_mul o2 c HC) by exact Og. rewrite Z.mul_comm, (mulz_mul o2 c HC) by exact Og. rewrite Rg.
  apply (pt_mulz_none o2 (ca c)).
Qed.
Notation Qh := (tau o12 E2 w Q).
Lemma bn_pos_spec naf N : digits_ok r 1 (skipn 1 (rev naf)) = Some N ->
  (N - p) mod r <> 0 -> (N + p) mod r <> 0 -> (N + p - - (p * p)) mod r <> 0 -> (N + p + - (p * p)) mod r <> 0 ->
  let ml := bn_miller_loop o o2 o12 (ell_034 o o2 mnr2) naf (twist_q1 o o2 g1 half) (twist_minusq2 o2 g2) [(P, q)] in
  on_curve o12 (f0 o12) (E1 b) Qh /\ exists kap, K kap /\ ml <> f0 o12 /\
  ml = fmul o12 (miller_function_bn o12 (f0 o12) (skipn 1 (rev naf)) Qh (pt_map pi Qh) (pt_neg o12 (pt_map pi (pt_map pi Qh)))
    (E1 (ax P)) (E1 (ay P))) kap.
Proof.
  intros D N1 N2 N3 N4. cbv zeta. split.
  { apply (tau_on o2 o12 H12 E2 emb2_hom w (cb c) (E1 b) twist_b). pose proof Q_on as O. rewrite Ha in O. exact O. }
  pose proof (psi_mulz _ _ HQ) as Ep.
  pose proof (psi_mulz (mulz p Q) (p * n) ltac:(rewrite HQ; rewrite (mulz_mul o2 c HC) by exact Og; reflexivity)) as Epp.
  destruct (bn_loop_spec o2 c HC Ha o12 H12 (two2 H2t) E2 emb2_hom w w_nz (E1 b) twist_b (ell_034 o o2 mnr2) sp034
    (ell_034_spec o o2 mnr2 xi HR2 Hm) K K_one K_mul P (E1 (ax P)) (E1 (ay P)) (fun k l x y Nk => sp034_line P k l x y HyP Nk)
    q r Hr Q_on Q_ord o naf (twist_q1 o o2 g1 half) (twist_minusq2 o2 g2) p (- (p * p)) N P_live D) as (kap & Kk & Nz & El).
  - rewrite q1_psi. exact Ep.
  - rewrite minusq2_psi. rewrite Ep, Epp. rewrite (mulz_opp o2 c HC) by exact Q_on. rewrite (mulz_mul o2 c HC) by exact Q_on. reflexivity.
  - exact N1.
  - exact N2.
  - exact N3.
  - exact N4.
  - exists kap. split; [exact Kk|]. split; [exact Nz|]. etransitivity; [exact El|]. f_equal. f_equal.
    + rewrite q1_psi. symmetry. apply pi_tau.
    + rewrite minusq2_psi, !pi_tau. apply (tau_neg o2 o12 H12 E2 emb2_hom w).
Qed.
Lemma bn_neg_spec naf N : digits_ok r 1 (skipn 1 (rev naf)) = Some N ->
  (N - - p) mod r <> 0 -> (N + - p) mod r <> 0 -> (N + - p - (p * p)) mod r <> 0 -> (N + - p + (p * p)) mod r <> 0 ->
  let ml := bn_miller_loop o o2 o12 (ell_034 o o2 mnr2) naf (fun q => aff_neg o2 (twist_q1 o o2 g1 half q))
    (fun q => aff_neg o2 (twist_minusq2 o2 g2 q)) [(P, q)] in
  on_curve o12 (f0 o12) (E1 b) Qh /\ exists kap, K kap /\ ml <> f0 o12 /\
  ml = fmul o12 (miller_function_bn o12 (f0 o12) (skipn 1 (rev naf)) Qh (pt_neg o12 (pt_map pi Qh)) (pt_map pi (pt_map pi Qh))
    (E1 (ax P)) (E1 (ay P))) kap.
Proof.
  intros D N1 N2 N3 N4. cbv zeta. split.
  { apply (tau_on o2 o12 H12 E2 emb2_hom w (cb c) (E1 b) twist_b). pose proof Q_on as O. rewrite Ha in O. exact O. }
  pose proof (psi_mulz _ _ HQ) as Ep.
  pose proof (psi_mulz (mulz p Q) (p * n) ltac:(rewrite HQ; rewrite (mulz_mul o2 c HC) by exact Og; reflexivity)) as Epp.
  assert (A1 : Some (ax (aff_neg o2 (twist_q1 o o2 g1 half q)), ay (aff_neg o2 (twist_q1 o o2 g1 half q))) = pt_neg o2 (psi Q)).
  { change (pt_neg o2 (Some (ax (twist_q1 o o2 g1 half q), ay (twist_q1 o o2 g1 half q))) = pt_neg o2 (psi Q)). rewrite q1_psi. reflexivity. }
  assert (A2 : Some (ax (aff_neg o2 (twist_minusq2 o2 g2 q)), ay (aff_neg o2 (twist_minusq2 o2 g2 q))) = psi (psi Q)).
  { change (pt_neg o2 (Some (ax (twist_minusq2 o2 g2 q), ay (twist_minusq2 o2 g2 q))) = psi (psi Q)). rewrite minusq2_psi.
    destruct (psi (psi Q)) as [[x y]|]; [|reflexivity]. cbn [pt_neg]. f_equal. f_equal. ring. }
  destruct (bn_loop_spec o2 c HC Ha o12 H12 (two2 H2t) E2 emb2_hom w w_nz (E1 b) twist_b (ell_034 o o2 mnr2) sp034
    (ell_034_spec o o2 mnr2 xi HR2 Hm) K K_one K_mul P (E1 (ax P)) (E1 (ay P)) (fun k l x y Nk => sp034_line P k l x y HyP Nk)
    q r Hr Q_on Q_ord o naf (fun q => aff_neg o2 (twist_q1 o o2 g1 half q))
    (fun q => aff_neg o2 (twist_minusq2 o2 g2 q)) (- p) (p * p) N P_live D) as (kap & Kk & Nz & El).
  - rewrite A1, Ep. rewrite (mulz_opp o2 c HC) by exact Q_on. reflexivity.
  - rewrite A2, Ep, Epp. rewrite (mulz_mul o2 c HC) by exact Q_on. reflexivity.
  - exact N1.
  - exact N2.
  - exact N3.
  - exact N4.
  - exists kap. split; [exact Kk|]. split; [exact Nz|]. etransitivity; [exact El|]. f_equal. f_equal.
    + rewrite A1, pi_tau. apply (tau_neg o2 o12 H12 E2 emb2_hom w).
    + rewrite A2, !pi_tau. reflexivity.
Qed.
End Term.
End BN.

(** ** BLS engine *)
Section BLS.
Context (c : cconf (quad F)) (HC : curve_laws o2 c) (Ha : ca c = f0 o2) (r : Z) (Hr : prime r).
Context (b : F) (Hb : fmul o2 (mk_quad b (f0 o)) xi = cb c).
Context (u : quad (cubic (quad F))) (Hu : fmul o12 u w = f1 o12).
Let H2t := cl_two _ _ HC.
Lemma u_nz : u <> f0 o12.
Proof. intros E. apply (fl_1_0 _ H12). rewrite <- Hu, E. ring. Qed.
Lemma twist_bm : fmul o12 (E2 (cb c)) (fmul o12 (fmul o12 (fmul o12 u u) u) (fmul o12 (fmul o12 u u) u)) = E1 b.
Proof.
  rewrite <- Hb, (fh_mul _ _ _ emb2_hom), <- w6_val.
  transitivity (fmul o12 (E1 b) (fmul o12 (fmul o12 (fmul o12 (fmul o12 u w) (fmul o12 u w)) (fmul o12 u w))
     (fmul o12 (fmul o12 (fmul o12 u w) (fmul o12 u w)) (fmul o12 u w)))); [unfold emb1; ring|]. rewrite Hu. ring.
Qed.
Context (P : aff F) (q : aff (quad F)).
Notation Q := (Some (ax q, ay q)).
Hypothesis HyP : ay P <> f0 o.
Hypothesis OQ : on_curve o2 (ca c) (cb c) Q.
Hypothesis RQ : pt_mulz o2 (ca c) r Q = None.
Notation Qh := (tau o12 E2 u Q).
Lemma bls_spec bits conj N : digits_ok r 1 (skipn 1 bits) = Some N ->
  on_curve o12 (f0 o12) (E1 b) Qh /\ exists kap, K kap /\
  fmul o12 (miller_function o12 (f0 o12) (skipn 1 bits) Qh (E1 (ax P)) (E1 (ay P))) kap <> f0 o12 /\
  bls_miller_loop o o2 o12 (ell_014 o o2 mnr2) bits conj [(P, q)] =
    conj (fmul o12 (miller_function o12 (f0 o12) (skipn 1 bits) Qh (E1 (ax P)) (E1 (ay P))) kap).
Proof.
  intros D. split.
  { apply (tau_on o2 o12 H12 E2 emb2_hom u (cb c) (E1 b) twist_bm). pose proof OQ as O. rewrite Ha in O. exact O. }
  exact (bls_loop_spec o2 c HC Ha o12 H12 (two2 H2t) E2 emb2_hom u u_nz (E1 b) twist_bm (ell_014 o o2 mnr2) sp014
    (ell_014_spec o o2 mnr2 xi HR2 Hm) K K_one K_mul P (E1 (ax P)) (E1 (ay P)) (fun k l x y Nk => sp014_line P u k l x y HyP Hu Nk)
    q r Hr OQ RQ o bits conj N (P_live P HyP) D).
Qed.
End BLS.
End Tower.
