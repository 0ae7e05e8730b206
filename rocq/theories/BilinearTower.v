(** The pairings of the towers: the subgroups, the Frobenius map and the auxiliary
    subgroup that [Bilinear] needs. *)
From Verif Require Import Base Algebra Pow Tower TowerFacts FiniteField PrimeField Primality Certs Field Params TowerParams TowerInst
  SpecCurve SpecCurveFacts Curve CurveFacts CurveGroup CurveParams CurveCheck CurveCerts CurveInst CrateCurves Compute
  PairingParams SpecPairing Pairing PairingFacts PairingInst PairingLines TwistFrob PairingMiller Divisors Bilinear.
Local Open Scope Z_scope.

Section Tower.
Context (t : tower_conf) {F : Type} (o : fops F) (inj : Z -> F) (o2 : fops (quad F)) (mnr2 : quad F -> quad F).
Notation p := (modulus (t_field t)).
Context (HP : prime_field p o inj) (T : tower_facts t o inj o2 mnr2).
Hypothesis Hodd : p mod 2 = 1.
Hypothesis Hz2 : mk_quad (f0 o) (f0 o) = f0 o2.
Notation o12 := (fq12_ops o2 mnr2).
Let H1 := pf_laws _ _ _ HP.
Let HR1 := fl_rl _ H1.
Let H2 := tf_2 _ _ _ _ _ T.
Let HR2 := fl_rl _ H2.
Let H12 := tf_12 _ _ _ _ _ T.
Let HR := fl_rl _ H12.
Let Hm := tf_mnr _ _ _ _ _ T.
Notation E2 := (emb2 o2). Notation E1 := (emb1 o o2).
Notation pi := (fun z => fpowz o12 z p).
Hypothesis Hcjh : fhom o2 o2 (quad_conjugate o).
Hypothesis Hinvol : forall x, quad_conjugate o (quad_conjugate o x) = x.
Hypothesis Hq1 : fhom o o2 (fun x => mk_quad x (f0 o)).
Add Ring RB1 : (rl_ring _ HR1).
Add Ring RB2 : (rl_ring _ HR2).
Let E2h := emb2_hom t o inj o2 mnr2 T.
Ltac unf := unfold fq12_ops, fq6_ops, quad_ops, cubic_ops, emb2, w12; cbv zeta; cbn [f0 f1 fadd fsub fmul fneg fsqr fdbl];
  unfold quad_square, quad_double, quad_mul, quad_add, quad_sub, quad_neg, quad_zero, quad_one;
  cbn [f0 f1 fadd fsub fmul fneg fsqr fdbl q0 q1];
  unfold cubic_mul_by_v, cubic_square, cubic_double, cubic_mul, cubic_add, cubic_sub, cubic_neg, cubic_zero, cubic_one; cbn [k0 k1 k2].

Lemma b_p_pos : 0 < p.
Proof. pose proof (prime_ge_2 _ (pf_prime _ _ _ HP)). lia. Qed.
Lemma frob_pi x : fpowz o12 x p = tower_frob12 o inj t o2 1 x.
Proof. rewrite (tf_frob12 _ _ _ _ _ T 1 x ltac:(discriminate)), Z.pow_1_r. reflexivity. Qed.
Lemma pi_hom : fhom o12 o12 pi.
Proof.
  pose proof b_p_pos as Pp.
  assert (M : forall x y, fpowz o12 (fmul o12 x y) p = fmul o12 (fpowz o12 x p) (fpowz o12 y p)) by (intros; apply (fpowz_mul_base o12 HR)).
  assert (A : forall x y, fpowz o12 (fadd o12 x y) p = fadd o12 (fpowz o12 x p) (fpowz o12 y p)).
  { intros x y. rewrite !frob_pi. unfold tower_frob12, fq12_frobenius, fq6_frobenius, fq2_frobenius.
    change (1 mod 6) with 1. change (1 mod 12) with 1. change (1 mod 2 =? 0) with false. cbv zeta. cbv iota.
    unf. apply quad_ext; apply cubic_ext; cbn [q0 q1 k0 k1 k2]; rewrite !(fh_add _ _ _ Hcjh); ring. }
  assert (N : forall x, fpowz o12 (fneg o12 x) p = fneg o12 (fpowz o12 x p)).
  { intros x. rewrite !frob_pi. unfold tower_frob12, fq12_frobenius, fq6_frobenius, fq2_frobenius.
    change (1 mod 6) with 1. change (1 mod 12) with 1. change (1 mod 2 =? 0) with false. cbv zeta. cbv iota.
    unf. apply quad_ext; apply cubic_ext; cbn [q0 q1 k0 k1 k2]; rewrite !(fh_neg _ _ _ Hcjh); ring. }
  pose proof (rl_ring _ HR) as R12.
  constructor; cbv beta.
  - apply (fpowz_zero o12 HR). exact Pp.
  - apply (fpowz_one o12 HR).
  - exact A.
  - intros x y. rewrite !(Rsub_def R12), A, N. reflexivity.
  - exact M.
  - exact N.
  - intros x. rewrite !(rl_sqr _ HR). apply M.
  - intros x. rewrite !(rl_dbl _ HR). apply A.
Qed.
Lemma E1_hom : fhom o o12 E1.
Proof.
  unfold emb1. constructor; intros; cbv beta.
  - rewrite (fh_0 _ _ _ Hq1). apply (fh_0 _ _ _ E2h).
  - rewrite (fh_1 _ _ _ Hq1). apply (fh_1 _ _ _ E2h).
  - rewrite (fh_add _ _ _ Hq1). apply (fh_add _ _ _ E2h).
  - rewrite (fh_sub _ _ _ Hq1). apply (fh_sub _ _ _ E2h).
  - rewrite (fh_mul _ _ _ Hq1). apply (fh_mul _ _ _ E2h).
  - rewrite (fh_neg _ _ _ Hq1). apply (fh_neg _ _ _ E2h).
  - rewrite (fh_sqr _ _ _ Hq1). apply (fh_sqr _ _ _ E2h).
  - rewrite (fh_dbl _ _ _ Hq1). apply (fh_dbl _ _ _ E2h).
Qed.
Lemma pi_E2 x : fpowz o12 (E2 x) p = E2 (quad_conjugate o x).
Proof. exact (pi_emb2 t o inj o2 mnr2 T x). Qed.
Lemma pi_E1 x : fpowz o12 (E1 x) p = E1 x.
Proof. unfold emb1. rewrite pi_E2. f_equal. unfold quad_conjugate. cbn [q0 q1]. f_equal. ring. Qed.
Add Ring RB12 : (rl_ring _ HR).

(** Elements fixed by the sixth power of the Frobenius map are killed. *)
Lemma pow6 z : fpowz o12 z (p ^ 6) = pi (pi (pi (pi (pi (pi z))))).
Proof.
  pose proof b_p_pos. cbv beta. rewrite <- !(fpowz_mul o12 HR) by (repeat apply Z.mul_nonneg_nonneg; lia). f_equal. ring.
Qed.
Lemma K_fixed z : z <> f0 o12 -> fpowz o12 z (p ^ 6) = z -> K t o2 mnr2 z.
Proof.
  intros Nz Ez. pose proof b_p_pos as Pp. unfold K, easy.
  assert (P6 : 0 < p ^ 6) by (apply Z.pow_pos_nonneg; lia). assert (P2 : 0 < p ^ 2) by (apply Z.pow_pos_nonneg; lia).
  rewrite (fpowz_mul o12 HR) by lia.
  replace (fpowz o12 z (p ^ 6 - 1)) with (f1 o12); [apply (fpowz_one o12 HR)|].
  apply (mul_cancel_l o12 H12 z); [exact Nz|]. transitivity z; [ring|]. rewrite <- Ez at 1.
  replace (p ^ 6) with (p ^ 6 - 1 + 1) at 1 by lia. rewrite (fpowz_succ o12 HR) by lia. ring.
Qed.

(** The sixth root w of xi and its inverse. *)
Notation w := (w12 o2).
Lemma w2_fixed : (forall x, quad_conjugate (fq6_ops o2 mnr2) x = fpowz o12 x (p ^ 6)) -> fpowz o12 (fmul o12 w w) (p ^ 6) = fmul o12 w w.
Proof.
  intros Hc. rewrite <- Hc, (w2_val t o inj o2 mnr2 T). unfold quad_conjugate. cbn [q0 q1]. apply quad_ext; cbn [q0 q1]; [reflexivity|].
  unf. apply cubic_ext; cbn [k0 k1 k2]; ring.
Qed.
Lemma w_sep X x : E1 X = fmul o12 (E2 x) (fmul o12 w w) -> x = f0 o2.
Proof.
  rewrite (w2_val t o inj o2 mnr2 T). intros E. apply (f_equal (fun z => k1 (q0 z))) in E. cbn [k1 q0] in E.
  transitivity (k1 (q0 (fmul o12 (E2 x) (mk_quad (mk_cubic (f0 o2) (f1 o2) (f0 o2)) (mk_cubic (f0 o2) (f0 o2) (f0 o2)))))).
  - unf. cbn [q0 k1]. rewrite ?Hm. ring.
  - rewrite <- E. reflexivity.
Qed.
Lemma winv_fixed u : fmul o12 u w = f1 o12 -> fpowz o12 (fmul o12 w w) (p ^ 6) = fmul o12 w w ->
  fpowz o12 (fmul o12 u u) (p ^ 6) = fmul o12 u u.
Proof.
  intros Eu Ew. apply (mul_cancel_l o12 H12 (fmul o12 w w)).
  - apply (mul_nonzero o12 H12); exact (w_nz t o inj o2 mnr2 T).
  - rewrite <- Ew at 1. rewrite <- (fpowz_mul_base o12 HR).
    replace (fmul o12 (fmul o12 w w) (fmul o12 u u)) with (f1 o12); [apply (fpowz_one o12 HR)|].
    transitivity (fmul o12 (fmul o12 u w) (fmul o12 u w)); [rewrite Eu|]; ring.
Qed.
Lemma winv_sep u : fmul o12 u w = f1 o12 -> forall X x, E1 X = fmul o12 (E2 x) (fmul o12 u u) -> x = f0 o2.
Proof.
  intros Eu X x E.
  assert (E' : fmul o12 (E1 X) (fmul o12 w w) = E2 x).
  { rewrite E. transitivity (fmul o12 (E2 x) (fmul o12 (fmul o12 u w) (fmul o12 u w))); [ring|]. rewrite Eu. ring. }
  rewrite (w2_val t o inj o2 mnr2 T) in E'. apply (f_equal (fun z => k0 (q0 z))) in E'. cbn [k0 q0] in E'.
  transitivity (k0 (q0 (E2 x))); [reflexivity|]. rewrite <- E'. unfold emb1. unf. cbn [q0 k0]. rewrite ?Hm. ring.
Qed.
Lemma winv_pi u U V : fmul o12 u w = f1 o12 -> fpowz o12 w p = fmul o12 (E2 U) w -> fmul o2 V U = f1 o2 ->
  fpowz o12 u p = fmul o12 (E2 V) u.
Proof.
  intros Eu Ew EV. apply (mul_cancel_l o12 H12 (fpowz o12 w p)).
  - apply (fpowz_nonzero o12 H12). exact (w_nz t o inj o2 mnr2 T).
  - rewrite <- (fpowz_mul_base o12 HR). transitivity (f1 o12).
    + replace (fmul o12 w u) with (f1 o12); [apply (fpowz_one o12 HR)|]. rewrite <- Eu. ring.
    + rewrite Ew. transitivity (fmul o12 (fmul o12 (E2 V) (E2 U)) (fmul o12 u w)); [|ring].
      rewrite <- (fh_mul _ _ _ E2h), EV, Eu, (fh_1 _ _ _ E2h). ring.
Qed.

(** ** The two groups *)
Context (c1 : cconf F) (HC1 : curve_laws o c1) (Ha1 : ca c1 = f0 o).
Context (c : cconf (quad F)) (HC : curve_laws o2 c) (Ha : ca c = f0 o2).
Context (u : quad (cubic (quad F))) (V2 : quad F).
Hypothesis Hu : u <> f0 o12.
Hypothesis Htw : fmul o12 (E2 (cb c)) (fmul o12 (fmul o12 (fmul o12 u u) u) (fmul o12 (fmul o12 u u) u)) = E1 (cb c1).
Hypothesis Hu2 : fpowz o12 (fmul o12 u u) (p ^ 6) = fmul o12 u u.
Hypothesis Hsep : forall X x, E1 X = fmul o12 (E2 x) (fmul o12 u u) -> x = f0 o2.
Hypothesis Hpu : fpowz o12 u p = fmul o12 (E2 V2) u.
Context (r : Z) (Hr : prime r) (Hr3 : 3 < r) (gen : point (F := quad F)).
Hypothesis Og : on_curve o2 (ca c) (cb c) gen.
Hypothesis Rg : pt_mulz o2 (ca c) r gen = None.
Hypothesis Hpsi : tau o2 (quad_conjugate o) V2 gen = pt_mulz o2 (ca c) p gen.
Hypothesis H3 : fadd o12 (fadd o12 (f1 o12) (f1 o12)) (f1 o12) <> f0 o12.
Notation on2 := (on_curve o2 (ca c) (cb c)). Notation add2 := (pt_add o2 (ca c)). Notation mulz := (pt_mulz o2 (ca c)).
Notation on1 := (on_curve o (ca c1) (cb c1)).
Notation on12 := (on_curve o12 (f0 o12) (E1 (cb c1))). Notation add12 := (pt_add o12 (f0 o12)).
Notation tw := (tau o12 E2 u).
Let D2 := cl_two _ _ HC. Let D1 := cl_two _ _ HC1.
Lemma D12 : fadd o12 (f1 o12) (f1 o12) <> f0 o12.
Proof. exact (two2 o2 mnr2 D2). Qed.

Lemma tw_on Q : on2 Q -> on12 (tw Q).
Proof. intros O. rewrite Ha in O. exact (tau_on o2 o12 H12 E2 E2h u (cb c) _ Htw Q O). Qed.
Lemma tw_add P Q : on2 P -> on2 Q -> tw (add2 P Q) = add12 (tw P) (tw Q).
Proof.
  intros OP OQ. rewrite Ha in *. exact (tau_add o2 o12 H2 H12 E2 E2h u Hu D2 D12 (cb c) _ Htw P Q OP OQ).
Qed.
Lemma tw_neg Q : tw (pt_neg o2 Q) = pt_neg o12 (tw Q).
Proof. exact (tau_neg o2 o12 H12 E2 E2h u Q). Qed.
Lemma tw_inj P Q : tw P = tw Q -> P = Q.
Proof. exact (tau_inj o2 o12 H2 H12 E2 E2h u Hu P Q). Qed.
Definition G (S : point (F := quad (cubic (quad F)))) : Prop := exists n, S = tw (mulz n gen).
Lemma n_on n : on2 (mulz n gen).
Proof. apply (mulz_on o2 c HC). exact Og. Qed.
Lemma pi_tw Q : pt_map pi (tw Q) = tw (tau o2 (quad_conjugate o) V2 Q).
Proof.
  destruct Q as [[x y]|]; [|reflexivity]. cbn [tau pt_map]. pose proof (fh_mul _ _ _ pi_hom) as M. cbv beta in M.
  rewrite !M, !pi_E2, Hpu, !(fh_mul _ _ _ E2h). f_equal. f_equal; ring.
Qed.
(** The Frobenius map as a map of the curve over Fp12. *)
Lemma pi_tau1 S : pt_map pi S = tau o12 pi (f1 o12) S.
Proof. destruct S as [[x y]|]; [|reflexivity]. cbn [tau pt_map]. f_equal. f_equal; ring. Qed.
Lemma pi_b1 : fmul o12 (pi (E1 (cb c1))) (fmul o12 (fmul o12 (fmul o12 (f1 o12) (f1 o12)) (f1 o12)) (fmul o12 (fmul o12 (f1 o12) (f1 o12)) (f1 o12))) = E1 (cb c1).
Proof. cbv beta. rewrite pi_E1. ring. Qed.
Lemma one_nz : f1 o12 <> f0 o12.
Proof. exact (fl_1_0 _ H12). Qed.
Lemma pi_add12 S S' : on12 S -> on12 S' -> pt_map pi (add12 S S') = add12 (pt_map pi S) (pt_map pi S').
Proof.
  intros O O'. rewrite !pi_tau1.
  exact (tau_add o12 o12 H12 H12 pi pi_hom (f1 o12) one_nz D12 D12 _ _ pi_b1 S S' O O').
Qed.
Lemma tw_mulz k Q : on2 Q -> tw (mulz k Q) = pt_mulz o12 (f0 o12) k (tw Q).
Proof. intros O. rewrite Ha in *. exact (tau_mulz o2 o12 H2 H12 E2 E2h u Hu D2 D12 (cb c) _ Htw k Q O). Qed.
Lemma pi_gen n : pt_map pi (tw (mulz n gen)) = tw (mulz (p * n) gen).
Proof.
  rewrite tw_mulz by exact Og. rewrite pi_tau1.
  etransitivity; [exact (tau_mulz o12 o12 H12 H12 pi pi_hom (f1 o12) one_nz D12 D12 _ _ pi_b1 n (tw gen) (tw_on _ Og))|].
  rewrite <- pi_tau1, pi_tw, Hpsi, <- tw_mulz by (apply n_on). rewrite <- (mulz_mul o2 c HC) by exact Og.
  f_equal. f_equal. ring.
Qed.

Lemma G_on S : G S -> on12 S.
Proof. intros (n & ->). apply tw_on. apply n_on. Qed.
Lemma G_none : G None.
Proof. exists 0. reflexivity. Qed.
Lemma G_add S S' : G S -> G S' -> G (add12 S S').
Proof.
  intros (n & ->) (m & ->). exists (n + m). rewrite (mulz_add o2 c HC) by exact Og. symmetry. apply tw_add; apply n_on.
Qed.
Lemma G_neg S : G S -> G (pt_neg o12 S).
Proof. intros (n & ->). exists (- n). rewrite (mulz_opp o2 c HC) by exact Og. symmetry. apply tw_neg. Qed.
Lemma G_pi S : G S -> G (pt_map pi S).
Proof. intros (n & ->). exists (p * n). apply pi_gen. Qed.

Lemma G_pi_add S S' : G S -> G S' -> pt_map pi (add12 S S') = add12 (pt_map pi S) (pt_map pi S').
Proof. intros h h'. apply pi_add12; apply G_on; assumption. Qed.

Definition C (S : point (F := quad (cubic (quad F)))) : Prop := exists P, on1 P /\ S = pt_map E1 P.
Lemma E1_tau P : pt_map E1 P = tau o12 E1 (f1 o12) P.
Proof. destruct P as [[x y]|]; [|reflexivity]. cbn [tau pt_map]. f_equal. f_equal; ring. Qed.
Lemma E1_b : fmul o12 (E1 (cb c1)) (fmul o12 (fmul o12 (fmul o12 (f1 o12) (f1 o12)) (f1 o12)) (fmul o12 (fmul o12 (f1 o12) (f1 o12)) (f1 o12))) = E1 (cb c1).
Proof. ring. Qed.
Lemma C_on S : C S -> on12 S.
Proof. intros (P & O & ->). rewrite E1_tau. rewrite Ha1 in O. exact (tau_on o o12 H12 E1 E1_hom (f1 o12) _ _ E1_b P O). Qed.
Lemma C_pi S : C S -> pt_map pi S = S.
Proof. intros (P & _ & ->). destruct P as [[x y]|]; [|reflexivity]. cbn [pt_map]. rewrite !pi_E1. reflexivity. Qed.
Lemma C_none : C None.
Proof. exists None. split; [exact I|reflexivity]. Qed.
Lemma E1_add P P' : on1 P -> on1 P' -> pt_map E1 (pt_add o (ca c1) P P') = add12 (pt_map E1 P) (pt_map E1 P').
Proof.
  intros O O'. rewrite !E1_tau. rewrite Ha1 in *. exact (tau_add o o12 H1 H12 E1 E1_hom (f1 o12) one_nz D1 D12 _ _ E1_b P P' O O').
Qed.
Lemma C_add S S' : C S -> C S' -> C (add12 S S').
Proof.
  intros (P & O & ->) (P' & O' & ->). exists (pt_add o (ca c1) P P'). split; [apply (add_on o (ca c1) (cb c1) H1 D1); assumption|].
  symmetry. apply E1_add; assumption.
Qed.
Lemma C_neg S : C S -> C (pt_neg o12 S).
Proof.
  intros (P & O & ->). exists (pt_neg o P). split; [apply (neg_on o (ca c1) (cb c1) H1); assumption|].
  rewrite !E1_tau. symmetry. apply (tau_neg o o12 H12 E1 E1_hom).
Qed.

(** No point of order r has x = 0. *)
Lemma x_nz n x y : mulz n gen = Some (x, y) -> x <> f0 o2.
Proof.
  intros E X0. subst x. pose proof (n_on n) as O. rewrite E in O. pose proof (no_y0 o2 c HC _ _ O) as Y0.
  assert (A : add2 (Some (f0 o2, y)) (Some (f0 o2, y)) = pt_neg o2 (Some (f0 o2, y))).
  { rewrite (add_of_slope o2 (ca c) (cb c) H2 D2 (f0 o2)).
    - unfold pt_line. cbv zeta. cbn [pt_neg]. f_equal. f_equal; ring.
    - exact O.
    - exact O.
    - intros (_ & Ey). apply Y0. destruct (mul_integral o2 H2 (fadd o2 (f1 o2) (f1 o2)) y) as [Z|Z]; [|contradiction|exact Z].
      transitivity (fadd o2 y y); [ring|]. rewrite Ey at 1. ring.
    - split; rewrite ?Ha; ring. }
  assert (A3 : mulz 3 (mulz n gen) = None).
  { rewrite E. change 3 with (1 + 1 + 1). rewrite !(mulz_add o2 c HC), !(mulz_1 o2 c HC) by exact O. rewrite A.
    rewrite (add_comm o2 (ca c) (cb c) H2 D2); [apply (add_neg o2 (ca c) H2)|apply (neg_on o2 (ca c) (cb c) H2); exact O|exact O]. }
  assert (Ar : mulz r (mulz n gen) = None).
  { rewrite <- (mulz_mul o2 c HC), Z.mul_comm, (mulz_mul o2 c HC), Rg by exact Og. apply pt_mulz_none. }
  apply (mulz_order o2 c HC r _ (n_on n) Hr) in A3; [|rewrite E; discriminate|exact Ar]. apply Z.divide_pos_le in A3; lia.
Qed.

Context (k : Z) (Hk : 0 < k).
Let e := easy t * k.
Lemma easy_pos : 0 < easy t.
Proof.
  pose proof (prime_ge_2 _ (pf_prime _ _ _ HP)) as Pp. unfold easy. apply Z.mul_pos_pos.
  - assert (2 ^ 6 <= p ^ 6) by (apply Z.pow_le_mono_l; lia). lia.
  - assert (0 < p ^ 2) by (apply Z.pow_pos_nonneg; lia). lia.
Qed.
Lemma e_pos : 0 < e.
Proof. apply Z.mul_pos_pos; [exact easy_pos|exact Hk]. Qed.
Notation chi := (chi o12 e).
Lemma chi_K z : K t o2 mnr2 z -> chi z = f1 o12.
Proof.
  intros Kz. unfold Bilinear.chi, e. pose proof easy_pos. rewrite (fpowz_mul o12 HR) by lia. unfold K in Kz. rewrite Kz. apply (fpowz_one o12 HR).
Qed.
Lemma pow6_sub x y : fpowz o12 (fsub o12 x y) (p ^ 6) = fsub o12 (fpowz o12 x (p ^ 6)) (fpowz o12 y (p ^ 6)).
Proof. rewrite !pow6. pose proof (fh_sub _ _ _ pi_hom) as M. cbv beta in *. rewrite !M. reflexivity. Qed.
Lemma pow6_E2 x : fpowz o12 (E2 x) (p ^ 6) = E2 x.
Proof. rewrite pow6. cbv beta. rewrite !pi_E2, !Hinvol. reflexivity. Qed.
Lemma C_V X Y x y : C (Some (X, Y)) -> G (Some (x, y)) -> chi (fsub o12 X x) = f1 o12.
Proof.
  intros (P & _ & EP) (n & EQ). destruct P as [[xP yP]|]; [|discriminate]. cbn [pt_map] in EP. assert (X = E1 xP) as -> by congruence. clear EP.
  destruct (mulz n gen) as [[xq yq]|] eqn:En; [|discriminate]. cbn [tau] in EQ. assert (x = fmul o12 (E2 xq) (fmul o12 u u)) as -> by congruence. clear EQ.
  apply chi_K. apply K_fixed.
  - intros E. apply (x_nz _ _ _ En). apply (Hsep xP). apply (sub_zero_eq o12 H12). exact E.
  - rewrite pow6_sub. f_equal; [unfold emb1; apply pow6_E2|]. rewrite (fpowz_mul_base o12 HR), pow6_E2. rewrite Hu2. reflexivity.
Qed.
Lemma chi_m1 : chi (fneg o12 (f1 o12)) = f1 o12.
Proof.
  apply chi_K. apply K_fixed.
  - intros E. apply one_nz. transitivity (fneg o12 (fneg o12 (f1 o12))); [ring|]. rewrite E. ring.
  - rewrite pow6. cbv beta. pose proof (fh_neg _ _ _ pi_hom) as N. pose proof (fh_1 _ _ _ pi_hom) as O1. cbv beta in *. rewrite !N, !O1. reflexivity.
Qed.
Lemma ns12 x : fadd o12 (fadd o12 (fmul o12 (fmul o12 x x) x) (fmul o12 (f0 o12) x)) (E1 (cb c1)) = f0 o12 ->
  fadd o12 (fmul o12 (fadd o12 (fadd o12 (f1 o12) (f1 o12)) (f1 o12)) (fmul o12 x x)) (f0 o12) <> f0 o12.
Proof.
  intros E E'. assert (X0 : x = f0 o12).
  { apply (sqr_zero o12 H12). destruct (mul_integral o12 H12 (fadd o12 (fadd o12 (f1 o12) (f1 o12)) (f1 o12)) (fmul o12 x x)) as [Z|Z]; [|contradiction|exact Z].
    rewrite <- E'. ring. }
  subst x. apply (cl_no2 _ _ HC1 (f0 o)). rewrite Ha1.
  apply (phi_inj o o12 H1 H12 E1 E1_hom). rewrite (fh_0 _ _ _ E1_hom), <- E.
  rewrite !(fh_add _ _ _ E1_hom), !(fh_mul _ _ _ E1_hom), !(fh_0 _ _ _ E1_hom). ring.
Qed.

(** ** The loop ends in a known multiple *)
Context (ds : list Z) (us : list (list bool)) (w : list bool).
Definition zact (us : list bool) : Z := fold_right (fun (b : bool) n => (if b then p else -1) * n) 1 us.
Definition end_mult : Z := fold_left (fun n u => n + zact u) us (dig_exp ds 1).
Hypothesis Hds : forallb (fun d => (d =? 1) || (d =? 0) || (d =? -1)) ds = true.
Hypothesis Hend : (end_mult - zact w) mod r = 0.
Hypothesis Hexp : (tail_exp r p us (dig_exp ds 1) - cact r p w) mod r = 0.
Notation act := (act o12 pi).
Lemma act_mult v n : act v (tw (mulz n gen)) = tw (mulz (zact v * n) gen).
Proof.
  induction v as [|x v IH]; [change (zact []) with 1; rewrite Z.mul_1_l; reflexivity|]. cbn [Bilinear.act]. rewrite IH.
  change (zact (x :: v)) with ((if x then p else -1) * zact v). destruct x; cbn [prim].
  - rewrite pi_gen. f_equal. f_equal. ring.
  - rewrite <- tw_neg, <- (mulz_opp o2 c HC) by exact Og. f_equal. f_equal. ring.
Qed.
Lemma dig_mult n l : forall X Y f m, Forall digit l -> 
  snd (miller_digits o12 (f0 o12) l (tw (mulz n gen)) X Y f (tw (mulz (m * n) gen))) = tw (mulz (dig_exp l m * n) gen).
Proof.
  induction l as [|d l IH]; intros X Y f m Hl; [reflexivity|]. inversion Hl as [|? ? Hd Hl' ]; subst.
  assert (A : forall i j, add12 (tw (mulz i gen)) (tw (mulz j gen)) = tw (mulz (i + j) gen)).
  { intros i j. rewrite <- tw_add by apply n_on. rewrite (mulz_add o2 c HC) by exact Og. reflexivity. }
  destruct Hd as [-> | [-> | ->]]; cbn [miller_digits]; cbv zeta; change (0 =? 1) with false; change (0 =? -1) with false;
    change (-1 =? 1) with false; change (1 =? 1) with true; change (-1 =? -1) with true; cbv iota;
    cbn [dig_exp fold_left]; rewrite ?A, <- ?tw_neg, <- ?(mulz_opp o2 c HC) by exact Og; rewrite ?A.
  - replace (m * n + m * n + n) with ((2 * m + 1) * n) by ring. apply IH. exact Hl'.
  - replace (m * n + m * n) with ((2 * m + 0) * n) by ring. apply IH. exact Hl'.
  - replace (m * n + m * n + - n) with ((2 * m + -1) * n) by ring. apply IH. exact Hl'.
Qed.
Lemma tail_mult n l : forall X Y f m,
  snd (tail o12 (f0 o12) pi l (tw (mulz n gen)) X Y f (tw (mulz (m * n) gen))) = tw (mulz (fold_left (fun n u => n + zact u) l m * n) gen).
Proof.
  induction l as [|v l IH]; intros X Y f m; [reflexivity|]. cbn [tail fold_left]. rewrite act_mult, <- tw_add by apply n_on.
  rewrite <- (mulz_add o2 c HC) by exact Og. replace (m * n + zact v * n) with ((m + zact v) * n) by ring. apply IH.
Qed.
Lemma Hds' : Forall digit ds.
Proof.
  apply Forall_forall. intros d I. pose proof (proj1 (forallb_forall _ _) Hds d I) as E. cbv beta in E. unfold digit.
  apply orb_prop in E as [E|E]; [apply orb_prop in E as [E|E]|]; apply Z.eqb_eq in E; auto.
Qed.
Lemma Hw Q : G Q -> forall X Y, snd (ml o12 (f0 o12) pi ds us Q X Y) = act w Q.
Proof.
  intros (n & ->) X Y. unfold ml. pose proof (dig_mult n ds X Y (f1 o12) 1 Hds') as E. rewrite Z.mul_1_l in E.
  destruct (miller_digits o12 (f0 o12) ds (tw (mulz n gen)) X Y (f1 o12) (tw (mulz n gen))) as [f S]. cbn [snd] in E. subst S.
  rewrite tail_mult, act_mult. fold end_mult. f_equal.
  rewrite <- (mulz_mod o2 c HC r (end_mult * n)), <- (mulz_mod o2 c HC r (zact w * n)) by (exact Og || exact Rg).
  f_equal. apply Z.mod_divide in Hend; [|lia]. destruct Hend as (q & Eq).
  replace (end_mult * n) with (zact w * n + (q * n) * r) by (replace end_mult with (zact w + q * r) by lia; ring). apply Z.mod_add. lia.
Qed.

(** ** Bilinearity of the specified pairing *)
Hypothesis chi_r : forall x, x <> f0 o12 -> fpowz o12 (chi x) r = f1 o12.
Context (l : Z) (Hl : prime l) (Hl14 : 14 < l) (Hlr : l <> r) (R : quad F * quad F).
Hypothesis OR : on2 (Some R).
Hypothesis RR : mulz l (Some R) = None.
Hypothesis lq : Z.gcd l (p ^ 12 - 1) = 1.
Let kR (i : Z) := tw (mulz i (Some R)).
Definition pair (P : point (F := F)) (Q : point (F := quad F)) : quad (cubic (quad F)) :=
  value o12 (f0 o12) e pi ds us (pt_map E1 P) (tw Q).
Let Hr0 : 0 < r. Proof. lia. Qed.
Let Hp0 : 0 <= p. Proof. pose proof b_p_pos. lia. Qed.
Lemma fer12 x : x <> f0 o12 -> fpowz o12 x (p ^ 12 - 1) = f1 o12.
Proof. exact (fermat o12 H12 _ (tf_12fin _ _ _ _ _ T) x). Qed.
Lemma kR_out i z : G (Some z) -> kR i <> Some z.
Proof.
  intros (n & En) Ei. unfold kR in Ei. rewrite En in Ei. apply tw_inj in Ei.
  assert (A : mulz (r * i) (Some R) = None).
  { rewrite (mulz_mul o2 c HC) by exact OR. rewrite Ei, <- (mulz_mul o2 c HC), Z.mul_comm, (mulz_mul o2 c HC), Rg by exact Og. apply pt_mulz_none. }
  apply (mulz_order o2 c HC l _ OR Hl ltac:(discriminate) RR) in A. apply (prime_mult l Hl) in A.
  assert (D : (l | i)).
  { destruct A as [A|A]; [|exact A]. exfalso. apply Hlr. apply (prime_div_prime l r Hl Hr A). }
  apply (mulz_order o2 c HC l _ OR Hl ltac:(discriminate) RR) in D. rewrite D in Ei. rewrite <- Ei in En. discriminate.
Qed.
Theorem pair_first P P' n : on1 P -> on1 P' ->
  pair (pt_add o (ca c1) P P') (mulz n gen) = fmul o12 (pair P (mulz n gen)) (pair P' (mulz n gen)).
Proof.
  intros O O'. unfold pair. rewrite E1_add by assumption.
  refine (first_add o12 (f0 o12) (E1 (cb c1)) H12 D12 ns12 e r p pi e_pos Hr0 Hp0 chi_r chi_m1 (fun _ => eq_refl) pi_hom
    (fh_0 _ _ _ pi_hom) G G_on G_add G_neg G_pi G_pi_add ds us w Hds' Hw Hexp C C_on C_pi C_none C_add C_neg C_V _ _ _ _ _ _).
  - exists P. split; [exact O|reflexivity].
  - exists P'. split; [exact O'|reflexivity].
  - exists n. reflexivity.
Qed.
Lemma pair_none1 Q : pair None Q = f1 o12.
Proof. reflexivity. Qed.
Lemma pair_nz P n : on1 P -> pair P (mulz n gen) <> f0 o12.
Proof.
  intros O E. apply one_nz. rewrite <- (pair_none1 (mulz n gen)).
  rewrite <- (add_neg o (ca c1) H1 P). rewrite pair_first; [|exact O|apply (neg_on o (ca c1) (cb c1) H1); exact O]. rewrite E. ring.
Qed.
Lemma pair_r P n : on1 P -> fpowz o12 (pair P (mulz n gen)) r = f1 o12.
Proof.
  intros O. pose proof (pair_nz P n O) as N. destruct P as [[x y]|]; [|exact (fpowz_one o12 HR r)].
  unfold pair in *. cbn [pt_map value] in *. apply chi_r. intros E. apply N. rewrite E. apply (fpowz_zero o12 HR). exact e_pos.
Qed.
Theorem pair_second P n m : on1 P ->
  pair P (mulz (n + m) gen) = fmul o12 (pair P (mulz n gen)) (pair P (mulz m gen)).
Proof.
  intros O. unfold pair. rewrite (mulz_add o2 c HC) by exact Og. rewrite tw_add by apply n_on.
  refine (second_add o12 (f0 o12) (E1 (cb c1)) H12 D12 ns12 e r p pi e_pos Hr0 Hp0 chi_r (fun _ => eq_refl) pi_hom
    (fh_0 _ _ _ pi_hom) G G_on G_none G_add G_neg G_pi G_pi_add ds us w Hds' Hw Hexp C C_on C_pi C_V l (p ^ 12) kR Hl Hl14 _ _ _ _ kR_out _ fer12 lq _ _ _ _ _ _).
  - intros i. apply tw_on. apply (mulz_on o2 c HC). exact OR.
  - intros i j. unfold kR. rewrite (mulz_add o2 c HC) by exact OR. apply tw_add; apply (mulz_on o2 c HC); exact OR.
  - intros i. unfold kR. rewrite (mulz_opp o2 c HC) by exact OR. apply tw_neg.
  - intros i. rewrite <- (mulz_order o2 c HC l _ OR Hl ltac:(discriminate) RR i). unfold kR.
    destruct (mulz i (Some R)) as [[x y]|]; cbn [tau]; split; intros K; (discriminate || reflexivity).
  - pose proof (prime_ge_2 _ (pf_prime _ _ _ HP)). assert (0 < p ^ 12) by (apply Z.pow_pos_nonneg; lia). lia.
  - exists P. split; [exact O|reflexivity].
  - exists n. reflexivity.
  - exists m. reflexivity.
Qed.
Lemma pair_none2 P : on1 P -> pair P None = f1 o12.
Proof.
  intros O. pose proof (pair_nz P 0 O) as N. change (mulz 0 gen) with (@None (quad F * quad F)) in N.
  pose proof (pair_second P 0 0 O) as E. change (mulz (0 + 0) gen) with (@None (quad F * quad F)) in E.
  change (mulz 0 gen) with (@None (quad F * quad F)) in E. apply (mul_cancel_l o12 H12 (pair P None)); [exact N|].
  rewrite <- E. ring.
Qed.
End Tower.
