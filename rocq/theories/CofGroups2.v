(** The groups of bls12-381 G2, bn256 G2 and pluto G2 (triton). *)
From Verif Require Import Base Field SpecField Params
  Algebra Pow Tower TowerFacts FiniteField PrimeField Primality Certs Compute TowerParams TowerInst SpecCurve SpecCurveFacts Group GroupSum
  Curve CurveFacts CurveGroup CurveParams CurveCheck CurveCerts CurveInst CrateCurves PairingParams PairingLines TwistFrob CofactorFacts CurveSum
  OrderFacts PointFacts CofPoints CofCerts CofGroups.
From Bignums Require Import BigZ.
Local Open Scope Z_scope.

(** conj(b) u^6 = b *)
Definition q_tw_chk (t : tower_conf) (cc : curve_consts (Z * Z)) (u : Z * Z) : bool :=
  let ob := bz_ops (BigZ.of_Z (modulus (t_field t))) in
  let bmnr := fun x => fmul ob (BigZ.of_Z (t_beta t)) x in
  let o2b := quad_ops ob bmnr (quad_square ob bmnr) in
  let U := b2 u in let U3 := fmul o2b (fmul o2b U U) U in
  feqb o2b (fmul o2b (quad_conjugate ob (b2 (cc_b cc))) (fmul o2b U3 U3)) (b2 (cc_b cc)).

Section QuadPsi.
Context (t : tower_conf) (cc : curve_consts (Z * Z)) (nr : tri (Z * Z)).
Context {F : Type} (o : fops F) (inj : Z -> F) (HP : prime_field (modulus (t_field t)) o inj).
Context (mnr : F -> F) (sq : quad F -> quad F).
Hypothesis Hm : forall x, mnr x = fmul o (inj (t_beta t)) x.
Hypothesis Hsq : forall a, sq a = quad_mul o mnr a a.
Let o2 := quad_ops o mnr sq.
Hypothesis H2 : field_laws o2.
Hypothesis H2z : is0_law o2.
Hypothesis H2f : finite_field o2 (modulus (t_field t) * modulus (t_field t)).
Hypothesis Hc : quad_curve_check t cc nr = true.
Let c := curve_of o2 (inj2 inj) cc.
Let HC := quad_curve_laws t cc nr o inj HP mnr sq Hm Hsq H2 H2z H2f Hc.
Let GL := cpt_laws o2 c HC.
Notation g := (cpt_ops o2 c HC).
Notation conj := (quad_conjugate o).
Notation is_pt := (is_pt o2 c (inj2 inj)).
Notation gm := (gmul g).
Lemma q_gen : exists Gen : cpt o2 c, is_pt (cc_gx cc, cc_gy cc) Gen /\ gm (modulus (cc_scalar cc)) Gen = g0 g.
Proof.
  pose proof (quad_curve_facts t cc nr o inj HP mnr sq Hm Hsq H2 H2z H2f Hc) as CF.
  exists (mkpt o2 c HC _ (proj1 (cf_gen _ _ _ _ CF))). split; [reflexivity|].
  apply cpt_ext. rewrite (gmul_pt o2 c HC). exact (cf_order _ _ _ _ CF).
Qed.
Lemma q_indep l P : prime (Zpos l) -> q_kill t cc P l = true -> exists T, is_pt P T /\ indep1 g (Zpos l) T.
Proof.
  intros Hl E. destruct (q_kill_ok t cc nr o inj HP mnr sq Hm Hsq H2 H2z H2f Hc P l E) as (T & A & K). exists T. split; [exact A|].
  apply (indep1_prime g GL); [exact Hl|exact (is_pt_nz o2 c HC (inj2 inj) _ _ A)|exact K].
Qed.

Context (u : Z * Z) (Ha0 : cc_a cc = (0, 0)) (Htw : q_tw_chk t cc u = true) (Hn : q_norm_chk t u = true).
Notation U := (inj2 inj u).
Lemma qp_a : ca c = f0 o2.
Proof.
  change (ca c) with (inj2 inj (cc_a cc)). rewrite Ha0. unfold inj2. cbn [fst snd].
  rewrite (zh_0 _ _ (pf_hom _ _ _ HP)). reflexivity.
Qed.
Lemma qp_b : fmul o2 (conj (cb c)) (fmul o2 (fmul o2 (fmul o2 U U) U) (fmul o2 (fmul o2 U U) U)) = cb c.
Proof.
  pose proof Htw as E. unfold q_tw_chk in E. cbv zeta in E. apply (phi2_eqb t inj) in E.
  pose proof (phi2_hom t o inj HP mnr sq Hm Hsq) as Hf. repeat rewrite (fh_mul _ _ _ Hf) in E.
  rewrite !(conj_b2 t o inj HP), !(phi2_b2 inj) in E. exact E.
Qed.
Let HR2 := fl_rl _ H2.
Add Ring RQP : (rl_ring _ HR2).
Lemma qp_u : U <> f0 o2.
Proof.
  intros E. apply (b_nonzero t cc nr o inj HP mnr sq Hm Hsq H2 H2z H2f Hc). change (cb c = f0 o2). rewrite <- qp_b, E. ring.
Qed.
Lemma qp_n : fadd o2 (fmul o2 (fmul o2 (conj U) U) (fmul o2 (conj U) U)) (f1 o2) = fmul o2 (conj U) U.
Proof. exact (q_norm_ok t o inj HP mnr sq Hm Hsq u Hn). Qed.
Definition qpsi : cpt o2 c -> cpt o2 c := hpsi o2 c HC qp_a conj (conj_hom t o inj HP mnr sq Hm Hsq) U qp_b.
Lemma qpsi_add P Q : qpsi (gadd g P Q) = gadd g (qpsi P) (qpsi Q).
Proof. exact (hpsi_add o2 c HC qp_a conj (conj_hom t o inj HP mnr sq Hm Hsq) U qp_u qp_b P Q). Qed.
Lemma qpsi_four P : gadd g (qpsi (qpsi (qpsi (qpsi P)))) P = qpsi (qpsi P).
Proof. exact (hpsi_four o2 c HC qp_a conj (conj_hom t o inj HP mnr sq Hm Hsq) (conj_invol t o inj HP) U qp_b qp_n P). Qed.
Lemma qpsi_is P Q T : q_psi t u P Q = true -> is_pt P T -> is_pt Q (qpsi T).
Proof. intros E A. exact (q_psi_ok t cc o inj HP mnr sq Hm Hsq u P Q T (qpsi T) E A eq_refl). Qed.
Notation act := (act g qpsi).
Lemma qpsi_mul k P : qpsi (gm k P) = gm k (qpsi P).
Proof. exact (h_mul g GL qpsi qpsi_add k P). Qed.
Lemma qact_add a P Q : act a (gadd g P Q) = gadd g (act a P) (act a Q).
Proof. exact (act_gadd g GL qpsi qpsi_add a P Q). Qed.
Lemma qact_mul a k P : act a (gm k P) = gm k (act a P).
Proof. exact (h_mul g GL (act a) (qact_add a) k P). Qed.
Lemma qact_killed a b k P : qt_mul b a = (k, 0, 0, 0)%Z -> act a P = g0 g -> gm k P = g0 g.
Proof. exact (act_killed o2 c HC qp_a conj (conj_hom t o inj HP mnr sq Hm Hsq) (conj_invol t o inj HP) U qp_u qp_b qp_n a b k P). Qed.
(** An eigenvector: the element acts as an integer. *)
Lemma qact_eigen a s P : qpsi P = gm s P -> act a P = gm (qt_eval s a) P.
Proof.
  intros E. assert (X : forall k, qpsi (gm k P) = gm s (gm k P)).
  { intros k. rewrite qpsi_mul, E, <- !(gmul_mul _ GL). f_equal. lia. }
  exact (act_eval g GL qpsi qpsi_add qpsi_four s a P X).
Qed.
Lemma qact_eigen_0 a s l P : qpsi P = gm s P -> gm l P = g0 g -> (qt_eval s a) mod l = 0 -> 0 < l -> act a P = g0 g.
Proof.
  intros E K M L. rewrite (qact_eigen a s P E), <- (gmul_mod _ GL l _ P K), M. reflexivity.
Qed.
(** A point of prime order and its eigenvalue, checked *)
Definition eigen_chk (P : (Z * Z) * (Z * Z)) (l : positive) (Q : (Z * Z) * (Z * Z)) (s : positive) (a : quart) : bool :=
  q_kill t cc P l && q_mul t cc P s Q && q_psi t u P Q && (qt_eval (Zpos s) a mod Zpos l =? 0).
Lemma eigen_ok P l Q s a : prime (Zpos l) -> eigen_chk P l Q s a = true ->
  exists T, is_pt P T /\ indep1 g (Zpos l) T /\ qpsi T = gm (Zpos s) T /\ act a T = g0 g.
Proof.
  intros Hl E. unfold eigen_chk in E. apply andb_prop in E as (E & E4). apply andb_prop in E as (E & E3). apply andb_prop in E as (E1 & E2).
  apply Z.eqb_eq in E4. destruct (q_indep l P Hl E1) as (T & A & I). exists T. split; [exact A|]. split; [exact I|].
  assert (X : qpsi T = gm (Zpos s) T).
  { apply (is_pt_uniq o2 c (inj2 inj) Q); [exact (qpsi_is P Q T E3 A)|].
    exact (q_mul_ok t cc nr o inj HP mnr sq Hm Hsq H2 H2z H2f Hc P s Q T E2 A). }
  split; [exact X|]. exact (qact_eigen_0 a _ _ T X (proj1 I) E4 eq_refl).
Qed.
(** A point in the kernel of [a] whose multiple by k / l has order l *)
Lemma kernel_ok a b k m P l Q T : prime l -> qt_mul b a = (k, 0, 0, 0)%Z -> Zpos m * l = k ->
  is_pt P T -> act a T = g0 g -> q_mul t cc P m Q = true ->
  exists S, is_pt Q S /\ indep1 g l S /\ act a S = g0 g.
Proof.
  intros Hl Eb Ek A K E. exists (gm (Zpos m) T).
  pose proof (q_mul_ok t cc nr o inj HP mnr sq Hm Hsq H2 H2z H2f Hc P m Q T E A) as AQ. split; [exact AQ|]. split.
  - apply (indep1_prime g GL); [exact Hl|exact (is_pt_nz o2 c HC (inj2 inj) _ _ AQ)|].
    rewrite <- (gmul_mul _ GL), Z.mul_comm, Ek. exact (qact_killed a b k T Eb K).
  - rewrite qact_mul, K. apply (gmul_g0 _ GL).
Qed.
End QuadPsi.
