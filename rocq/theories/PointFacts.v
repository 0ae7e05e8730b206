(** Facts about explicit points of a curve, checked by evaluation over a computational copy
    of the base field. *)
From Verif Require Import Base Field SpecField Params
  Algebra Pow Tower TowerFacts FiniteField PrimeField Primality Compute TowerParams TowerInst SpecCurve SpecCurveFacts Group
  Curve CurveFacts CurveGroup CurveParams CurveCheck CurveCerts CurveInst CrateCurves PairingLines TwistFrob CofactorFacts.
From Bignums Require Import BigZ.
Local Open Scope Z_scope.

Section Checks.
Context {K B : Type} (ob : fops B) (cB : cconf B) (tob : K -> B).
Definition on_chk (P : K * K) : bool :=
  let x := tob (fst P) in let y := tob (snd P) in
  feqb ob (fmul ob y y) (fadd ob (fadd ob (fmul ob (fmul ob x x) x) (fmul ob (ca cB) x)) (cb cB)).
(** on the curve and l P = 0 *)
Definition kill_chk (P : K * K) (l : positive) : bool := gen_check ob cB (tob (fst P)) (tob (snd P)) l.
(** k P = Q *)
Definition mul_is_chk (P : K * K) (k : positive) (Q : K * K) : bool :=
  mult_check ob cB (tob (fst P)) (tob (snd P)) k (tob (fst Q)) (tob (snd Q)).
(** P + Q = R *)
Definition sum_chk (P Q R : K * K) : bool :=
  let s := proj_add ob cB (mk_proj (tob (fst P)) (tob (snd P)) (f1 ob)) (mk_proj (tob (fst Q)) (tob (snd Q)) (f1 ob)) in
  feqb ob (px s) (fmul ob (tob (fst R)) (pz s)) && feqb ob (py s) (fmul ob (tob (snd R)) (pz s)).
End Checks.

Section Facts.
Context {K B F : Type} (ob : fops B) (o : fops F) (phi : B -> F).
Context (Hf : fhom ob o phi) (H : field_laws o).
Hypothesis Heq : forall x y, feqb ob x y = true -> phi x = phi y.
Context (cB : cconf B) (c : cconf F).
Hypothesis Ha : phi (ca cB) = ca c.
Hypothesis Hb : phi (cb cB) = cb c.
Hypothesis H3 : forall x, phi (mul3b cB x) = mul3b c (phi x).
Hypothesis Haz : a_is_zero ob cB = a_is_zero o c.
Context (HC : curve_laws o c).
Context (tob : K -> B) (emb : K -> F) (Hto : forall k, phi (tob k) = emb k).
Add Field FFk : (field_thy o H).
Notation g := (cpt_ops o c HC). Notation G := (cpt o c).

(** the group element [T] is the explicit point [P] *)
Definition is_pt (P : K * K) (T : G) : Prop := proj1_sig T = Some (emb (fst P), emb (snd P)).
Lemma is_pt_nz P T : is_pt P T -> T <> g0 g.
Proof. intros E X. unfold is_pt in E. rewrite X in E. discriminate. Qed.
Lemma is_pt_uniq P T S : is_pt P T -> is_pt P S -> T = S.
Proof. intros A C. apply cpt_ext. unfold is_pt in *. congruence. Qed.
Lemma on_fact P : on_chk ob cB tob P = true -> exists T, is_pt P T.
Proof.
  intros E. unfold on_chk in E. cbv zeta in E. apply Heq in E.
  rewrite !(fh_add _ _ _ Hf), !(fh_mul _ _ _ Hf), !Hto, Ha, Hb in E.
  exists (mkpt o c HC (Some (emb (fst P), emb (snd P))) E). reflexivity.
Qed.
Lemma kill_fact P l : kill_chk ob cB tob P l = true -> exists T, is_pt P T /\ gmul g (Zpos l) T = g0 g.
Proof.
  intros E. destruct (gen_check_ok ob o phi Hf H Heq cB c Ha Hb H3 Haz HC _ _ _ E) as (O & M). rewrite !Hto in O, M.
  exists (mkpt o c HC _ O). split; [reflexivity|]. apply cpt_ext. rewrite (gmul_pt o c HC). exact M.
Qed.
Lemma mul_fact P k Q T : mul_is_chk ob cB tob P k Q = true -> is_pt P T -> is_pt Q (gmul g (Zpos k) T).
Proof.
  intros E A. unfold is_pt. rewrite (gmul_pt o c HC). unfold is_pt in A. rewrite A. rewrite <- !Hto.
  apply (mult_check_ok ob o phi Hf H Heq cB c Ha H3 Haz HC); [|exact E].
  rewrite !Hto, <- A. apply (cpt_on o c HC).
Qed.
Lemma sum_fact P Q R T S : sum_chk ob cB tob P Q R = true -> is_pt P T -> is_pt Q S -> is_pt R (gadd g T S).
Proof.
  intros E A C. unfold sum_chk in E. cbv zeta in E. apply andb_prop in E. destruct E as [E1 E2]. apply Heq in E1, E2.
  unfold is_pt in *. pose proof (cpt_on o c HC T) as OT. pose proof (cpt_on o c HC S) as OS. rewrite A in OT. rewrite C in OS.
  cbn [cpt_ops gadd mkpt proj1_sig]. rewrite A, C. rewrite <- !Hto in *.
  pose proof (add_repr o c HC _ _ _ _ (gen_prep o H c _ _ OT) (gen_prep o H c _ _ OS)) as Rp.
  pose proof (add_hom ob o phi Hf cB c Ha H3 Haz (mk_proj (tob (fst P)) (tob (snd P)) (f1 ob)) (mk_proj (tob (fst Q)) (tob (snd Q)) (f1 ob))) as Hh.
  unfold pmap at 2 3 in Hh. cbn [px py pz] in Hh. rewrite (fh_1 _ _ _ Hf) in Hh. rewrite <- Hh in Rp.
  set (p := proj_add ob cB _ _) in *. rewrite (fh_mul _ _ _ Hf) in E1, E2.
  destruct (pt_add o (ca c) _ _) as [[x' y']|]; destruct Rp as (_ & Rp); cbn [pmap px py pz] in Rp.
  - destruct Rp as (N & X & Y). rewrite E1 in X. rewrite E2 in Y. f_equal. f_equal.
    + apply (mul_cancel_l o H (phi (pz p)) _ _ N). transitivity (fmul o (phi (pz p)) x'); [reflexivity|].
      transitivity (fmul o x' (phi (pz p))); [ring|]. rewrite <- X. ring.
    + apply (mul_cancel_l o H (phi (pz p)) _ _ N). transitivity (fmul o y' (phi (pz p))); [ring|]. rewrite <- Y. ring.
  - destruct Rp as (_ & N & Zz). exfalso. apply N. rewrite E2, Zz. ring.
Qed.
End Facts.

(** ** Curves over a prime field *)
Section PrimeFacts.
Context (cc : curve_consts Z) (u : tri Z) {F : Type} (o : fops F) (inj : Z -> F).
Hypothesis HP : prime_field (modulus (cc_base cc)) o inj.
Hypothesis Hc : prime_curve_check cc u = true.
Let ob := bz_ops (BigZ.of_Z (modulus (cc_base cc))).
Let c := curve_of o inj cc.
Let HC := prime_curve_laws cc u o inj HP Hc.
Notation g := (cpt_ops o c HC).
Definition p_kill (P : Z * Z) (l : positive) : bool := kill_chk ob (curve_of ob BigZ.of_Z cc) BigZ.of_Z P l.
Definition p_mul (P : Z * Z) (k : positive) (Q : Z * Z) : bool := mul_is_chk ob (curve_of ob BigZ.of_Z cc) BigZ.of_Z P k Q.
(** k (x, y) = (z x, y) *)
Definition p_endo (z : Z) (P : Z * Z) (k : positive) : bool :=
  let B := curve_of ob BigZ.of_Z cc in
  mult_check ob B (BigZ.of_Z (fst P)) (BigZ.of_Z (snd P)) k (fmul ob (BigZ.of_Z (fst P)) (BigZ.of_Z z)) (BigZ.of_Z (snd P)).
Let Hto : forall k, inj (BigZ.to_Z (BigZ.of_Z k)) = inj k.
Proof. intros k. rewrite BigZ.spec_of_Z. reflexivity. Qed.
Lemma p_kill_ok P l : p_kill P l = true -> exists T : cpt o c, is_pt o c inj P T /\ gmul g (Zpos l) T = g0 g.
Proof.
  apply (kill_fact ob o _ (bz_hom _ o inj HP) (pf_laws _ _ _ HP) (pc_eqb cc inj) (curve_of ob BigZ.of_Z cc) c
    (pc_of_Z inj _) (pc_of_Z inj _) (pc_3b cc o inj HP) (pc_az cc u o inj HP Hc) HC BigZ.of_Z inj Hto).
Qed.
Lemma p_mul_ok P k Q T : p_mul P k Q = true -> is_pt o c inj P T -> is_pt o c inj Q (gmul g (Zpos k) T).
Proof.
  apply (mul_fact ob o _ (bz_hom _ o inj HP) (pf_laws _ _ _ HP) (pc_eqb cc inj) (curve_of ob BigZ.of_Z cc) c
    (pc_of_Z inj _) (pc_3b cc o inj HP) (pc_az cc u o inj HP Hc) HC BigZ.of_Z inj Hto).
Qed.
Lemma p_endo_ok z P k T : p_endo z P k = true -> is_pt o c inj P T ->
  proj1_sig (gmul g (Zpos k) T) = pt_endo o (inj z) (proj1_sig T).
Proof.
  intros E A. rewrite (gmul_pt o c HC). pose proof (cpt_on o c HC T) as O. unfold is_pt in A. rewrite A in *.
  rewrite <- (Hto (fst P)) in O at 1. rewrite <- (Hto (snd P)) in O at 1.
  pose proof (mult_check_ok ob o _ (bz_hom _ o inj HP) (pf_laws _ _ _ HP) (pc_eqb cc inj) (curve_of ob BigZ.of_Z cc) c
    (pc_of_Z inj _) (pc_3b cc o inj HP) (pc_az cc u o inj HP Hc) HC _ _ _ _ _ O E) as M.
  cbv beta in M. pose proof (fh_mul _ _ _ (bz_hom _ o inj HP) (BigZ.of_Z (fst P)) (BigZ.of_Z z)) as X. cbv beta in X.
  fold ob in X. rewrite X, !Hto in M. exact M.
Qed.
End PrimeFacts.

(** ** Curves over a quadratic extension *)
Section QuadFacts.
Context (t : tower_conf) (cc : curve_consts (Z * Z)) (nr : tri (Z * Z)).
Context {F : Type} (o : fops F) (inj : Z -> F) (HP : prime_field (modulus (t_field t)) o inj).
Context (mnr : F -> F) (sq : quad F -> quad F).
Hypothesis Hm : forall x, mnr x = fmul o (inj (t_beta t)) x.
Hypothesis Hsq : forall a, sq a = quad_mul o mnr a a.
Let o2 := quad_ops o mnr sq.
Hypothesis H2 : field_laws o2.
Hypothesis H2z : is0_law o2.
Hypothesis H2f : finite_field o2 (modulus (t_field t) * modulus (t_field t)).
Hypothesis Hc : quad_curve_check t cc nr = true.
Let ob := bz_ops (BigZ.of_Z (modulus (t_field t))).
Let bmnr (x : bigZ) : bigZ := fmul ob (BigZ.of_Z (t_beta t)) x.
Let o2b := quad_ops ob bmnr (quad_square ob bmnr).
Let cB := curve_of o2b b2 cc.
Let c := curve_of o2 (inj2 inj) cc.
Let HC := quad_curve_laws t cc nr o inj HP mnr sq Hm Hsq H2 H2z H2f Hc.
Notation g := (cpt_ops o2 c HC).
Notation conj := (quad_conjugate o).
Definition q_on (P : (Z * Z) * (Z * Z)) : bool := on_chk o2b cB b2 P.
Definition q_kill (P : (Z * Z) * (Z * Z)) (l : positive) : bool := kill_chk o2b cB b2 P l.
Definition q_mul (P : (Z * Z) * (Z * Z)) (k : positive) (Q : (Z * Z) * (Z * Z)) : bool := mul_is_chk o2b cB b2 P k Q.
Definition q_sum (P Q R : (Z * Z) * (Z * Z)) : bool := sum_chk o2b cB b2 P Q R.
(** psi P = Q *)
Definition q_psi (u : Z * Z) (P Q : (Z * Z) * (Z * Z)) : bool :=
  let U := b2 u in let U2 := fmul o2b U U in
  feqb o2b (fmul o2b (quad_conjugate ob (b2 (fst P))) U2) (b2 (fst Q))
  && feqb o2b (fmul o2b (quad_conjugate ob (b2 (snd P))) (fmul o2b U2 U)) (b2 (snd Q)).
(** n^2 + 1 = n for n = conj u * u *)
Definition q_norm_chk (u : Z * Z) : bool :=
  let n := fmul o2b (quad_conjugate ob (b2 u)) (b2 u) in feqb o2b (fadd o2b (fmul o2b n n) (f1 o2b)) n.
Notation is_pt := (is_pt o2 c (inj2 inj)).
Lemma q_on_ok P : q_on P = true -> exists T, is_pt P T.
Proof.
  apply (on_fact o2b o2 _ (phi2_hom t o inj HP mnr sq Hm Hsq) (phi2_eqb t inj) cB c
    (phi2_b2 inj _) (phi2_b2 inj _) HC b2 (inj2 inj) (phi2_b2 inj)).
Qed.
Lemma q_kill_ok P l : q_kill P l = true -> exists T, is_pt P T /\ gmul g (Zpos l) T = g0 g.
Proof.
  apply (kill_fact o2b o2 _ (phi2_hom t o inj HP mnr sq Hm Hsq) H2 (phi2_eqb t inj) cB c
    (phi2_b2 inj _) (phi2_b2 inj _) (qc_3b t cc o inj HP mnr sq Hm Hsq) (qc_az t cc nr o inj HP mnr sq H2 Hc) HC b2 (inj2 inj) (phi2_b2 inj)).
Qed.
Lemma q_mul_ok P k Q T : q_mul P k Q = true -> is_pt P T -> is_pt Q (gmul g (Zpos k) T).
Proof.
  apply (mul_fact o2b o2 _ (phi2_hom t o inj HP mnr sq Hm Hsq) H2 (phi2_eqb t inj) cB c
    (phi2_b2 inj _) (qc_3b t cc o inj HP mnr sq Hm Hsq) (qc_az t cc nr o inj HP mnr sq H2 Hc) HC b2 (inj2 inj) (phi2_b2 inj)).
Qed.
Lemma q_sum_ok P Q R T S : q_sum P Q R = true -> is_pt P T -> is_pt Q S -> is_pt R (gadd g T S).
Proof.
  apply (sum_fact o2b o2 _ (phi2_hom t o inj HP mnr sq Hm Hsq) H2 (phi2_eqb t inj) cB c
    (phi2_b2 inj _) (qc_3b t cc o inj HP mnr sq Hm Hsq) (qc_az t cc nr o inj HP mnr sq H2 Hc) HC b2 (inj2 inj) (phi2_b2 inj)).
Qed.
Lemma q_psi_ok u P Q T S : q_psi u P Q = true -> is_pt P T -> tau o2 conj (inj2 inj u) (proj1_sig T) = proj1_sig S -> is_pt Q S.
Proof.
  intros E A Es. unfold q_psi in E. cbv zeta in E. apply andb_prop in E. destruct E as [E1 E2].
  apply (phi2_eqb t inj) in E1, E2. pose proof (phi2_hom t o inj HP mnr sq Hm Hsq) as Hf.
  fold ob bmnr in Hf. change (quad_ops ob bmnr (quad_square ob bmnr)) with o2b in Hf. 
  repeat rewrite (fh_mul _ _ _ Hf) in E1. repeat rewrite (fh_mul _ _ _ Hf) in E2.
  rewrite !(conj_b2 t o inj HP), !(phi2_b2 inj) in E1. rewrite !(conj_b2 t o inj HP), !(phi2_b2 inj) in E2.
  unfold PointFacts.is_pt in *. rewrite <- Es, A. cbn [tau].
  f_equal. f_equal; [exact E1|exact E2].
Qed.
Lemma q_norm_ok u : q_norm_chk u = true ->
  let n := fmul o2 (conj (inj2 inj u)) (inj2 inj u) in fadd o2 (fmul o2 n n) (f1 o2) = n.
Proof.
  intros E. unfold q_norm_chk in E. cbv zeta in E. apply (phi2_eqb t inj) in E.
  pose proof (phi2_hom t o inj HP mnr sq Hm Hsq) as Hf.
  fold ob bmnr in Hf. change (quad_ops ob bmnr (quad_square ob bmnr)) with o2b in Hf.
  rewrite !(fh_add _ _ _ Hf), !(fh_mul _ _ _ Hf), (fh_1 _ _ _ Hf) in E. rewrite !(conj_b2 t o inj HP), !(phi2_b2 inj) in E. exact E.
Qed.
End QuadFacts.
