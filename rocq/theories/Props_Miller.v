(** Property theorems C41 and C47: the Miller loops of bn256, bls12-381 and pluto. *)
From Verif Require Import Base Algebra Pow Tower TowerFacts FiniteField PrimeField Primality Certs Field Params TowerParams TowerInst
  SpecCurve SpecCurveFacts Curve CurveFacts CurveGroup CurveParams CurveCheck CurveCerts CurveInst CrateCurves Compute
  PairingParams SpecPairing Pairing PairingFacts PairingInst PairingLines TwistFrob PairingMiller SerdeInst Props_Curve Props_Pairing.
Local Open Scope Z_scope.

(** ** C41: the steps *)
(** [r] holds Jacobian coordinates (X/Z^2, Y/Z^3) of the point (x, y). *)
Definition jacobian {G} (o : fops G) (r : proj G) (x y : G) : Prop :=
  pz r <> f0 o /\ px r = fmul o x (fmul o (pz r) (pz r)) /\ py r = fmul o y (fmul o (fmul o (pz r) (pz r)) (pz r)).
(** The three coefficients are [k] times those of the line of slope [l] through (x, y). *)
Definition is_line {G} (o : fops G) (cs : G * G * G) (k l x y : G) : Prop :=
  cs = (k, fneg o (fmul o k l), fmul o k (fsub o (fmul o l x) y)).
(** [l] is the slope of the line through the two points, which are not opposite
    (the tangent if they are equal). *)
Definition line_slope {G} (o : fops G) (a l x1 y1 x2 y2 : G) : Prop :=
  if feqb o x1 x2 then fmul o l (fadd o y1 y2) = fadd o (fmul o (fadd o (fadd o (f1 o) (f1 o)) (f1 o)) (fmul o x1 x1)) a
  else fmul o l (fsub o x1 x2) = fsub o y1 y2.
Lemma slope_line {G} (o : fops G) (H : field_laws o) a l x1 y1 x2 y2 : slope o a l x1 y1 x2 y2 -> line_slope o a l x1 y1 x2 y2.
Proof.
  pose proof (fl_rl _ H) as HR. intros (A & B). unfold line_slope. pose proof (rl_ring _ HR) as R. destruct R.
  destruct (feqb o x1 x2) eqn:E; [|symmetry; exact A].
  apply (fl_eqb _ H) in E. subst x2. rewrite B. f_equal. rewrite !Rdistr_l, !Rmul_1_l. reflexivity.
Qed.
Section Steps.
Context {G : Type} (o : fops G) (c : cconf G) (g : aff G) (sc : fconf) (HV : crate_curve o c g sc) (Ha : ca c = f0 o).
Let HC := cf_laws _ _ _ _ (crate_curve_facts o c g sc HV).
Let HR := fl_rl _ (cl_field _ _ HC).
Add Ring RPM : (rl_ring _ HR).
Theorem C41_double : forall r x y, on_curve o (ca c) (cb c) (Some (x, y)) -> jacobian o r x y ->
  let '(cs, r') := double_coeffs o r in
  exists k l x' y', k <> f0 o /\ line_slope o (ca c) l x y x y /\ is_line o cs k l x y
  /\ pt_add o (ca c) (Some (x, y)) (Some (x, y)) = Some (x', y') /\ jacobian o r' x' y'.
Proof.
  intros r x y O J.
  destruct (double_line o c HC Ha r x y (conj O J)) as (k & l & Kn & S & _ & LC & (O' & J')).
  destruct (double_coeffs o r) as [cs r']. cbn [fst snd] in *.
  destruct (pt_add o (ca c) (Some (x, y)) (Some (x, y))) as [[x' y']|]; [|destruct J'].
  exists k, l, x', y'. split; [exact Kn|]. split; [exact (slope_line o (cl_field _ _ HC) _ _ _ _ _ _ S)|]. split; [exact LC|]. split; [reflexivity|exact J'].
Qed.
Theorem C41_add : forall r x y q, on_curve o (ca c) (cb c) (Some (x, y)) -> jacobian o r x y ->
  on_curve o (ca c) (cb c) (Some (ax q, ay q)) -> x <> ax q ->
  let '(cs, r') := add_coeffs o r q in
  exists k l x' y', k <> f0 o /\ line_slope o (ca c) l x y (ax q) (ay q) /\ is_line o cs k l (ax q) (ay q)
  /\ pt_add o (ca c) (Some (x, y)) (Some (ax q, ay q)) = Some (x', y') /\ jacobian o r' x' y'.
Proof.
  intros r x y q O J Oq D.
  destruct (add_line o c HC r x y q (conj O J) Oq D) as (k & l & Kn & S & LC & (O' & J')).
  destruct (add_coeffs o r q) as [cs r']. cbn [fst snd] in *.
  destruct (pt_add o (ca c) (Some (x, y)) (Some (ax q, ay q))) as [[x' y']|]; [|destruct J'].
  exists k, l, x', y'. split; [exact Kn|]. split; [exact (slope_line o (cl_field _ _ HC) _ _ _ _ _ _ S)|]. split; [exact LC|]. split; [reflexivity|exact J'].
Qed.
(** The addition step has no doubling case: for R = Q the result is (0, 0, 0), which
    represents no point, although R + Q is not the identity. *)
Theorem C41_add_equal_refuted : forall q, on_curve o (ca c) (cb c) (Some (ax q, ay q)) ->
  add_coeffs o (mk_proj (ax q) (ay q) (f1 o)) q = ((f0 o, f0 o, f0 o), mk_proj (f0 o) (f0 o) (f0 o))
  /\ pt_add o (ca c) (Some (ax q, ay q)) (Some (ax q, ay q)) <> None.
Proof.
  intros q O. split.
  - unfold add_coeffs. cbn [px py pz]. cbv zeta. rewrite !(rl_sqr _ HR). f_equal; [f_equal; [f_equal|]|f_equal]; ring.
  - destruct (double_line o c HC Ha (mk_proj (ax q) (ay q) (f1 o)) (ax q) (ay q)) as (k & l & _ & _ & _ & _ & (_ & J')).
    + split; [exact O|]. cbn [px py pz]. split; [exact (fl_1_0 _ (cl_field _ _ HC))|]. split; ring.
    + intros E. rewrite E in J'. exact J'.
Qed.
End Steps.

(** Both steps apply: R = the generator, and R = twice the generator with Q = the generator. *)
Example ex_C41 : forall G (o : fops G) (c : cconf G) g sc, crate_curve o c g sc -> ca c = f0 o ->
  on_curve o (ca c) (cb c) (Some (ax g, ay g)) /\ jacobian o (mk_proj (ax g) (ay g) (f1 o)) (ax g) (ay g)
  /\ exists r x y, on_curve o (ca c) (cb c) (Some (x, y)) /\ jacobian o r x y /\ x <> ax g.
Proof.
  intros G o c g sc HV Ha. pose proof (crate_curve_facts o c g sc HV) as Hf. pose proof (cf_laws _ _ _ _ Hf) as HC.
  destruct (cf_gen _ _ _ _ Hf) as (O & _). pose proof (fl_rl _ (cl_field _ _ HC)) as HR. pose proof (rl_ring _ HR) as RR. destruct RR.
  assert (J : jacobian o (mk_proj (ax g) (ay g) (f1 o)) (ax g) (ay g)).
  { cbn [jacobian px py pz]. split; [exact (fl_1_0 _ (cl_field _ _ HC))|].
    rewrite !Rmul_1_l. rewrite !(Rmul_comm _ (f1 o)), !Rmul_1_l. split; reflexivity. }
  split; [exact O|]. split; [exact J|].
  pose proof (C41_double o c g sc HV Ha _ _ _ O J) as D. destruct (double_coeffs o _) as [cs r'].
  destruct D as (k & l & x' & y' & _ & _ & _ & E & J'). exists r', x', y'.
  pose proof (mulz_on o c HC 2 _ O) as O2.
  assert (E2 : pt_mulz o (ca c) 2 (Some (ax g, ay g)) = Some (x', y')).
  { change 2 with (1 + 1). rewrite (mulz_add o c HC) by exact O. rewrite (mulz_1 o c HC) by exact O. exact E. }
  rewrite E2 in O2. split; [exact O2|]. split; [exact J'|].
  assert (Q1 : 3 < modulus sc) by (destruct HV; vm_compute; reflexivity).
  apply (x_neq o c HC g (modulus sc) (scalar_prime o c g sc HV) O (cf_order _ _ _ _ Hf) 2 1 x' y' (ax g) (ay g) E2 (mulz_1 o c HC _ O));
    rewrite Z.mod_small by lia; discriminate.
Qed.

(** The digit tables.  The engines drop the leading digit, which is 1. *)
Theorem C41_digits :
  hd 0 (rev six_u_plus_2_naf) = 1 /\ digits_value (skipn 1 (rev six_u_plus_2_naf)) = 6 * bn_x + 2
  /\ hd 0 (rev neg_six_u_plus_2_naf) = 1 /\ digits_value (skipn 1 (rev neg_six_u_plus_2_naf)) = - (6 * (- neg_pluto_u) + 2)
  /\ hd 0 bls_x = 1 /\ digits_value (skipn 1 bls_x) = 0xd201000000010000.
Proof. vm_compute. repeat split; reflexivity. Qed.
(** The integers u, x the loops are built from are the parameters of the curve families. *)
Definition bn_p (u : Z) : Z := 36 * u ^ 4 + 36 * u ^ 3 + 24 * u ^ 2 + 6 * u + 1.
Definition bn_r (u : Z) : Z := 36 * u ^ 4 + 36 * u ^ 3 + 18 * u ^ 2 + 6 * u + 1.
Theorem C41_families :
  modulus bn256_fq = bn_p bn_x /\ modulus bn256_fr = bn_r bn_x
  /\ modulus pluto_eris_fp = bn_p (- neg_pluto_u) /\ modulus pluto_eris_fq = bn_r (- neg_pluto_u)
  /\ let x := - 0xd201000000010000 in
     modulus bls12381_fr = x ^ 4 - x ^ 2 + 1 /\ 3 * modulus bls12381_fq = (x - 1) ^ 2 * (x ^ 4 - x ^ 2 + 1) + 3 * x.
Proof. vm_compute. repeat split; reflexivity. Qed.
(** The literals of the twisted Frobenius map. *)
Theorem C41_literals :
  lits_denote (modulus bn256_fq) 4 bn256_xi_half_src [bn256_xi_half] = true
  /\ lits_denote (modulus pluto_eris_fp) 7 pluto_xi_half_src [pluto_xi_half] = true.
Proof. vm_compute. split; reflexivity. Qed.

(** ** C47: the pairings *)
Lemma some_inj {A} (x y : A) : Some x = Some y -> x = y.
Proof. intros E. injection E as E. exact E. Qed.
Section Value.
Context (t : tower_conf) {F : Type} (o : fops F) (inj : Z -> F) (o2 : fops (quad F)) (mnr2 : quad F -> quad F).
Notation p := (modulus (t_field t)).
Notation o12 := (fq12_ops o2 mnr2).
Context (HP : prime_field p o inj) (T : tower_facts t o inj o2 mnr2) (Hodd : p mod 2 = 1).
Context (sc : fconf) (c : Z) (cj : quad (cubic (quad F)) -> quad (cubic (quad F))).
Context (ml : list (aff F * aff (quad F)) -> quad (cubic (quad F))).
Context (fe : quad (cubic (quad F)) -> option (quad (cubic (quad F)))).
Context (pr : aff F -> aff (quad F) -> option (quad (cubic (quad F)))).
Context (HE : crate_engine o inj p sc c o2 o12 cj ml fe pr).
Lemma pairing_value f s kap : K t o2 mnr2 kap -> f <> f0 o12 -> f = fmul o12 s kap ->
  fe f = Some (fpowz o12 s (c * ((p ^ 12 - 1) / modulus sc))).
Proof.
  intros Kk N E. rewrite (fe_some _ _ _ _ _ _ _ _ _ _ _ HE f N).
  destruct (fexp_e_val _ _ _ _ _ _ _ _ _ _ _ HE) as (Ev & _). rewrite <- Ev. f_equal. unfold fexp_e.
  apply (fexp_kap t o inj o2 mnr2 HP T Hodd s kap f _); [|exact Kk|exact E].
  pose proof (crate_engine_facts _ _ _ _ _ _ _ _ _ _ _ HE) as EF. pose proof (en_c _ _ _ _ _ _ _ _ _ _ EF) as Hc.
  pose proof (en_p _ _ _ _ _ _ _ _ _ _ EF) as Hp.
  apply Z.mul_nonneg_nonneg; [lia|]. apply Z.div_pos; [|lia]. change 4 with (2 + 2). rewrite Z.pow_add_r by lia. nia.
Qed.
Lemma pairing_value_conj s kap : K t o2 mnr2 kap -> fmul o12 s kap <> f0 o12 ->
  let z := fpowz o12 s (c * ((p ^ 12 - 1) / modulus sc)) in
  fe (cj (fmul o12 s kap)) = Some (fpowz o12 z (p ^ 6)) /\ fmul o12 z (fpowz o12 z (p ^ 6)) = f1 o12.
Proof.
  intros Kk Nz z. pose proof (crate_engine_facts _ _ _ _ _ _ _ _ _ _ _ HE) as EF.
  pose proof (pairing_value _ s kap Kk Nz eq_refl) as Ev. fold z in Ev.
  pose proof (fe_order _ _ _ _ _ _ _ _ _ _ _ HE _ _ Ev) as Eo.
  destruct (gt_inverse _ _ _ _ _ _ _ _ _ _ _ HE _ Eo) as (Ei & _).
  pose proof (en_conj _ _ _ _ _ _ _ _ _ _ EF) as Ec. rewrite Ec in Ei. split; [|exact Ei].
  rewrite Ec.
  rewrite (fe_some _ _ _ _ _ _ _ _ _ _ _ HE _ Nz) in Ev. apply some_inj in Ev.
  pose proof (fl_rl _ (en_field _ _ _ _ _ _ _ _ _ _ EF)) as HR12.
  pose proof (en_p _ _ _ _ _ _ _ _ _ _ EF) as Hp.
  pose proof (fexp_e_nonneg _ _ _ _ _ _ _ _ _ _ _ HE) as En.
  assert (P6 : 0 <= p ^ 6) by (apply Z.pow_nonneg; lia).
  rewrite (fe_some _ _ _ _ _ _ _ _ _ _ _ HE).
  - f_equal. rewrite <- Ev. rewrite <- !fpowz_mul by (exact HR12 || assumption). f_equal. apply Z.mul_comm.
  - apply (fpowz_nonzero o12 (en_field _ _ _ _ _ _ _ _ _ _ EF)). exact Nz.
Qed.
End Value.

Lemma mod2_odd t : Z.odd (modulus (t_field t)) = true -> modulus (t_field t) mod 2 = 1.
Proof. intros E. rewrite Zmod_odd, E. reflexivity. Qed.
(** No exceptional case in the loop. *)
Definition bn_pos_ok (p r : Z) (naf : list Z) : bool :=
  match digits_ok r 1 (skipn 1 (rev naf)) with
  | Some N => negb ((N - p) mod r =? 0) && negb ((N + p) mod r =? 0)
      && negb ((N + p - - (p * p)) mod r =? 0) && negb ((N + p + - (p * p)) mod r =? 0)
  | None => false end.
Definition bn_neg_ok (p r : Z) (naf : list Z) : bool :=
  match digits_ok r 1 (skipn 1 (rev naf)) with
  | Some N => negb ((N - - p) mod r =? 0) && negb ((N + - p) mod r =? 0)
      && negb ((N + - p - (p * p)) mod r =? 0) && negb ((N + - p + (p * p)) mod r =? 0)
  | None => false end.
Lemma bn_pos_ok_spec p r naf : bn_pos_ok p r naf = true -> exists N, digits_ok r 1 (skipn 1 (rev naf)) = Some N
  /\ (N - p) mod r <> 0 /\ (N + p) mod r <> 0 /\ (N + p - - (p * p)) mod r <> 0 /\ (N + p + - (p * p)) mod r <> 0.
Proof.
  unfold bn_pos_ok. destruct (digits_ok r 1 (skipn 1 (rev naf))) as [N|]; [|discriminate]. intros E. exists N. split; [reflexivity|].
  apply andb_prop in E as (E & E4). apply andb_prop in E as (E & E3). apply andb_prop in E as (E1 & E2).
  apply negb_true_iff, Z.eqb_neq in E1, E2, E3, E4. split; [exact E1|]. split; [exact E2|]. split; [exact E3|exact E4].
Qed.
Lemma bn_neg_ok_spec p r naf : bn_neg_ok p r naf = true -> exists N, digits_ok r 1 (skipn 1 (rev naf)) = Some N
  /\ (N - - p) mod r <> 0 /\ (N + - p) mod r <> 0 /\ (N + - p - (p * p)) mod r <> 0 /\ (N + - p + (p * p)) mod r <> 0.
Proof.
  unfold bn_neg_ok. destruct (digits_ok r 1 (skipn 1 (rev naf))) as [N|]; [|discriminate]. intros E. exists N. split; [reflexivity|].
  apply andb_prop in E as (E & E4). apply andb_prop in E as (E & E3). apply andb_prop in E as (E1 & E2).
  apply negb_true_iff, Z.eqb_neq in E1, E2, E3, E4. split; [exact E1|]. split; [exact E2|]. split; [exact E3|exact E4].
Qed.
Lemma bn256_loop_ok : bn_pos_ok (modulus bn256_fq) (modulus bn256_fr) six_u_plus_2_naf = true.
Proof. vm_compute. reflexivity. Qed.
Lemma pluto_loop_ok : bn_neg_ok (modulus pluto_eris_fp) (modulus pluto_eris_fq) neg_six_u_plus_2_naf = true.
Proof. vm_compute. reflexivity. Qed.
Lemma bls_loop_ok : exists N, digits_ok (modulus bls12381_fr) 1 (skipn 1 bls_x) = Some N.
Proof. eexists. vm_compute. reflexivity. Qed.
Lemma bn256_psi_ok : psi_check bn256_tower bn256_g2_consts (nth 1 bn256_c12 (0, 0)) (modulus bn256_fq mod modulus bn256_fr) = true.
Proof. vm_compute. reflexivity. Qed.
Lemma pluto_psi_ok : psi_check pluto_tower triton_consts (nth 1 pluto_c12 (0, 0)) (modulus pluto_eris_fp mod modulus pluto_eris_fq) = true.
Proof. vm_compute. reflexivity. Qed.
Lemma bn256_consts_ok : bn_consts_check bn256_tower (nth 1 bn256_c12 (0, 0)) (nth 1 bn256_c6_1 (0, 0)) bn256_xi_half (nth 2 bn256_c6_1 (0, 0)) = true.
Proof. vm_compute. reflexivity. Qed.
Lemma pluto_consts_ok : bn_consts_check pluto_tower (nth 1 pluto_c12 (0, 0)) (nth 1 pluto_c6_1 (0, 0)) pluto_xi_half (nth 2 pluto_c6_1 (0, 0)) = true.
Proof. vm_compute. reflexivity. Qed.
Lemma bn256_d_twist : d_twist_check bn256_tower bn256_g2_consts (cc_b bn256_g1_consts) = true.
Proof. vm_compute. reflexivity. Qed.
Lemma pluto_d_twist : d_twist_check pluto_tower triton_consts (cc_b pluto_consts) = true.
Proof. vm_compute. reflexivity. Qed.
Lemma bls_m_twist : m_twist_check bls12381_tower bls_g2_consts (cc_b bls_g1_consts) = true.
Proof. vm_compute. reflexivity. Qed.

Section Inst.
Context {F : Type} (o : fops F) (inj : Z -> F).
Lemma quad_scale mnr sq beta (HR : ring_laws o) (Hm : forall x, mnr x = fmul o beta x) c s :
  scale2 o c s = fmul (quad_ops o mnr sq) c (mk_quad s (f0 o)).
Proof.
  unfold quad_ops. cbn [fmul]. rewrite (quad_mul_school o mnr beta HR Hm). unfold scale2. cbn [q0 q1].
  pose proof (rl_ring _ HR) as R.
  assert (Z0 : forall x, fmul o x (f0 o) = f0 o) by (intros x; rewrite (Rmul_comm R); apply mul_zero_l; exact HR).
  assert (A0 : forall x, fadd o x (f0 o) = x) by (intros x; rewrite (Radd_comm R); apply (Radd_0_l R)).
  rewrite !Z0, A0, (Radd_0_l R). reflexivity.
Qed.
Lemma conj_0 mnr sq (HR : ring_laws o) : quad_conjugate o (f0 (quad_ops o mnr sq)) = f0 (quad_ops o mnr sq).
Proof.
  unfold quad_ops. cbn [f0]. unfold quad_conjugate, quad_zero. cbn [q0 q1]. f_equal.
  pose proof (rl_ring _ HR) as R. rewrite <- (Radd_0_l R (fneg o (f0 o))). apply (Ropp_def R).
Qed.
Lemma conj_1 mnr sq (HR : ring_laws o) : quad_conjugate o (f1 (quad_ops o mnr sq)) = f1 (quad_ops o mnr sq).
Proof.
  unfold quad_ops. cbn [f1]. unfold quad_conjugate, quad_one. cbn [q0 q1]. f_equal.
  pose proof (rl_ring _ HR) as R. rewrite <- (Radd_0_l R (fneg o (f0 o))). apply (Ropp_def R).
Qed.
Lemma nth_inj2 mnr sq l : (1 < length l)%nat ->
  nth 1 (map (inj2 inj) l) (f0 (quad_ops o mnr sq)) = inj2 inj (nth 1 l (0, 0)).
Proof. intros L. rewrite (nth_indep _ _ (inj2 inj (0, 0))) by (rewrite map_length; exact L). apply map_nth. Qed.
End Inst.

(** For P on G1 and Q a multiple of the generator of G2, neither the identity, the
    pairing does not panic and is the optimal ate pairing of Vercauteren: with
    Q^ = (x w^2, y w^3) the image of Q on E(Fp12), pi the Frobenius map,
    (f_{6u+2,Q^}(P) l_{[6u+2]Q^,pi Q^}(P) l_{[6u+2]Q^+pi Q^,-pi^2 Q^}(P))^((p^12-1)/r). *)
Theorem C47_bn256 : forall F (o : fops F) inj, prime_field (modulus bn256_fq) o inj ->
  let o2 := bn256_fq2 o in let o12 := bn256_fq12 o in
  let p := modulus bn256_fq in let r := modulus bn256_fr in
  let c1 := curve_of_bn256_g1 o inj bn256_g1_consts in let c2 := curve_of o2 (inj2 inj) bn256_g2_consts in
  let g2 := gen_aff (inj2 inj) bn256_g2_consts in
  let w := w12 o2 in let pi := pt_map (fun z => fpowz o12 z p) in
  forall P Q n, on_curve o (ca c1) (cb c1) (Some (ax P, ay P)) ->
  Some (ax Q, ay Q) = pt_mulz o2 (ca c2) n (Some (ax g2, ay g2)) ->
  let Qh := Some (fmul o12 (emb2 o2 (ax Q)) (fmul o12 w w), fmul o12 (emb2 o2 (ay Q)) (fmul o12 (fmul o12 w w) w)) in
  on_curve o12 (f0 o12) (emb1 o o2 (cb c1)) Qh
  /\ bn256_pairing o inj P Q = Some (fpowz o12
       (miller_function_bn o12 (f0 o12) (skipn 1 (rev six_u_plus_2_naf)) Qh (pi Qh) (pt_neg o12 (pi (pi Qh)))
          (emb1 o o2 (ax P)) (emb1 o o2 (ay P))) ((p ^ 12 - 1) / r)).
Proof.
  intros F o inj HP o2 o12 p r c1 c2 g2 w pi P Q n OP EQ Qh.
  pose proof (bn256_tower_facts o inj HP) as T.
  pose proof (fl_rl _ (pf_laws _ _ _ HP)) as HR.
  pose proof (crate_curve_facts _ _ _ _ (cv_bn256_g1 F o inj HP)) as C1.
  pose proof (crate_curve_facts _ _ _ _ (cv_bn256_g2 F o inj HP)) as C2.
  assert (Hc0 : quad_conjugate o (f0 o2) = f0 o2) by exact (conj_0 o _ _ HR).
  assert (Hc1 : quad_conjugate o (f1 o2) = f1 o2) by exact (conj_1 o _ _ HR).
  pose proof (nth_inj2 o inj (mnr_neg o) (quad_square_complex o) bn256_c12 ltac:(vm_compute; lia)) as EU.
  destruct (psi_facts bn256_tower bn256_g2_consts bn256_g2_noroot o inj HP (mnr_neg o) (quad_square_complex o)
    (mnr_neg_inj o inj _ HP) (sq_complex o inj _ HP) (tf_2 _ _ _ _ _ T) (tf_2z _ _ _ _ _ T) (tf_2fin _ _ _ _ _ T) bn256_g2_ok
    _ _ bn256_psi_ok) as (U1 & U2 & U3).
  pose proof (eq_trans U3 (mulz_mod _ _ (cf_laws _ _ _ _ C2) _ _ _ (proj1 (cf_gen _ _ _ _ C2)) (cf_order _ _ _ _ C2))) as U3'. clear U3.
  rewrite <- EU in U1, U2, U3'.
  destruct (bn_consts bn256_tower o inj HP (mnr_neg o) (quad_square_complex o)
    (mnr_neg_inj o inj _ HP) (sq_complex o inj _ HP) (tf_2 _ _ _ _ _ T) _ _ _ _ bn256_consts_ok) as (G1 & G2 & G3 & G4).
  rewrite <- EU in G1, G2.
  destruct (bn_pos_ok_spec _ _ _ bn256_loop_ok) as (N & D & N1 & N2 & N3 & N4).
  pose proof (d_twist bn256_tower bn256_g2_consts o inj HP (mnr_neg o) (quad_square_complex o)
    (mnr_neg_inj o inj _ HP) (sq_complex o inj _ HP) _ bn256_d_twist) as TB.
  pose proof (no_y0 o c1 (cf_laws _ _ _ _ C1) _ _ OP) as Y0.
  destruct (bn_pos_spec bn256_tower o inj o2 (bn256_fq2_mnr o) HP T (mod2_odd bn256_tower eq_refl)
    (quad_scale o _ _ _ HR (mnr_neg_inj o inj _ HP)) eq_refl Hc1 Hc0 bn256_g2_consts (cf_laws _ _ _ _ C2)
    (qc_a0 bn256_tower bn256_g2_consts bn256_g2_noroot o inj HP (mnr_neg o) (quad_square_complex o) bn256_g2_ok)
    (en_r _ _ _ _ _ _ _ _ _ _ (bn256_engine_facts o inj HP))
    (proj1 (cf_gen _ _ _ _ C2)) (cf_order _ _ _ _ C2) (cb c1) TB
    (conj_hom bn256_tower o inj HP (mnr_neg o) (quad_square_complex o) (mnr_neg_inj o inj _ HP) (sq_complex o inj _ HP))
    U1 U2 U3' _ _ _ G1 G2 G3 G4 (conj_invol bn256_tower o inj HP) P Q n Y0 EQ six_u_plus_2_naf N D N1 N2 N3 N4) as (OQ & kap & Kk & Nz & El).
  split; [exact OQ|].
  unfold bn256_pairing. rewrite <- (Z.mul_1_l ((p ^ 12 - 1) / r)).
  exact (pairing_value bn256_tower o inj o2 (bn256_fq2_mnr o) HP T (mod2_odd bn256_tower eq_refl) bn256_fr 1 _ _ _ _
    (eng_bn256 o inj HP) _ _ kap Kk Nz El).
Qed.

(** The same for pluto, with u negative: the digits denote -(6u+2) and the last two
    points are -pi Q^ and pi^2 Q^. *)
Theorem C47_pluto : forall F (o : fops F) inj, prime_field (modulus pluto_eris_fp) o inj ->
  let o2 := pluto_fp2 o in let o12 := pluto_fp12 o inj in
  let p := modulus pluto_eris_fp in let r := modulus pluto_eris_fq in
  let c1 := curve_of o inj pluto_consts in let c2 := curve_of o2 (inj2 inj) triton_consts in
  let g2 := gen_aff (inj2 inj) triton_consts in
  let w := w12 o2 in let pi := pt_map (fun z => fpowz o12 z p) in
  forall P Q n, on_curve o (ca c1) (cb c1) (Some (ax P, ay P)) ->
  Some (ax Q, ay Q) = pt_mulz o2 (ca c2) n (Some (ax g2, ay g2)) ->
  let Qh := Some (fmul o12 (emb2 o2 (ax Q)) (fmul o12 w w), fmul o12 (emb2 o2 (ay Q)) (fmul o12 (fmul o12 w w) w)) in
  on_curve o12 (f0 o12) (emb1 o o2 (cb c1)) Qh
  /\ pluto_pairing o inj P Q = Some (fpowz o12
       (miller_function_bn o12 (f0 o12) (skipn 1 (rev neg_six_u_plus_2_naf)) Qh (pt_neg o12 (pi Qh)) (pi (pi Qh))
          (emb1 o o2 (ax P)) (emb1 o o2 (ay P))) ((p ^ 12 - 1) / r)).
Proof.
  intros F o inj HP o2 o12 p r c1 c2 g2 w pi P Q n OP EQ Qh.
  pose proof (pluto_tower_facts o inj HP) as T.
  pose proof (fl_rl _ (pf_laws _ _ _ HP)) as HR.
  pose proof (crate_curve_facts _ _ _ _ (cv_pluto F o inj HP)) as C1.
  pose proof (crate_curve_facts _ _ _ _ (cv_triton F o inj HP)) as C2.
  assert (Hc0 : quad_conjugate o (f0 o2) = f0 o2) by exact (conj_0 o _ _ HR).
  assert (Hc1 : quad_conjugate o (f1 o2) = f1 o2) by exact (conj_1 o _ _ HR).
  pose proof (nth_inj2 o inj (mnr_m5 o) (quad_square o (mnr_m5 o)) pluto_c12 ltac:(vm_compute; lia)) as EU.
  destruct (psi_facts pluto_tower triton_consts triton_noroot o inj HP (mnr_m5 o) (quad_square o (mnr_m5 o))
    (mnr_m5_inj o inj _ HP) (quad_square_mul o (mnr_m5 o) _ HR (mnr_m5_inj o inj _ HP)) (tf_2 _ _ _ _ _ T) (tf_2z _ _ _ _ _ T) (tf_2fin _ _ _ _ _ T) triton_ok
    _ _ pluto_psi_ok) as (U1 & U2 & U3).
  pose proof (eq_trans U3 (mulz_mod _ _ (cf_laws _ _ _ _ C2) _ _ _ (proj1 (cf_gen _ _ _ _ C2)) (cf_order _ _ _ _ C2))) as U3'. clear U3.
  rewrite <- EU in U1, U2, U3'.
  destruct (bn_consts pluto_tower o inj HP (mnr_m5 o) (quad_square o (mnr_m5 o))
    (mnr_m5_inj o inj _ HP) (quad_square_mul o (mnr_m5 o) _ HR (mnr_m5_inj o inj _ HP)) (tf_2 _ _ _ _ _ T) _ _ _ _ pluto_consts_ok) as (G1 & G2 & G3 & G4).
  rewrite <- EU in G1, G2.
  destruct (bn_neg_ok_spec _ _ _ pluto_loop_ok) as (N & D & N1 & N2 & N3 & N4).
  pose proof (d_twist pluto_tower triton_consts o inj HP (mnr_m5 o) (quad_square o (mnr_m5 o))
    (mnr_m5_inj o inj _ HP) (quad_square_mul o (mnr_m5 o) _ HR (mnr_m5_inj o inj _ HP)) _ pluto_d_twist) as TB.
  pose proof (no_y0 o c1 (cf_laws _ _ _ _ C1) _ _ OP) as Y0.
  destruct (bn_neg_spec pluto_tower o inj o2 (pluto_mnr o inj) HP T (mod2_odd pluto_tower eq_refl)
    (quad_scale o _ _ _ HR (mnr_m5_inj o inj _ HP)) eq_refl Hc1 Hc0 triton_consts (cf_laws _ _ _ _ C2)
    (qc_a0 pluto_tower triton_consts triton_noroot o inj HP (mnr_m5 o) (quad_square o (mnr_m5 o)) triton_ok)
    (en_r _ _ _ _ _ _ _ _ _ _ (pluto_engine_facts o inj HP))
    (proj1 (cf_gen _ _ _ _ C2)) (cf_order _ _ _ _ C2) (cb c1) TB
    (conj_hom pluto_tower o inj HP (mnr_m5 o) (quad_square o (mnr_m5 o)) (mnr_m5_inj o inj _ HP) (quad_square_mul o (mnr_m5 o) _ HR (mnr_m5_inj o inj _ HP)))
    U1 U2 U3' _ _ _ G1 G2 G3 G4 (conj_invol pluto_tower o inj HP) P Q n Y0 EQ neg_six_u_plus_2_naf N D N1 N2 N3 N4) as (OQ & kap & Kk & Nz & El).
  split; [exact OQ|].
  unfold pluto_pairing. rewrite <- (Z.mul_1_l ((p ^ 12 - 1) / r)).
  exact (pairing_value pluto_tower o inj o2 (pluto_mnr o inj) HP T (mod2_odd pluto_tower eq_refl) pluto_eris_fq 1 _ _ _ _
    (eng_pluto o inj HP) _ _ kap Kk Nz El).
Qed.

(** bls12-381: Q any point of the twist with [r]Q the identity, w u = 1, Q^ = (x u^2, y u^3).
    The loop runs over |x| while x is negative: the result is the inverse of
    f_{|x|,Q^}(P)^(3(p^12-1)/r). *)
Theorem C47_bls12381 : forall F (o : fops F) inj, prime_field (modulus bls12381_fq) o inj ->
  let o2 := bls_fq2 o in let o12 := bls_fq12 o in
  let p := modulus bls12381_fq in let r := modulus bls12381_fr in
  let c1 := curve_of o inj bls_g1_consts in let c2 := curve_of o2 (inj2 inj) bls_g2_consts in
  forall u, fmul o12 u (w12 o2) = f1 o12 ->
  forall P Q, on_curve o (ca c1) (cb c1) (Some (ax P, ay P)) ->
  on_curve o2 (ca c2) (cb c2) (Some (ax Q, ay Q)) -> pt_mulz o2 (ca c2) r (Some (ax Q, ay Q)) = None ->
  let Qh := Some (fmul o12 (emb2 o2 (ax Q)) (fmul o12 u u), fmul o12 (emb2 o2 (ay Q)) (fmul o12 (fmul o12 u u) u)) in
  let f := fpowz o12 (miller_function o12 (f0 o12) (skipn 1 bls_x) Qh (emb1 o o2 (ax P)) (emb1 o o2 (ay P)))
    (3 * ((p ^ 12 - 1) / r)) in
  on_curve o12 (f0 o12) (emb1 o o2 (cb c1)) Qh
  /\ bls_pairing o inj P Q = Some (fpowz o12 f (p ^ 6)) /\ fmul o12 f (fpowz o12 f (p ^ 6)) = f1 o12.
Proof.
  intros F o inj HP o2 o12 p r c1 c2 u Hu P Q OP OQ RQ Qh f.
  pose proof (bls_tower_facts o inj HP) as T.
  pose proof (fl_rl _ (pf_laws _ _ _ HP)) as HR.
  pose proof (crate_curve_facts _ _ _ _ (cv_bls_g1 F o inj HP)) as C1.
  pose proof (crate_curve_facts _ _ _ _ (cv_bls_g2 F o inj HP)) as C2.
  destruct bls_loop_ok as (N & D).
  pose proof (m_twist bls12381_tower bls_g2_consts o inj HP (mnr_neg o) (quad_square_complex o)
    (mnr_neg_inj o inj _ HP) (sq_complex o inj _ HP) _ bls_m_twist) as TB.
  pose proof (no_y0 o c1 (cf_laws _ _ _ _ C1) _ _ OP) as Y0.
  pose proof (bls_engine_facts o inj HP) as EF.
  destruct (bls_spec bls12381_tower o inj o2 (bls_fq2_mnr o) HP T (mod2_odd bls12381_tower eq_refl)
    (quad_scale o _ _ _ HR (mnr_neg_inj o inj _ HP)) eq_refl c2 (cf_laws _ _ _ _ C2)
    (qc_a0 bls12381_tower bls_g2_consts bls_g2_noroot o inj HP (mnr_neg o) (quad_square_complex o) bls_g2_ok)
    r (en_r _ _ _ _ _ _ _ _ _ _ EF) (cb c1) TB u Hu P Q Y0 OQ RQ bls_x (bls_conj o) N D) as (OQ' & kap & Kk & Nz & El).
  split; [exact OQ'|].
  destruct (pairing_value_conj bls12381_tower o inj o2 (bls_fq2_mnr o) HP T (mod2_odd bls12381_tower eq_refl) bls12381_fr 3 _ _ _ _
    (eng_bls12381 o inj HP) _ kap Kk Nz) as (V1 & V2).
  split; [|exact V2]. unfold bls_pairing. etransitivity; [apply f_equal; exact El|]. exact V1.
Qed.

(** ** The hypotheses can be met *)
(** The generators, over the field of integers modulo p. *)
Example ex_C47_bn256 : let o := zp_ops (modulus bn256_fq) in let inj := zp_inj (modulus bn256_fq) in
  prime_field (modulus bn256_fq) o inj
  /\ let c1 := curve_of_bn256_g1 o inj bn256_g1_consts in let g1 := gen_aff inj bn256_g1_consts in
     let c2 := curve_of (bn256_fq2 o) (inj2 inj) bn256_g2_consts in let g2 := gen_aff (inj2 inj) bn256_g2_consts in
     on_curve o (ca c1) (cb c1) (Some (ax g1, ay g1))
     /\ Some (ax g2, ay g2) = pt_mulz (bn256_fq2 o) (ca c2) 1 (Some (ax g2, ay g2)).
Proof.
  assert (HP : prime_field (modulus bn256_fq) (zp_ops (modulus bn256_fq)) (zp_inj (modulus bn256_fq))) by (apply ex_field; in_fields).
  split; [exact HP|]. cbv zeta. split.
  - exact (proj1 (cf_gen _ _ _ _ (crate_curve_facts _ _ _ _ (cv_bn256_g1 _ _ _ HP)))).
  - pose proof (crate_curve_facts _ _ _ _ (cv_bn256_g2 _ _ _ HP)) as C2.
    symmetry. apply (mulz_1 _ _ (cf_laws _ _ _ _ C2)). exact (proj1 (cf_gen _ _ _ _ C2)).
Qed.
Example ex_C47_bls : let o := zp_ops (modulus bls12381_fq) in let inj := zp_inj (modulus bls12381_fq) in
  prime_field (modulus bls12381_fq) o inj
  /\ let c1 := curve_of o inj bls_g1_consts in let g1 := gen_aff inj bls_g1_consts in
     let c2 := curve_of (bls_fq2 o) (inj2 inj) bls_g2_consts in let g2 := gen_aff (inj2 inj) bls_g2_consts in
     on_curve o (ca c1) (cb c1) (Some (ax g1, ay g1)) /\ on_curve (bls_fq2 o) (ca c2) (cb c2) (Some (ax g2, ay g2))
     /\ pt_mulz (bls_fq2 o) (ca c2) (modulus bls12381_fr) (Some (ax g2, ay g2)) = None
     /\ exists u, fmul (bls_fq12 o) u (w12 (bls_fq2 o)) = f1 (bls_fq12 o).
Proof.
  assert (HP : prime_field (modulus bls12381_fq) (zp_ops (modulus bls12381_fq)) (zp_inj (modulus bls12381_fq))) by (apply ex_field; in_fields).
  split; [exact HP|]. cbv zeta. pose proof (crate_curve_facts _ _ _ _ (cv_bls_g2 _ _ _ HP)) as C2. split; [|split; [|split]].
  - exact (proj1 (cf_gen _ _ _ _ (crate_curve_facts _ _ _ _ (cv_bls_g1 _ _ _ HP)))).
  - exact (proj1 (cf_gen _ _ _ _ C2)).
  - exact (cf_order _ _ _ _ C2).
  - pose proof (bls_tower_facts _ _ HP) as T. pose proof (tf_12 _ _ _ _ _ T) as H12.
    destruct (fl_inv _ H12 _ (w_nz _ _ _ _ _ T)) as (u & _ & Eu). exists u. 
    pose proof (Rmul_comm (rl_ring _ (fl_rl _ H12))) as MC. etransitivity; [apply MC|exact Eu].
Qed.
Example ex_C47_pluto : let o := zp_ops (modulus pluto_eris_fp) in let inj := zp_inj (modulus pluto_eris_fp) in
  prime_field (modulus pluto_eris_fp) o inj
  /\ let c1 := curve_of o inj pluto_consts in let g1 := gen_aff inj pluto_consts in
     let c2 := curve_of (pluto_fp2 o) (inj2 inj) triton_consts in let g2 := gen_aff (inj2 inj) triton_consts in
     on_curve o (ca c1) (cb c1) (Some (ax g1, ay g1))
     /\ Some (ax g2, ay g2) = pt_mulz (pluto_fp2 o) (ca c2) 1 (Some (ax g2, ay g2)).
Proof.
  assert (HP : prime_field (modulus pluto_eris_fp) (zp_ops (modulus pluto_eris_fp)) (zp_inj (modulus pluto_eris_fp))) by (apply ex_field; in_fields).
  split; [exact HP|]. cbv zeta. split.
  - exact (proj1 (cf_gen _ _ _ _ (crate_curve_facts _ _ _ _ (cv_pluto _ _ _ HP)))).
  - pose proof (crate_curve_facts _ _ _ _ (cv_triton _ _ _ HP)) as C2.
    symmetry. apply (mulz_1 _ _ (cf_laws _ _ _ _ C2)). exact (proj1 (cf_gen _ _ _ _ C2)).
Qed.

Print Assumptions C41_double.
Print Assumptions C41_add.
Print Assumptions C41_add_equal_refuted.
Print Assumptions C41_digits.
Print Assumptions C41_families.
Print Assumptions C41_literals.
Print Assumptions C47_bn256.
Print Assumptions C47_pluto.
Print Assumptions C47_bls12381.
