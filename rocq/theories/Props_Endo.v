(** Property theorem C34: the endomorphism decomposition of scalars. *)
From Verif Require Import Base Word Limbs LimbsFacts Bytes Field SpecField Params FieldFacts.
From Verif Require Import Algebra Tower TowerFacts SpecCurve SpecCurveFacts Curve CurveFacts CurveGroup CrateCurves
  PrimeField ConstFacts CurveParams CurveInst Props_Curve Endo EndoFacts.
Local Open Scope Z_scope.

Ltac lattice := split; [vm_compute; reflexivity|split; [vm_compute; reflexivity|]];
  intros k c1 c2; cbn [gamma1 gamma2 eb1 eb2 val4 eval modulus zeta
    ENDO_PARAMS_BN ENDO_PARAMS_GRUMPKIN ENDO_PARAMS_BLS ENDO_PARAMS_EQ ENDO_PARAMS_EP
    bn256_fr bn256_fq bls12381_fr pasta_fp pasta_fq];
  rewrite W_val; intros; lia.
Lemma bn256_lattice : lattice_ok bn256_fr ENDO_PARAMS_BN 147946756881789319000765030803803410728 (-9931322734385697763).
Proof. lattice. Qed.
Lemma grumpkin_lattice : lattice_ok bn256_fq ENDO_PARAMS_GRUMPKIN 147946756881789319000765030803803410729 (-9931322734385697762).
Proof. lattice. Qed.
Lemma bls_lattice : lattice_ok bls12381_fr ENDO_PARAMS_BLS 228988810152649578064853576960394133503 (-1).
Proof. lattice. Qed.
Lemma eq_lattice : lattice_ok pasta_fp ENDO_PARAMS_EQ 98231058071186745657228807397848383488 (-98231058071100081932162823354453065729).
Proof. lattice. Qed.
Lemma ep_lattice : lattice_ok pasta_fq ENDO_PARAMS_EP 98231058071186745657228807397848383489 (-98231058071100081932162823354453065728).
Proof. lattice. Qed.

Lemma endo_users_ok : forall c q, In (c, q) endo_users ->
  odd_conf c /\ num_limbs c = 4%nat /\ params_words q /\ 2 * (W * W * W) < modulus c /\
  exists A1 A2, lattice_ok c q A1 A2.
Proof.
  assert (P : forall c q A1 A2, odd_conf c -> num_limbs c = 4%nat -> params_words q -> 2 * (W * W * W) < modulus c ->
    lattice_ok c q A1 A2 -> odd_conf c /\ num_limbs c = 4%nat /\ params_words q /\ 2 * (W * W * W) < modulus c /\
    exists A1 A2, lattice_ok c q A1 A2) by (intros; eauto 10).
  assert (Q : forall q, forallb (fun a => let '(a0, a1, a2, a3) := a in
      forallb (fun x => (0 <=? x) && (x <? 18446744073709551616)) [a0; a1; a2; a3])
    [gamma1 q; gamma2 q; eb1 q; eb2 q] = true -> params_words q).
  { assert (R : forall a : arr4, (let '(a0, a1, a2, a3) := a in
      forallb (fun x => (0 <=? x) && (x <? 18446744073709551616)) [a0; a1; a2; a3]) = true -> words4 a).
    { intros [[[a0 a1] a2] a3] H. rewrite forallb_forall in H. unfold words4. apply Forall_forall. intros x Hx.
      specialize (H x Hx). apply andb_prop in H as [H1 H2]. rewrite W_val. lia. }
    intros q H. cbn [forallb] in H. apply andb_prop in H as [H1 H]. apply andb_prop in H as [H2 H].
    apply andb_prop in H as [H3 H]. apply andb_prop in H as [H4 _].
    unfold params_words. auto. }
  intros c q H. cbn [endo_users In] in H.
  destruct H as [E|[E|[E|[E|[E|[]]]]]]; injection E as <- <-;
    [eapply P; [split| | | |exact bn256_lattice]|eapply P; [split| | | |exact grumpkin_lattice]
    |eapply P; [split| | | |exact bls_lattice]|eapply P; [split| | | |exact eq_lattice]
    |eapply P; [split| | | |exact ep_lattice]];
  lazymatch goal with
  | |- params_words _ => apply Q
  | |- context [W] => rewrite W_val
  | |- _ => idtac
  end; vm_compute; reflexivity.
Qed.

(** C34.  [endo_users]: the field and parameters of every use of [endo!].  The
    returned quadruple is two magnitudes below 2^128 with their signs; the signed
    integers satisfy [k = k1 - zeta*k2] modulo the group order. *)
Theorem C34_decompose : forall c q, In (c, q) endo_users -> forall a k,
  represents 4 (modulus c) a k -> exists k1 k2,
  decompose_scalar c q a = (Z.abs k1, k1 <? 0, Z.abs k2, k2 <? 0) /\
  Z.abs k1 < 2 ^ 128 /\ Z.abs k2 < 2 ^ 128 /\ (k1 - zeta c * k2) mod modulus c = k.
Proof.
  intros c q H a k Ha. destruct (endo_users_ok c q H) as (Hc & Hn & Hq & Hp & A1 & A2 & HL).
  rewrite <- Hn in Ha. destruct (decompose_spec c Hc Hn q A1 A2 Hq HL Hp a k Ha) as (k1 & k2 & D & B1 & B2 & E).
  exists k1, k2. split; [exact D|]. assert (V : W * W = 2 ^ 128) by (rewrite W_val; reflexivity).
  rewrite V in B1, B2. split; [lia|]. split; [lia|exact E].
Qed.
Print Assumptions C34_decompose.
(** The 512-bit product used by it is exact. *)
Theorem C34_mul_512 : forall a b, words4 a -> words4 b ->
  let '(lo, hi) := mul_512 a b in
  words4 lo /\ words4 hi /\ val4 lo + 2 ^ 256 * val4 hi = val4 a * val4 b.
Proof.
  intros a b Ha Hb. pose proof (mul_512_spec a b Ha Hb) as M. destruct (mul_512 a b) as [lo hi].
  replace (2 ^ 256) with (W * W * W * W) by (rewrite W_val; reflexivity). exact M.
Qed.
Print Assumptions C34_mul_512.
(** What the decomposition is for: on the subgroup of the generator of a curve
    with this scalar field, [k*P = k1*P - k2*endo(P)]. *)
Theorem C34_curve : forall F (o : fops F) c g sc z q, endo_curve o c g sc z -> In (sc, q) endo_users ->
  forall a k j, represents 4 (modulus sc) a k ->
  let P := pt_mulz o (ca c) j (Some (ax g, ay g)) in
  let signed (m : Z) (s : bool) Q := if s then pt_neg o (pt_mulz o (ca c) m Q) else pt_mulz o (ca c) m Q in
  let '(m1, s1, m2, s2) := decompose_scalar sc q a in
  pt_mulz o (ca c) k P = pt_add o (ca c) (signed m1 s1 P) (pt_neg o (signed m2 s2 (pt_endo o z P))).
Proof.
  intros F o c g sc z q HE HU a k j Ha P signed.
  pose proof (endo_curve_crate o c g sc z HE) as HV.
  pose proof (crate_curve_facts o c g sc HV) as Hf. pose proof (cf_laws _ _ _ _ Hf) as HC.
  destruct (C34_decompose sc q HU a k Ha) as (k1 & k2 & D & _ & _ & E). rewrite D.
  destruct (C35_endo F o c g sc z HE) as (_ & _ & Ez).
  pose proof (proj1 (cf_gen _ _ _ _ Hf)) as OG.
  assert (OP : on_curve o (ca c) (cb c) P) by exact (mulz_on o c HC j _ OG).
  assert (OE : on_curve o (ca c) (cb c) (pt_endo o z P)).
  { unfold P. rewrite (Ez j). apply (mulz_on o c HC). exact OP. }
  assert (S : forall m Q, on_curve o (ca c) (cb c) Q -> signed (Z.abs m) (m <? 0) Q = pt_mulz o (ca c) m Q).
  { intros m Q OQ. unfold signed. destruct (Z.ltb_spec m 0).
    - rewrite Z.abs_neq by lia. rewrite <- (mulz_opp o c HC) by exact OQ. now rewrite Z.opp_involutive.
    - now rewrite Z.abs_eq by lia. }
  rewrite (S k1 P OP), (S k2 _ OE). unfold P at 3. rewrite (Ez j). fold P.
  rewrite <- (mulz_mul o c HC k2 (zeta sc) P OP), <- (mulz_opp o c HC _ _ OP), <- (mulz_add o c HC _ _ _ OP).
  rewrite <- E. rewrite <- (mulz_mod o c HC (modulus sc) (k1 + - (k2 * zeta sc)) P OP).
  - f_equal. f_equal. ring.
  - unfold P. rewrite <- (mulz_mul o c HC _ _ _ OG). apply (proj2 (C44_generator F o c g sc HV)). exists j. ring.
Qed.
Print Assumptions C34_curve.
Example C34_example : let c := bls12381_fr in
  decompose_scalar c ENDO_PARAMS_BLS (to_token c (mont c (modulus c - 1))) =
    (228988810152649578064853576960394133503, false, 228988810152649578064853576960394133503, true) /\
  represents 4 (modulus c) (to_token c (mont c (modulus c - 1))) (modulus c - 1).
Proof.
  intros c. split; [vm_compute; reflexivity|].
  exact (const_repr c (proj1 (endo_users_ok c ENDO_PARAMS_BLS ltac:(cbn [endo_users In]; auto))) (modulus c - 1)).
Qed.
Example C34_curve_instance : let p := modulus bn256_fr in
  endo_curve (zp_ops p) (curve_of (zp_ops p) (zp_inj p) grumpkin_consts)
    (gen_aff (zp_inj p) grumpkin_consts) bn256_fq (zp_inj p (zeta bn256_fr)) /\
  In (bn256_fq, ENDO_PARAMS_GRUMPKIN) endo_users.
Proof.
  assert (HP : prime_field (modulus bn256_fr) (zp_ops (modulus bn256_fr)) (zp_inj (modulus bn256_fr)))
    by (apply ex_field; vm_compute; auto 20).
  split; [|cbn [endo_users In]; auto].
  apply (ev_prime _ _ _ grumpkin_consts);
    [cbn [endo_curves In]; auto 10|exact HP|reflexivity|exact (cv_grumpkin _ _ _ HP)].
Qed.
