(** The encodings of the eleven curves over the limb fields, and the facts about
    each that the generic theorems of SerdeFacts.v need. *)
From Verif Require Import Base Word Limbs Bytes Field SpecField LimbsFacts FieldFacts BytesFacts FieldSerdeFacts Params
  Algebra Pow Tower TowerFacts FiniteField PrimeField Primality Compute TowerParams TowerInst SpecCurve SpecCurveFacts Group
  Curve CurveFacts CurveGroup CurveParams CurveCheck CurveCerts CurveInst CrateCurves Inverse LimbField
  Sqrt SqrtFacts Sqrt2 Sqrt2Facts Props_Field2 Props_Sqrt2 Serde SerdeFacts OrderFacts.

(** ** Tables: curve, generator, scalar field, base codec, flag layout, sign
    ([false]: [standard_sign], [true]: [lexicographically_largest]). *)
Section Tables.
Notation fo c Hc := (lf_ops c Hc). Notation fi c Hc := (lf_inj c Hc).
Notation pc c Hc cc := (curve_of (fo c Hc) (fi c Hc) cc).
(** bn256/curve.rs:37-51, grumpkin/curve.rs:22-36, secp256k1/curve.rs:51-65,
    secq256k1/curve.rs:34-48, pluto_eris/curve.rs:117-131 and 162-176 *)
Inductive coded_six : forall {F : Type}, fops F -> cconf F -> aff F -> fconf -> codec F -> flag_conf -> bool -> Prop :=
| cs_bn256_g1 Hc : coded_six (fo bn256_fq Hc) (curve_of_bn256_g1 (fo bn256_fq Hc) (fi bn256_fq Hc) bn256_g1_consts)
    (gen_aff (fi bn256_fq Hc) bn256_g1_consts) bn256_fr (fp_codec bn256_fq Hc) TwoSpare false
| cs_grumpkin Hc : coded_six (fo bn256_fr Hc) (pc bn256_fr Hc grumpkin_consts)
    (gen_aff (fi bn256_fr Hc) grumpkin_consts) bn256_fq (fp_codec bn256_fr Hc) TwoSpare false
| cs_secp256k1 Hc : coded_six (fo secp256k1_fp Hc) (pc secp256k1_fp Hc secp256k1_consts)
    (gen_aff (fi secp256k1_fp Hc) secp256k1_consts) secp256k1_fq (fp_codec secp256k1_fp Hc) Extra false
| cs_secq256k1 Hc : coded_six (fo secp256k1_fq Hc) (pc secp256k1_fq Hc secq256k1_consts)
    (gen_aff (fi secp256k1_fq Hc) secq256k1_consts) secp256k1_fp (fp_codec secp256k1_fq Hc) Extra false
| cs_pluto Hc : coded_six (fo pluto_eris_fp Hc) (pc pluto_eris_fp Hc pluto_consts)
    (gen_aff (fi pluto_eris_fp Hc) pluto_consts) pluto_eris_fq (fp_codec pluto_eris_fp Hc) TwoSpare false
| cs_eris Hc : coded_six (fo pluto_eris_fq Hc) (pc pluto_eris_fq Hc eris_consts)
    (gen_aff (fi pluto_eris_fq Hc) eris_consts) pluto_eris_fp (fp_codec pluto_eris_fq Hc) TwoSpare false.
(** secp256r1/curve.rs:62-76, bls12381/g1.rs:18-44: the two curves over prime
    fields that have points with x = 0 *)
Inductive coded_x0 : forall {F : Type}, fops F -> cconf F -> aff F -> fconf -> codec F -> flag_conf -> bool -> Prop :=
| cs_secp256r1 Hc : coded_x0 (fo secp256r1_fp Hc) (pc secp256r1_fp Hc secp256r1_consts)
    (gen_aff (fi secp256r1_fp Hc) secp256r1_consts) secp256r1_fq (fp_codec secp256r1_fp Hc) Extra false
| cs_bls_g1 Hc : coded_x0 (fo bls12381_fq Hc) (pc bls12381_fq Hc bls_g1_consts)
    (gen_aff (fi bls12381_fq Hc) bls_g1_consts) bls12381_fr (fp_codec bls12381_fq Hc) ThreeSpare true.

Definition bn256_fq2_codec Hc : codec (quad (lf bn256_fq)) :=
  t2_codec (fo bn256_fq Hc) (fp_codec bn256_fq Hc) (fun a => SqRet (bn256_fq2_sqrt (fo bn256_fq Hc) a)).
Definition bls_fq2_codec Hc : codec (quad (lf bls12381_fq)) :=
  t2_codec (fo bls12381_fq Hc) (fp_codec bls12381_fq Hc) (fun a => SqRet (bls_fq2_sqrt (fo bls12381_fq Hc) a)).
(** [fuel] bounds the recursion depth of [Fp2::sqrt]. *)
Definition pluto_fp2_codec Hc fuel : codec (quad (lf pluto_eris_fp)) :=
  t2_codec (fo pluto_eris_fp Hc) (fp_codec pluto_eris_fp Hc) (pluto_fp2_sqrt (fo pluto_eris_fp Hc) (fi pluto_eris_fp Hc) fuel).

(** bn256/curve.rs:53-66, bls12381/g2.rs:66-105, pluto_eris/curve.rs:256-270 *)
Inductive coded_quad : forall (c : fconf) (Hc : odd_conf c), fops (quad (lf c)) -> cconf (quad (lf c)) -> aff (quad (lf c)) ->
  fconf -> codec (quad (lf c)) -> flag_conf -> bool -> Prop :=
| cs_bn256_g2 Hc : let o2 := bn256_fq2 (fo bn256_fq Hc) in
    coded_quad bn256_fq Hc o2 (curve_of o2 (inj2 (fi bn256_fq Hc)) bn256_g2_consts)
      (gen_aff (inj2 (fi bn256_fq Hc)) bn256_g2_consts) bn256_fr (bn256_fq2_codec Hc) TwoSpare false
| cs_bls_g2 Hc : let o2 := bls_fq2 (fo bls12381_fq Hc) in
    coded_quad bls12381_fq Hc o2 (curve_of o2 (inj2 (fi bls12381_fq Hc)) bls_g2_consts)
      (gen_aff (inj2 (fi bls12381_fq Hc)) bls_g2_consts) bls12381_fr (bls_fq2_codec Hc) ThreeSpare true
| cs_triton Hc fuel : (2 <= fuel)%nat -> let o2 := pluto_fp2 (fo pluto_eris_fp Hc) in
    coded_quad pluto_eris_fp Hc o2 (curve_of o2 (inj2 (fi pluto_eris_fp Hc)) triton_consts)
      (gen_aff (inj2 (fi pluto_eris_fp Hc)) triton_consts) pluto_eris_fq (pluto_fp2_codec Hc fuel) TwoSpare false.
End Tables.

Definition coded_prime {F} (o : fops F) c g sc k cf lex : Prop :=
  coded_six o c g sc k cf lex \/ coded_x0 o c g sc k cf lex.
(** All eleven. *)
Inductive coded : forall {F : Type}, fops F -> cconf F -> aff F -> fconf -> codec F -> flag_conf -> bool -> Prop :=
| cd_prime F (o : fops F) c g sc k cf lex : coded_prime o c g sc k cf lex -> coded o c g sc k cf lex
| cd_quad fc Hc o2 c g sc k cf lex : coded_quad fc Hc o2 c g sc k cf lex -> coded o2 c g sc k cf lex.

Record coded_facts {F} (o : fops F) (c : cconf F) (g : aff F) (sc : fconf) (k : codec F) (cf : flag_conf) : Prop := {
  cd_crate : crate_curve o c g sc;
  cd_laws : codec_laws o k;
  cd_spare : codec_spare k (spare_of cf) }.

Lemma lf_pf c (I : In c all_fields) Hc : prime_field (modulus c) (lf_ops c Hc) (lf_inj c Hc).
Proof. exact (lf_prime_field c Hc (field_sized c I) (field_prime c I)). Qed.
Lemma fp_laws c (I : In c all_fields) Hc : codec_laws (lf_ops c Hc) (fp_codec c Hc).
Proof.
  apply fp_codec_laws. intros x. apply fp_sqrt_spec; [exact I|]. apply lf_pf. exact I.
Qed.

Ltac in_fields := unfold all_fields; repeat (first [left; reflexivity | right]).
Ltac spare_tac := apply fp_codec_spare; [split; vm_compute; discriminate|apply Z.ltb_lt; vm_compute; reflexivity].

Lemma coded_six_facts {F} (o : fops F) c g sc k cf lex : coded_six o c g sc k cf lex -> coded_facts o c g sc k cf.
Proof.
  intros [Hc|Hc|Hc|Hc|Hc|Hc]; (constructor; [|apply fp_laws; in_fields|spare_tac]).
  - apply cv_bn256_g1. apply lf_pf; in_fields.
  - apply cv_grumpkin. apply lf_pf; in_fields.
  - apply cv_secp256k1. apply lf_pf; in_fields.
  - apply cv_secq256k1. apply lf_pf; in_fields.
  - apply cv_pluto. apply lf_pf; in_fields.
  - apply cv_eris. apply lf_pf; in_fields.
Qed.
Lemma coded_x0_facts {F} (o : fops F) c g sc k cf lex : coded_x0 o c g sc k cf lex -> coded_facts o c g sc k cf.
Proof.
  intros [Hc|Hc]; (constructor; [|apply fp_laws; in_fields|spare_tac]).
  - apply cv_secp256r1. apply lf_pf; in_fields.
  - apply cv_bls_g1. apply lf_pf; in_fields.
Qed.
Lemma coded_quad_facts fc Hc o c g sc k cf lex : coded_quad fc Hc o c g sc k cf lex -> coded_facts o c g sc k cf.
Proof.
  intros [Hc' o2|Hc' o2|Hc' fuel Hf o2]; constructor.
  - apply cv_bn256_g2. apply lf_pf; in_fields.
  - apply t2_laws; [apply fp_laws; in_fields|]. intros a _. eexists. split; [reflexivity|].
    exact (C24_bn256 _ _ _ (lf_pf bn256_fq ltac:(in_fields) Hc') a).
  - apply (t2_spare (lf_ops bn256_fq Hc') (fp_codec bn256_fq Hc')); [apply fp_laws; in_fields|spare_tac].
  - apply cv_bls_g2. apply lf_pf; in_fields.
  - apply t2_laws; [apply fp_laws; in_fields|]. intros a _. eexists. split; [reflexivity|].
    exact (C24_bls12381 _ _ _ (lf_pf bls12381_fq ltac:(in_fields) Hc') a).
  - apply (t2_spare (lf_ops bls12381_fq Hc') (fp_codec bls12381_fq Hc')); [apply fp_laws; in_fields|spare_tac].
  - apply cv_triton. apply lf_pf; in_fields.
  - apply t2_laws; [apply fp_laws; in_fields|]. intros a Ha.
    exact (C24_pluto_partial _ _ _ (lf_pf pluto_eris_fp ltac:(in_fields) Hc') fuel a Hf Ha).
  - apply (t2_spare (lf_ops pluto_eris_fp Hc') (fp_codec pluto_eris_fp Hc')); [apply fp_laws; in_fields|spare_tac].
Qed.
Lemma coded_prime_facts {F} (o : fops F) c g sc k cf lex : coded_prime o c g sc k cf lex -> coded_facts o c g sc k cf.
Proof. intros [X|X]; [exact (coded_six_facts _ _ _ _ _ _ _ X)|exact (coded_x0_facts _ _ _ _ _ _ _ X)]. Qed.
Lemma coded_all_facts {F} (o : fops F) c g sc k cf lex : coded o c g sc k cf lex -> coded_facts o c g sc k cf.
Proof.
  intros [F' o' c' g' sc' k' cf' lex' X|fc Hc o2 c' g' sc' k' cf' lex' X];
    [exact (coded_prime_facts _ _ _ _ _ _ _ X)|exact (coded_quad_facts _ _ _ _ _ _ _ _ _ X)].
Qed.
Lemma coded_curve_laws {F} (o : fops F) c g sc k cf : coded_facts o c g sc k cf -> curve_laws o c.
Proof. intros X. exact (cf_laws _ _ _ _ (crate_curve_facts _ _ _ _ (cd_crate _ _ _ _ _ _ X))). Qed.

(** ** The prime-field codecs never panic *)
Lemma coded_prime_total {F} (o : fops F) c g sc k cf lex : coded_prime o c g sc k cf lex -> codec_total k.
Proof. intros [X|X]; destruct X; apply fp_codec_total. Qed.

(** ** Signs *)
Definition sign_ok {F} (o : fops F) (k : codec F) lex (y : F) : Prop :=
  y_sign k lex (fneg o y) = negb (y_sign k lex y).
Lemma fp_sign_ok c (I : In c all_fields) Hc y : y <> f0 (lf_ops c Hc) -> sign_ok (lf_ops c Hc) (fp_codec c Hc) false y.
Proof.
  intros N. unfold sign_ok, y_sign. rewrite !(fp_parity c Hc).
  exact (fp_parity_neg c Hc (field_prime c I) (field_sized c I) y N).
Qed.

Lemma six_sign_ok {F} (o : fops F) c g sc k cf lex : coded_six o c g sc k cf lex ->
  forall y, y <> f0 o -> sign_ok o k lex y.
Proof. intros [Hc|Hc|Hc|Hc|Hc|Hc] y N; apply fp_sign_ok; auto; in_fields. Qed.

(** *** No point of bls12381 G1 has y = (p-1)/2 or (p+1)/2 *)
Lemma bls_g1_half_chk : let p := modulus bls12381_fq in
  ((p - 1) mod 3 =? 0) = true
   /\ (((p + 1) / 2 * ((p + 1) / 2)) mod p =? ((p - 1) / 2 * ((p - 1) / 2)) mod p) = true
   /\ (((p - 1) / 2 * ((p - 1) / 2) - 4) mod p =? 0) = false
   /\ (bpow ((p - 1) / 2 * ((p - 1) / 2) - 4) ((p - 1) / 3) p =? 1) = false.
Proof. vm_compute. repeat split. Qed.
Lemma bls_g1_no_half {F} (o : fops F) inj (HP : prime_field (modulus bls12381_fq) o inj) x h :
  let p := modulus bls12381_fq in h = (p - 1) / 2 \/ h = (p + 1) / 2 ->
  ~ on_curve o (ca (curve_of o inj bls_g1_consts)) (cb (curve_of o inj bls_g1_consts)) (Some (x, inj h)).
Proof.
  intros p Hh. destruct bls_g1_half_chk as (C & X1 & X0 & X). fold p in C, X1, X0, X.
  apply Z.eqb_eq in C, X1. apply Z.eqb_neq in X, X0.
  pose proof (pf_powz_nonresidue p o inj HP _ 3 ltac:(lia) C X0 X x) as N.
  pose proof (pf_hom _ _ _ HP) as Hm. pose proof (fl_rl _ (pf_laws _ _ _ HP)) as HR.
  cbn [on_curve curve_of ca cb]. intros E. apply N.
  assert (E2 : fmul o (inj h) (inj h) = inj ((p - 1) / 2 * ((p - 1) / 2))).
  { rewrite <- (zh_mul _ _ Hm). apply (pf_eq _ _ _ HP). destruct Hh as [-> | ->]; [reflexivity|exact X1]. }
  rewrite E2 in E. rewrite (inj_sub _ HR _ Hm), E. cbn [cc_a cc_b bls_g1_consts]. rewrite (zh_0 _ _ Hm).
  unfold fpowz, fpow_pos. destruct (rl_ring _ HR) as [A0 A1 A2 M1 M2 M3 D S N1]. cbv zeta.
  rewrite S. clear E E2.
  assert (Z0 : fmul o (f0 o) x = f0 o).
  { assert (Q : fadd o (fmul o (f0 o) x) (fmul o (f0 o) x) = fmul o (f0 o) x) by (rewrite <- D, A0; reflexivity).
    apply (f_equal (fun z => fadd o z (fneg o (fmul o (f0 o) x)))) in Q. rewrite <- A2, N1, (A1 _ (f0 o)), A0 in Q. exact Q. }
  rewrite Z0. rewrite (A1 _ (f0 o)), A0, <- A2, N1, (A1 _ (f0 o)), A0. apply M2.
Qed.

Lemma val_inj c (I : In c all_fields) Hc (y : lf c) : y = lf_inj c Hc (lf_val c y).
Proof. symmetry. exact (zr_inj_val _ _ _ _ (lf_zrep c Hc (field_sized c I) (field_prime c I)) y). Qed.

Lemma prime_sign_ok {F} (o : fops F) c g sc k cf lex : coded_prime o c g sc k cf lex ->
  forall x y, on_curve o (ca c) (cb c) (Some (x, y)) -> sign_ok o k lex y.
Proof.
  intros X x y On.
  pose proof (coded_curve_laws _ _ _ _ _ _ (coded_prime_facts _ _ _ _ _ _ _ X)) as HC.
  pose proof (no_y0 o c HC x y On) as Ny. clear HC.
  destruct X as [X|X]; [exact (six_sign_ok _ _ _ _ _ _ _ X y Ny)|].
  destruct X as [Hc|Hc]; [apply fp_sign_ok; [in_fields|exact Ny]|].
  assert (I : In bls12381_fq all_fields) by in_fields.
  unfold sign_ok, y_sign. apply (fp_lex_neg bls12381_fq Hc (field_prime _ I) (field_sized _ I) y Ny).
  - intros E. rewrite (val_inj _ I Hc y), E in On.
    exact (bls_g1_no_half _ _ (lf_pf _ I Hc) x _ (or_introl eq_refl) On).
  - intros E. rewrite (val_inj _ I Hc y), E in On.
    exact (bls_g1_no_half _ _ (lf_pf _ I Hc) x _ (or_intror eq_refl) On).
Qed.

(** ** No points with x = 0 when b is a non-square *)
Definition nonsq_chk (p b : Z) : bool :=
  (2 <? p) && ((p - 1) mod 2 =? 0) && negb (b mod p =? 0) && negb (bpow b ((p - 1) / 2) p =? 1).
Lemma nonsq_ok p b {F} (o : fops F) inj : prime_field p o inj -> nonsq_chk p b = true -> forall y, fmul o y y <> inj b.
Proof.
  intros HP C. unfold nonsq_chk in C. repeat (apply andb_prop in C; let X := fresh "X" in destruct C as [C X]).
  apply Z.ltb_lt in C. apply Z.eqb_eq in X1. apply negb_true_iff, Z.eqb_neq in X, X0.
  exact (pf_nonsquare p o inj HP b C X1 X0 X).
Qed.
Lemma b_nonsquares :
  nonsq_chk (modulus bn256_fq) (cc_b bn256_g1_consts) = true /\ nonsq_chk (modulus bn256_fr) (cc_b grumpkin_consts) = true
  /\ nonsq_chk (modulus secp256k1_fp) (cc_b secp256k1_consts) = true
  /\ nonsq_chk (modulus secp256k1_fq) (cc_b secq256k1_consts) = true
  /\ nonsq_chk (modulus pluto_eris_fp) (cc_b pluto_consts) = true
  /\ nonsq_chk (modulus pluto_eris_fq) (cc_b eris_consts) = true.
Proof. vm_compute. repeat split. Qed.

Section X0.
Context {F : Type} (o : fops F) (H : field_laws o).
Add Field FX0 : (field_thy o H).
Lemma on_x0 a b y : on_curve o a b (Some (f0 o, y)) -> fmul o y y = b.
Proof. cbn [on_curve]. intros E. rewrite E. ring. Qed.
Lemma x0_on a b y : fmul o y y = b -> on_curve o a b (Some (f0 o, y)).
Proof. cbn [on_curve]. intros E. rewrite E. ring. Qed.
End X0.
Lemma six_no_x0 {F} (o : fops F) c g sc k cf lex : coded_six o c g sc k cf lex ->
  forall y, ~ on_curve o (ca c) (cb c) (Some (f0 o, y)).
Proof.
  intros X y On.
  pose proof (cl_field _ _ (coded_curve_laws _ _ _ _ _ _ (coded_six_facts _ _ _ _ _ _ _ X))) as H.
  apply (on_x0 o H) in On. clear H. destruct b_nonsquares as (B1 & B2 & B3 & B4 & B5 & B6).
  destruct X as [Hc|Hc|Hc|Hc|Hc|Hc]; revert On; cbn [cb curve_of curve_of_bn256_g1].
  - apply (nonsq_ok _ _ _ _ (lf_pf bn256_fq ltac:(in_fields) Hc) B1).
  - apply (nonsq_ok _ _ _ _ (lf_pf bn256_fr ltac:(in_fields) Hc) B2).
  - apply (nonsq_ok _ _ _ _ (lf_pf secp256k1_fp ltac:(in_fields) Hc) B3).
  - apply (nonsq_ok _ _ _ _ (lf_pf secp256k1_fq ltac:(in_fields) Hc) B4).
  - apply (nonsq_ok _ _ _ _ (lf_pf pluto_eris_fp ltac:(in_fields) Hc) B5).
  - apply (nonsq_ok _ _ _ _ (lf_pf pluto_eris_fq ltac:(in_fields) Hc) B6).
Qed.

(** *** The quadratic curves: b is a non-square because its norm is *)
Definition norm_z (beta : Z) (b : Z * Z) : Z := fst b * fst b - beta * (snd b * snd b).
Lemma b2_nonsquares :
  nonsq_chk (modulus bn256_fq) (norm_z (t_beta bn256_tower) (cc_b bn256_g2_consts)) = true
  /\ nonsq_chk (modulus bls12381_fq) (norm_z (t_beta bls12381_tower) (cc_b bls_g2_consts)) = true
  /\ nonsq_chk (modulus pluto_eris_fp) (norm_z (t_beta pluto_tower) (cc_b triton_consts)) = true.
Proof. vm_compute. repeat split. Qed.
Lemma norm_nonsquare p {F} (o : fops F) inj (HP : prime_field p o inj) mnr beta b sq :
  (forall x, mnr x = fmul o (inj beta) x) -> nonsq_chk p (norm_z beta b) = true ->
  forall y, fmul (quad_ops o mnr sq) y y <> inj2 inj b.
Proof.
  intros Hm C y E. cbn [quad_ops fmul] in E.
  pose proof (fl_rl _ (pf_laws _ _ _ HP)) as HR. pose proof (pf_hom _ _ _ HP) as Hh.
  apply (nonsq_ok p _ o inj HP C (quad_norm o mnr y)).
  rewrite <- (quad_norm_mul o mnr _ HR Hm), E, (quad_norm_val o mnr _ HR Hm).
  unfold inj2, norm_z. cbn [q0 q1]. rewrite (inj_sub _ HR _ Hh), !(zh_mul _ _ Hh). reflexivity.
Qed.
Lemma quad_no_x0 fc Hc o c g sc k cf lex : coded_quad fc Hc o c g sc k cf lex ->
  forall y, ~ on_curve o (ca c) (cb c) (Some (f0 o, y)).
Proof.
  intros X y On.
  pose proof (cl_field _ _ (coded_curve_laws _ _ _ _ _ _ (coded_quad_facts _ _ _ _ _ _ _ _ _ X))) as H.
  apply (on_x0 o H) in On. clear H. destruct b2_nonsquares as (B1 & B2 & B3).
  destruct X as [Hc' o2|Hc' o2|Hc' fuel Hf o2]; revert On; cbn [cb curve_of].
  - pose proof (lf_pf bn256_fq ltac:(in_fields) Hc') as HP.
    exact (norm_nonsquare _ _ _ HP _ _ _ _ (mnr_neg_inj _ _ _ HP) B1 y).
  - pose proof (lf_pf bls12381_fq ltac:(in_fields) Hc') as HP.
    exact (norm_nonsquare _ _ _ HP _ _ _ _ (mnr_neg_inj _ _ _ HP) B2 y).
  - pose proof (lf_pf pluto_eris_fp ltac:(in_fields) Hc') as HP.
    exact (norm_nonsquare _ _ _ HP _ _ _ _ (mnr_m5_inj _ _ _ HP) B3 y).
Qed.

(** *** Signs of the quadratic curves *)
Definition half_free {c} (x : lf c) : Prop :=
  lf_val c x <> (modulus c - 1) / 2 /\ lf_val c x <> (modulus c + 1) / 2.
(** What it takes for the sign bit to tell y from -y. *)
Definition sign_clear {c} (o : fops (lf c)) (lex : bool) (y : quad (lf c)) : Prop :=
  if lex then (q1 y <> f0 o /\ half_free (q1 y)) \/ (q1 y = f0 o /\ q0 y <> f0 o /\ half_free (q0 y))
  else q0 y <> f0 o.
Lemma t2_ysign c Hc sqrt2 y :
  y_sign (t2_codec (lf_ops c Hc) (fp_codec c Hc) sqrt2) false y = Z.odd (lf_val c (q0 y)).
Proof.
  unfold y_sign. cbn [t2_codec k_to_repr]. unfold t2_to_repr.
  rewrite <- (fp_parity c Hc (q0 y)). f_equal. f_equal.
  pose proof (to_repr_spec c Hc _ _ (lf_repr c Hc (q0 y))) as (L & _).
  cbn [fp_codec k_to_repr]. destruct (to_repr c (limbs (q0 y))) as [|z l]; [|reflexivity].
  exfalso. pose proof (num_limbs_pos c Hc). unfold size in L. cbn [length] in L. lia.
Qed.
Lemma quad_sign_ok c (I : In c all_fields) Hc lex y mnr sq sqrt2 : sign_clear (lf_ops c Hc) lex y ->
  sign_ok (quad_ops (lf_ops c Hc) mnr sq) (t2_codec (lf_ops c Hc) (fp_codec c Hc) sqrt2) lex y.
Proof.
  intros S. unfold sign_ok. pose proof (field_prime c I) as Hp. pose proof (field_sized c I) as Hs.
  destruct lex; unfold sign_clear in S.
  - unfold y_sign. cbn [t2_codec k_lex]. unfold t2_lex. cbn [quad_ops fneg quad_neg q0 q1].
    pose proof (pf_is0 _ _ _ (lf_pf c I Hc)) as Z0. unfold is0_law in Z0.
    pose proof (pf_laws _ _ _ (lf_pf c I Hc)) as H.
    destruct S as [[N S]|(E & N & S)].
    + rewrite (fp_lex_neg c Hc Hp Hs _ N (proj1 S) (proj2 S)).
      assert (X1 : fis0 (lf_ops c Hc) (q1 y) = false).
      { destruct (fis0 (lf_ops c Hc) (q1 y)) eqn:X; [|reflexivity]. apply Z0 in X. contradiction. }
      assert (X2 : fis0 (lf_ops c Hc) (fneg (lf_ops c Hc) (q1 y)) = false).
      { destruct (fis0 (lf_ops c Hc) (fneg (lf_ops c Hc) (q1 y))) eqn:X; [|reflexivity]. apply Z0 in X.
        exfalso. apply N. apply (neg_zero_iff (lf_ops c Hc) H). exact X. }
      rewrite X1, X2. cbn [andb]. rewrite !Bool.orb_false_r. reflexivity.
    + assert (X1 : fneg (lf_ops c Hc) (q1 y) = f0 (lf_ops c Hc)) by (apply (neg_zero_iff _ H); exact E).
      rewrite X1, E, (fp_lex_neg c Hc Hp Hs _ N (proj1 S) (proj2 S)).
      assert (Xz : fis0 (lf_ops c Hc) (f0 (lf_ops c Hc)) = true) by (apply Z0; reflexivity).
      rewrite Xz. cbn [andb].
      assert (Lz : k_lex (fp_codec c Hc) (f0 (lf_ops c Hc)) = false).
      { rewrite (fp_lex c Hc). rewrite (zr_0 _ _ _ _ (lf_zrep c Hc Hs Hp)). apply Z.leb_gt.
        apply Z.div_str_pos. pose proof (p_gt1 c Hc) as G. pose proof (proj2 Hc) as Od.
        assert (modulus c <> 2) by (intros E2; rewrite E2 in Od; discriminate). lia. }
      rewrite Lz. cbn [orb]. reflexivity.
  - rewrite !t2_ysign. cbn [quad_ops fneg quad_neg q0]. exact (fp_parity_neg c Hc Hp Hs _ S).
Qed.
Lemma coded_quad_sign fc Hc o c g sc k cf lex : coded_quad fc Hc o c g sc k cf lex ->
  forall y, sign_clear (lf_ops fc Hc) lex y -> sign_ok o k lex y.
Proof.
  intros [Hc' o2|Hc' o2|Hc' fuel Hf o2] y S; apply quad_sign_ok; auto; in_fields.
Qed.

(** ** The seven curves whose subgroup is the whole group *)
Lemma order_checks : let ok (p r : Z) := ((2 * p + 1 <? 3 * r) && Z.odd r)%bool = true in
  ok (modulus bn256_fq) (modulus bn256_fr) /\ ok (modulus bn256_fr) (modulus bn256_fq)
  /\ ok (modulus secp256k1_fp) (modulus secp256k1_fq) /\ ok (modulus secp256k1_fq) (modulus secp256k1_fp)
  /\ ok (modulus pluto_eris_fp) (modulus pluto_eris_fq) /\ ok (modulus pluto_eris_fq) (modulus pluto_eris_fp)
  /\ ok (modulus secp256r1_fp) (modulus secp256r1_fq).
Proof. vm_compute. repeat split. Qed.

Lemma whole_of {F} p (o : fops F) inj c g sc : prime_field p o inj -> In sc all_fields -> crate_curve o c g sc ->
  ((2 * p + 1 <? 3 * modulus sc) && Z.odd (modulus sc))%bool = true ->
  forall P, on_curve o (ca c) (cb c) P ->
    (exists n, P = pt_mulz o (ca c) n (Some (ax g, ay g))) /\ pt_mulz o (ca c) (modulus sc) P = None.
Proof.
  intros HP I HV E. apply andb_prop in E. destruct E as [E1 E2]. apply Z.ltb_lt in E1.
  pose proof (crate_curve_facts o c g sc HV) as CF.
  apply (whole_group o c (cf_laws _ _ _ _ CF) p (prime_field_finite _ _ _ HP) (modulus sc) (ax g, ay g)
    (field_prime sc I) E2 E1 (proj1 (cf_gen _ _ _ _ CF)) (cf_order _ _ _ _ CF)).
Qed.

(** Over any representation of the base field. *)
Inductive whole_curve : forall {F : Type}, fops F -> cconf F -> aff F -> fconf -> Prop :=
| wc_bn256_g1 F (o : fops F) inj : prime_field (modulus bn256_fq) o inj ->
    whole_curve o (curve_of_bn256_g1 o inj bn256_g1_consts) (gen_aff inj bn256_g1_consts) bn256_fr
| wc_grumpkin F (o : fops F) inj : prime_field (modulus bn256_fr) o inj ->
    whole_curve o (curve_of o inj grumpkin_consts) (gen_aff inj grumpkin_consts) bn256_fq
| wc_secp256k1 F (o : fops F) inj : prime_field (modulus secp256k1_fp) o inj ->
    whole_curve o (curve_of o inj secp256k1_consts) (gen_aff inj secp256k1_consts) secp256k1_fq
| wc_secq256k1 F (o : fops F) inj : prime_field (modulus secp256k1_fq) o inj ->
    whole_curve o (curve_of o inj secq256k1_consts) (gen_aff inj secq256k1_consts) secp256k1_fp
| wc_secp256r1 F (o : fops F) inj : prime_field (modulus secp256r1_fp) o inj ->
    whole_curve o (curve_of o inj secp256r1_consts) (gen_aff inj secp256r1_consts) secp256r1_fq
| wc_pluto F (o : fops F) inj : prime_field (modulus pluto_eris_fp) o inj ->
    whole_curve o (curve_of o inj pluto_consts) (gen_aff inj pluto_consts) pluto_eris_fq
| wc_eris F (o : fops F) inj : prime_field (modulus pluto_eris_fq) o inj ->
    whole_curve o (curve_of o inj eris_consts) (gen_aff inj eris_consts) pluto_eris_fp.
Theorem whole_curve_order {F} (o : fops F) c g sc : whole_curve o c g sc ->
  forall P, on_curve o (ca c) (cb c) P ->
    (exists n, P = pt_mulz o (ca c) n (Some (ax g, ay g))) /\ pt_mulz o (ca c) (modulus sc) P = None.
Proof.
  intros HV. destruct order_checks as (B1 & B2 & B3 & B4 & B5 & B6 & B7).
  destruct HV as [F o inj HP|F o inj HP|F o inj HP|F o inj HP|F o inj HP|F o inj HP|F o inj HP].
  - exact (whole_of _ o inj _ _ bn256_fr HP ltac:(in_fields) (cv_bn256_g1 F o inj HP) B1).
  - exact (whole_of _ o inj _ _ bn256_fq HP ltac:(in_fields) (cv_grumpkin F o inj HP) B2).
  - exact (whole_of _ o inj _ _ secp256k1_fq HP ltac:(in_fields) (cv_secp256k1 F o inj HP) B3).
  - exact (whole_of _ o inj _ _ secp256k1_fp HP ltac:(in_fields) (cv_secq256k1 F o inj HP) B4).
  - exact (whole_of _ o inj _ _ secp256r1_fq HP ltac:(in_fields) (cv_secp256r1 F o inj HP) B7).
  - exact (whole_of _ o inj _ _ pluto_eris_fq HP ltac:(in_fields) (cv_pluto F o inj HP) B5).
  - exact (whole_of _ o inj _ _ pluto_eris_fp HP ltac:(in_fields) (cv_eris F o inj HP) B6).
Qed.

(** ** Elements of the quadratic extensions *)
Lemma t2_encodings c : In c all_fields -> forall Hc,
  (forall a, length (t2_to_bytes (fp_codec c Hc) a) = (2 * size c)%nat /\ is_bytes (t2_to_bytes (fp_codec c Hc) a)
     /\ t2_from_bytes (fp_codec c Hc) (t2_to_bytes (fp_codec c Hc) a) = SqRet (Some a))
  /\ (forall l, is_bytes l -> length l = (2 * size c)%nat -> match t2_from_bytes (fp_codec c Hc) l with
       | SqRet (Some a) => t2_to_bytes (fp_codec c Hc) a = l
       | SqRet None => False
       | SqPanic => forall a, t2_to_bytes (fp_codec c Hc) a <> l
       | SqDiverge => False
       end)
  /\ (forall a, length (t2_to_repr (fp_codec c Hc) a) = (2 * size c)%nat /\ is_bytes (t2_to_repr (fp_codec c Hc) a)
     /\ t2_from_repr c Hc (t2_to_repr (fp_codec c Hc) a) = SqRet (Some a)).
Proof.
  intros I Hc. pose proof (fp_laws c I Hc) as HK.
  assert (L : forall x, length (k_to_bytes (fp_codec c Hc) x) = size c) by (intros x; apply (kl_to _ _ HK)).
  assert (B : forall x, is_bytes (k_to_bytes (fp_codec c Hc) x)) by (intros x; apply (kl_to _ _ HK)).
  split; [|split].
  - intros a. unfold t2_to_bytes, t2_from_bytes. rewrite app_length, !L. split; [lia|].
    split; [apply is_bytes_app; auto|].
    destruct (cut (fp_codec c Hc) (k_to_bytes (fp_codec c Hc) (q0 a)) (k_to_bytes (fp_codec c Hc) (q1 a)) (L _)) as [E1 E2].
    rewrite E1, E2. rewrite firstn_all2 by (rewrite L; cbn; lia). rewrite !(kl_from_to _ _ HK). cbn [unwrap_pair].
    destruct a; reflexivity.
  - intros l Hl Hn. unfold t2_from_bytes. cbn [k_size fp_codec].
    assert (L1 : length (firstn (size c) l) = size c) by (rewrite firstn_length; lia).
    assert (L2 : length (firstn (size c) (skipn (size c) l)) = size c) by (rewrite firstn_length, skipn_length; lia).
    assert (El : l = firstn (size c) l ++ firstn (size c) (skipn (size c) l)).
    { rewrite (firstn_all2 (skipn (size c) l)) by (rewrite skipn_length; lia). symmetry. apply firstn_skipn. }
    pose proof (kl_from _ _ HK _ (is_bytes_firstn _ l Hl) L1) as S1.
    pose proof (kl_from _ _ HK _ (is_bytes_firstn (size c) _ (is_bytes_skipn (size c) l Hl)) L2) as S2.
    assert (Nn : forall a, t2_to_bytes (fp_codec c Hc) a = l ->
      k_to_bytes (fp_codec c Hc) (q0 a) = firstn (size c) l
      /\ k_to_bytes (fp_codec c Hc) (q1 a) = firstn (size c) (skipn (size c) l)).
    { intros a Ea. unfold t2_to_bytes in Ea. rewrite <- Ea.
      destruct (cut (fp_codec c Hc) (k_to_bytes (fp_codec c Hc) (q0 a)) (k_to_bytes (fp_codec c Hc) (q1 a)) (L _)) as [E1 E2].
      change (k_size (fp_codec c Hc)) with (size c) in E1, E2. rewrite E1, E2. rewrite firstn_all2 by (rewrite L; lia). auto. }
    destruct (k_from_bytes (fp_codec c Hc) (firstn (size c) l)) as [| |[a|]] eqn:D1;
    destruct (k_from_bytes (fp_codec c Hc) (firstn (size c) (skipn (size c) l))) as [| |[b|]] eqn:D2;
      try contradiction; try (cbn in D1; discriminate); try (cbn in D2; discriminate); rewrite ?D1, ?D2;
      cbn [unwrap_pair].
    + unfold t2_to_bytes. cbn [q0 q1]. rewrite S1, S2. symmetry. exact El.
    + intros a' Ea. apply (S2 (q1 a')). apply (proj2 (Nn _ Ea)).
    + intros a' Ea. apply (S1 (q0 a')). apply (proj1 (Nn _ Ea)).
    + intros a' Ea. apply (S1 (q0 a')). apply (proj1 (Nn _ Ea)).
  - intros a. unfold t2_to_repr, t2_from_repr. cbn [k_to_repr fp_codec].
    destruct (to_repr_spec c Hc _ _ (lf_repr c Hc (q0 a))) as (A1 & A2 & A3).
    destruct (to_repr_spec c Hc _ _ (lf_repr c Hc (q1 a))) as (B1 & B2 & B3).
    split; [rewrite app_length; lia|]. split; [apply is_bytes_app; auto|].
    replace (firstn (size c) (to_repr c (limbs (q0 a)) ++ to_repr c (limbs (q1 a)))) with (to_repr c (limbs (q0 a))).
    2: { rewrite firstn_app, A1, Nat.sub_diag, firstn_O, app_nil_r. symmetry. apply firstn_all2. lia. }
    replace (skipn (size c) (to_repr c (limbs (q0 a)) ++ to_repr c (limbs (q1 a)))) with (to_repr c (limbs (q1 a))).
    2: { rewrite skipn_app, A1, Nat.sub_diag, skipn_O. rewrite skipn_all2 by lia. reflexivity. }
    assert (R : forall x : lf c, from_repr c (to_repr c (limbs x)) = Some (limbs x)).
    { intros x. destruct (to_repr_spec c Hc _ _ (lf_repr c Hc x)) as (X1 & X2 & X3).
      pose proof (from_repr_spec c Hc _ X2 X1) as S. rewrite X3 in S. pose proof (repr_bound c _ _ (lf_repr c Hc x)).
      destruct (from_repr c (to_repr c (limbs x))) as [w|]; [|lia]. f_equal.
      apply (repr_inj c _ _ (lf_val c x)); [exact S|apply lf_repr; exact Hc]. }
    rewrite !R. cbn [option_map]. rewrite !(lf_up_limbs c Hc). cbn [unwrap_pair]. destruct a; reflexivity.
Qed.
Lemma t2_uniform c : In c all_fields -> forall Hc half l, is_bytes l -> length l = (2 * half)%nat ->
  (half <= 2 * size c)%nat ->
  let r := t2_from_uniform_bytes c Hc half l in
  lf_val c (q0 r) = le_int (skipn half l) mod modulus c /\ lf_val c (q1 r) = le_int (firstn half l) mod modulus c.
Proof.
  intros I Hc half l Hl Hn Hh r. unfold r, t2_from_uniform_bytes. cbn [q0 q1]. split.
  - apply (proj1 (repr_val c Hc (lf0 c Hc) _ _ (from_uniform_bytes_repr c Hc _ (is_bytes_skipn half l Hl)
      ltac:(rewrite skipn_length; lia)))).
  - apply (proj1 (repr_val c Hc (lf0 c Hc) _ _ (from_uniform_bytes_repr c Hc _ (is_bytes_firstn half l Hl)
      ltac:(rewrite firstn_length; lia)))).
Qed.
