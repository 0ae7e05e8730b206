(** Properties C15-C17: multi-scalar multiplication.  [ln_ceil n] is
    [(f64::from(n as u32)).ln().ceil()]; the theorems here hold for every function
    [ln_ceil] with values in 1..24.  Props_Ln.v (C66) shows that the logarithm has
    such values up to 2^32-1 points and restates the results for it. *)
From Verif Require Import Base Algebra TowerFacts SpecField Word Limbs LimbsFacts Bytes BytesFacts Field FieldFacts FieldSerdeFacts Params PrimeField.
From Verif Require Import Group TowerParams TowerInst SpecCurve SpecCurveFacts Curve CurveFacts CurveGroup CurveParams CurveInst CrateCurves.
From Verif Require Import Fft Msm MsmFacts MsmBest Props_Field Props_Field2 Props_Tower Props_Curve.

(** C15.  The Booth digits are bounded and recompose the scalar; [el] is the
    little-endian byte string, [n] the number of windows. *)
Theorem C15_bound : forall c i el, 1 <= c <= 24 -> 0 <= i -> is_bytes el ->
  - 2 ^ (c - 1) <= get_booth_index i c el <= 2 ^ (c - 1).
Proof. exact booth_bound. Qed.
Print Assumptions C15_bound.
Lemma booth_sum_explicit n c el : booth_sum n c el =
  fold_right Z.add 0 (map (fun i => get_booth_index (Z.of_nat i) c el * 2 ^ (c * Z.of_nat i)) (seq 0 n)).
Proof.
  induction n as [|n IH]; [reflexivity|]. rewrite seq_S, map_app. cbn [booth_sum Nat.add map].
  rewrite fold_right_app. cbn [fold_right]. rewrite IH, Z.add_0_r. generalize (map (fun i => get_booth_index (Z.of_nat i) c el * 2 ^ (c * Z.of_nat i)) (seq 0 n)).
  generalize (get_booth_index (Z.of_nat n) c el * 2 ^ (c * Z.of_nat n)). intros d l. induction l as [|x l IHl]; cbn [fold_right]; lia.
Qed.
Theorem C15_recompose : forall c n el, 1 <= c <= 24 -> is_bytes el -> 2 * le_int el < 2 ^ (c * Z.of_nat n) ->
  fold_right Z.add 0 (map (fun i => get_booth_index (Z.of_nat i) c el * 2 ^ (c * Z.of_nat i)) (seq 0 n)) = le_int el.
Proof.
  intros c n el Hc HB L. rewrite <- booth_sum_explicit, booth_sum_spec, round_top by (auto; try apply Z.mul_nonneg_nonneg; try lia; apply le_int_bound; exact HB). ring.
Qed.
Print Assumptions C15_recompose.
(** The number of windows used by [msm_best] is enough for every scalar. *)
Theorem C15_scalar : forall sc, In sc all_fields -> forall c k v, 1 <= c <= 24 -> represents (num_limbs sc) (modulus sc) k v ->
  fold_right Z.add 0 (map (fun i => get_booth_index (Z.of_nat i) c (to_repr sc k) * 2 ^ (c * Z.of_nat i))
    (seq 0 (Z.to_nat (num_bits sc / c + 1)))) = v.
Proof.
  intros sc HI c k v Hc Hk. pose proof (field_odd sc HI) as Ho. destruct (to_repr_spec sc Ho k v Hk) as (_ & B & E). destruct Hk as (_ & R & _).
  rewrite C15_recompose; auto. rewrite E. pose proof (proj1 Ho). pose proof (Z.log2_nonneg (modulus sc)).
  assert (0 <= num_bits sc / c) by (apply Z.div_pos; unfold num_bits; lia). rewrite Z2Nat.id by lia.
  assert (X : modulus sc < 2 ^ num_bits sc) by (unfold num_bits; rewrite Z.add_1_r; apply Z.log2_spec; lia).
  assert (Y : 2 ^ (num_bits sc + 1) <= 2 ^ (c * (num_bits sc / c + 1))).
  { apply Z.pow_le_mono_r; [lia|]. pose proof (Z.div_mod (num_bits sc) c ltac:(lia)). pose proof (Z.mod_pos_bound (num_bits sc) c ltac:(lia)). lia. }
  rewrite Z.pow_add_r in Y by (unfold num_bits; lia). change (2 ^ 1) with 2 in Y. lia.
Qed.
Print Assumptions C15_scalar.
(** 24 is the limit: at width 25 the 32-bit window of bytes is too narrow (here the
    top bit of digit 8, bit 224, of 2^224 is lost). *)
Example C15_width_25_fails : let el := repeat 0 28 ++ [1; 0; 0; 0] in le_int el = 2 ^ 224 /\
  fold_right Z.add 0 (map (fun i => get_booth_index (Z.of_nat i) 25 el * 2 ^ (25 * Z.of_nat i)) (seq 0 11)) <> 2 ^ 224.
Proof. vm_compute. split; [reflexivity|discriminate]. Qed.
Example C15_example : map (fun i => get_booth_index i 3 [77; 1]) [0; 1; 2; 3] = [-3; 2; -3; 1] /\ -3 + 2 * 8 + -3 * 64 + 1 * 512 = 77 + 256.
Proof. vm_compute. auto. Qed.

(** C16.  [msum_pts ks Ps] is the sum of the [k_i P_i]. *)
Definition msum_pts {F} (o : fops F) (a : F) (ks : list Z) (Ps : list (point (F := F))) : point :=
  pt_sum o a (map (fun x => pt_mulz o a (fst x) (snd x)) (combine ks Ps)).
Section Inst.
Context {F : Type} (o : fops F) (c : cconf F) (HC : curve_laws o c).
Lemma msum_pt ks Qs : proj1_sig (msum o c HC ks Qs) = msum_pts o (ca c) ks (map (@proj1_sig _ _) Qs).
Proof.
  unfold msum, msum_pts. rewrite gsum_pt, map_map. f_equal.
  revert Qs. induction ks as [|k ks IH]; intros [|Q Qs]; cbn [combine map fst snd]; [reflexivity..|]. rewrite gmul_pt. f_equal. apply IH.
Qed.
Lemma lift_bases bases Ps : Forall2 (arep o c) bases Ps -> exists Qs, map (@proj1_sig _ _) Qs = Ps /\ Forall2 (ra o c) bases Qs.
Proof.
  induction 1 as [|p P bases Ps E _ (Qs & EQ & HF)]; [exists []; split; [reflexivity|constructor]|].
  exists (mkpt o c HC P (proj1 E) :: Qs). split; [cbn [map]; rewrite EQ; reflexivity|]. constructor; [exact E|exact HF].
Qed.
Lemma fin_bases bases Qs : Forall2 (ra o c) bases Qs -> Forall (fun Q => proj1_sig Q <> None) Qs -> Forall2 (rfin o c) bases Qs.
Proof.
  induction 1 as [|p Q bases Qs E _ IH]; intros HN; [constructor|]. inversion HN as [|? ? N HN']; subst. constructor; [|apply IH; exact HN'].
  unfold rfin. unfold ra, arep in E. destruct (proj1_sig Q) as [[x y]|] eqn:EQ; [|destruct (N EQ)]. destruct E as (_ & -> & ->). reflexivity.
Qed.
End Inst.
Definition ln_ok (ln_ceil : nat -> Z) : Prop := forall n, (32 <= n)%nat -> 1 <= ln_ceil n <= 24.

(** [msm_serial] with accumulator [acc]: the accumulator is multiplied by a power
    of two (exponent 0 if all scalars are 0); with the identity it adds the sum. *)
Theorem C16_serial_acc : forall F (o : fops F) c g sc, crate_curve o c g sc -> forall ln_ceil, ln_ok ln_ceil -> forall ks vs bases Ps acc A,
  Forall2 (represents (num_limbs sc) (modulus sc)) ks vs -> Forall2 (arep o c) bases Ps -> prep o c acc A ->
  exists r, msm_serial o c sc ln_ceil ks bases acc = Some r /\
    prep o c r (pt_add o (ca c) (pt_mulz o (ca c) (2 ^ serial_shift sc ln_ceil ks (length bases)) A) (msum_pts o (ca c) vs Ps)).
Proof.
  intros F o c g sc HV ln Hln ks vs bases Ps acc A HK HB HA. pose proof (cf_laws _ _ _ _ (crate_curve_facts o c g sc HV)) as HC.
  destruct (lift_bases o c HC bases Ps HB) as (Qs & <- & HQ).
  destruct (msm_serial_spec o c HC sc (scalar_odd o c g sc HV) ln Hln ks vs bases Qs acc (mkpt o c HC A (proj1 HA)) HK HQ HA) as (r & E & R).
  exists r. split; [exact E|]. rewrite <- (msum_pt o c HC). unfold rp in R. cbn [cpt_ops gadd mkpt proj1_sig] in R. rewrite gmul_pt in R. exact R.
Qed.
Print Assumptions C16_serial_acc.
Theorem C16_serial : forall F (o : fops F) c g sc, crate_curve o c g sc -> forall ln_ceil, ln_ok ln_ceil -> forall ks vs bases Ps,
  Forall2 (represents (num_limbs sc) (modulus sc)) ks vs -> Forall2 (arep o c) bases Ps ->
  exists r, msm_serial o c sc ln_ceil ks bases (proj_identity o) = Some r /\ prep o c r (msum_pts o (ca c) vs Ps).
Proof.
  intros F o c g sc HV ln Hln ks vs bases Ps HK HB. pose proof (cf_laws _ _ _ _ (crate_curve_facts o c g sc HV)) as HC.
  destruct (lift_bases o c HC bases Ps HB) as (Qs & <- & HQ).
  destruct (msm_serial_zero o c HC sc (scalar_odd o c g sc HV) ln Hln ks vs bases Qs HK HQ) as (r & E & R).
  exists r. split; [exact E|]. rewrite <- (msum_pt o c HC). exact R.
Qed.
Print Assumptions C16_serial.
Theorem C16_parallel : forall F (o : fops F) c g sc, crate_curve o c g sc -> forall ln_ceil, ln_ok ln_ceil -> forall threads ks vs bases Ps,
  (0 < threads)%nat -> Forall2 (represents (num_limbs sc) (modulus sc)) ks vs -> Forall2 (arep o c) bases Ps -> length ks = length bases ->
  exists r, msm_parallel o c sc ln_ceil threads ks bases = Some r /\ prep o c r (msum_pts o (ca c) vs Ps).
Proof.
  intros F o c g sc HV ln Hln threads ks vs bases Ps Ht HK HB L. pose proof (cf_laws _ _ _ _ (crate_curve_facts o c g sc HV)) as HC.
  destruct (lift_bases o c HC bases Ps HB) as (Qs & <- & HQ).
  destruct (msm_parallel_spec o c HC sc (scalar_odd o c g sc HV) ln Hln threads ks vs bases Qs Ht HK HQ L) as (r & E & R).
  exists r. split; [exact E|]. rewrite <- (msum_pt o c HC). exact R.
Qed.
Print Assumptions C16_parallel.
(** The [assert_eq!] of msm.rs:433 *)
Theorem C16_parallel_lengths : forall F (o : fops F) c sc ln_ceil threads ks bases, length ks <> length bases ->
  msm_parallel o c sc ln_ceil threads ks bases = None.
Proof. intros F o c sc ln threads ks bases N. unfold msm_parallel. apply Nat.eqb_neq in N. rewrite N. reflexivity. Qed.
Print Assumptions C16_parallel_lengths.

(** C17.  Proved for the ten curves with a = 0 when no base is the identity, and for
    all curves and points when the window is below 10 (then [msm_parallel] runs). *)
Theorem C17_finite_partial : forall F (o : fops F) c g sc, crate_curve o c g sc -> ca c = f0 o -> forall ln_ceil, ln_ok ln_ceil -> forall threads ks vs bases Ps,
  (0 < threads)%nat -> Forall2 (represents (num_limbs sc) (modulus sc)) ks vs -> Forall2 (arep o c) bases Ps -> length ks = length bases ->
  Forall (fun P => P <> None) Ps ->
  exists r, msm_best o c sc ln_ceil threads ks bases = Some r /\ prep o c r (msum_pts o (ca c) vs Ps).
Proof.
  intros F o c g sc HV Ha ln Hln threads ks vs bases Ps Ht HK HB L HN. pose proof (cf_laws _ _ _ _ (crate_curve_facts o c g sc HV)) as HC.
  destruct (lift_bases o c HC bases Ps HB) as (Qs & <- & HQ).
  destruct (msm_best_spec o c HC Ha sc (scalar_odd o c g sc HV) ln Hln threads ks vs bases Qs Ht HK) as (r & E & R).
  - apply fin_bases; [exact HQ|]. clear - HN. induction Qs as [|Q Qs IH]; [constructor|]. inversion HN; subst. constructor; auto.
  - exact L.
  - exists r. split; [exact E|]. rewrite <- (msum_pt o c HC). exact R.
Qed.
Print Assumptions C17_finite_partial.
Theorem C17_small_partial : forall F (o : fops F) c g sc, crate_curve o c g sc -> forall ln_ceil, ln_ok ln_ceil -> forall threads ks vs bases Ps,
  (0 < threads)%nat -> Forall2 (represents (num_limbs sc) (modulus sc)) ks vs -> Forall2 (arep o c) bases Ps -> length ks = length bases ->
  window_size ln_ceil (length bases) < 10 ->
  exists r, msm_best o c sc ln_ceil threads ks bases = Some r /\ prep o c r (msum_pts o (ca c) vs Ps).
Proof.
  intros F o c g sc HV ln Hln threads ks vs bases Ps Ht HK HB L W. unfold msm_best. rewrite L, Nat.eqb_refl. cbn [negb].
  apply Z.ltb_lt in W. rewrite W. exact (C16_parallel F o c g sc HV ln Hln threads ks vs bases Ps Ht HK HB L).
Qed.
Print Assumptions C17_small_partial.
Section Uniq.
Context {F : Type} (o : fops F) (H : field_laws o).
Add Field FUN : (field_thy o H).
Lemma inverse_unique i z : feqb o (fmul o i z) (f1 o) = true -> finv o z = Some i.
Proof.
  intros M. apply (fl_eqb _ H) in M.
  assert (N : z <> f0 o) by (intros ->; apply (fl_1_0 _ H); rewrite <- M; ring).
  destruct (fl_inv _ H z N) as (j & -> & E). f_equal. apply (mul_cancel_l o H z); [exact N|]. rewrite E, <- M. ring.
Qed.
End Uniq.
(** Refutations, for any number n of bases for which the window is 10 or more
    (n > e^9, about 8104).  (a) On secp256r1, whose a is not 0, two copies of the
    generator with scalar 2 are put into one bucket; [batch_add] doubles without the
    curve's a, leaves the curve, and [from_xy(..).unwrap()] panics. *)
Theorem C17_secp256r1_refuted : let p := modulus secp256r1_fp in let o := zp_ops p in
  let c := curve_of o (zp_inj p) secp256r1_consts in let G := gen_aff (zp_inj p) secp256r1_consts in let sc := secp256r1_fq in
  crate_curve o c G sc /\
  forall ln_ceil threads n, 10 <= window_size ln_ceil (2 + n) <= 24 ->
  msm_best o c sc ln_ceil threads (mont_of sc 2 :: mont_of sc 2 :: repeat (mont_of sc 0) n) (G :: G :: repeat G n) = None.
Proof.
  intros p o c G sc. split; [exact crate_curve_secp256r1|]. intros ln threads n Hw.
  assert (HI0 : In sc all_fields) by (cbn [In all_fields]; tauto).
  assert (HB0 : In secp256r1_fp all_fields) by (cbn [In all_fields]; tauto).
  pose proof (field_odd sc HI0) as HO.
  assert (OG : aff_is_on_curve o c G = true) by (vm_compute; reflexivity).
  assert (HI : exists i, finv o (fmul o (f1 o) (fadd o (ay G) (ay G))) = Some i /\
    (let l := fmul o i (fmul o (f1 o) (fadd o (fadd o (fsqr o (ax G)) (fsqr o (ax G))) (fsqr o (ax G)))) in
     let x := fsub o (fsqr o l) (fadd o (ax G) (ax G)) in
     aff_is_on_curve o c (mk_aff x (fsub o (fmul o l (fsub o (ax G) x)) (ay G)))) = false).
  { pose proof (pf_laws _ _ _ (ex_field _ HB0)) as HF.
    assert (M : feqb o (fmul o (zp_inj p 56574125023949875979384902335110527424677819735484098786822054576870411640858) (fmul o (f1 o) (fadd o (ay G) (ay G)))) (f1 o) = true) by (vm_compute; reflexivity).
    exists (zp_inj p 56574125023949875979384902335110527424677819735484098786822054576870411640858). split; [|vm_compute; reflexivity]. apply (inverse_unique o HF). exact M. }
  destruct HI as (i & E1 & E2).
  assert (D : (feqb o (ax G) (ax G) = true) /\ feqb o (ay G) (ay G) = true) by (pose proof (pf_laws _ _ _ (ex_field _ HB0)) as HF; split; apply (feqb_refl o HF)).
  refine (two_panics o c sc HO ln threads n _ _ G G i _ Hw _ _ OG OG _ E2).
  - exact (mont_of_repr sc 2 HI0).
  - exact (mont_of_repr sc 0 HI0).
  - cbv zeta. destruct D as (-> & ->). cbn [andb]. split; [reflexivity|]. split; [exact E1|reflexivity].
Qed.
Print Assumptions C17_secp256r1_refuted.
(** (b) An identity base is used as the finite point (0,0): on bn256 G1, adding the
    generator (1,2) to a bucket holding the identity gives (3,-6), off the curve. *)
Theorem C17_identity_refuted : let p := modulus bn256_fq in let o := zp_ops p in
  let c := curve_of_bn256_g1 o (zp_inj p) bn256_g1_consts in let G := gen_aff (zp_inj p) bn256_g1_consts in let sc := bn256_fr in
  crate_curve o c G sc /\ arep o c (aff_identity o) None /\
  forall ln_ceil threads n, 10 <= window_size ln_ceil (2 + n) <= 24 ->
  msm_best o c sc ln_ceil threads (mont_of sc 2 :: mont_of sc 2 :: repeat (mont_of sc 0) n) (aff_identity o :: G :: repeat G n) = None.
Proof.
  intros p o c G sc. split; [exact crate_curve_bn256_g1|]. split; [split; [exact I|split; reflexivity]|]. intros ln threads n Hw.
  assert (HI0 : In sc all_fields) by (cbn [In all_fields]; tauto).
  assert (HB0 : In bn256_fq all_fields) by (cbn [In all_fields]; tauto).
  pose proof (field_odd sc HI0) as HO.
  set (O := aff_identity o).
  assert (OG : aff_is_on_curve o c G = true) by (vm_compute; reflexivity).
  assert (OO : aff_is_on_curve o c O = true) by (vm_compute; reflexivity).
  assert (HI : exists i, finv o (fmul o (f1 o) (fsub o (ax O) (ax G))) = Some i /\
    (let l := fmul o i (fmul o (f1 o) (fsub o (ay O) (ay G))) in
     let x := fsub o (fsqr o l) (fadd o (ax O) (ax G)) in
     aff_is_on_curve o c (mk_aff x (fsub o (fmul o l (fsub o (ax G) x)) (ay G)))) = false).
  { pose proof (pf_laws _ _ _ (ex_field _ HB0)) as HF.
    assert (M : feqb o (fmul o (zp_inj p (-1)) (fmul o (f1 o) (fsub o (ax O) (ax G)))) (f1 o) = true) by (vm_compute; reflexivity).
    exists (zp_inj p (-1)). split; [|vm_compute; reflexivity]. apply (inverse_unique o HF). exact M. }
  destruct HI as (i & E1 & E2).
  assert (D : feqb o (ax O) (ax G) = false) by (vm_compute; auto).
  refine (two_panics o c sc HO ln threads n _ _ O G i _ Hw _ _ OO OG _ E2).
  - exact (mont_of_repr sc 2 HI0).
  - exact (mont_of_repr sc 0 HI0).
  - cbv zeta. rewrite D. cbn [andb]. split; [reflexivity|]. split; [exact E1|reflexivity].
Qed.
Print Assumptions C17_identity_refuted.

(** *** The hypotheses can be met: 2 G + 5 O - G on bn256 G1 *)
Example C16_instance : let p := modulus bn256_fq in let o := zp_ops p in
  let c := curve_of_bn256_g1 o (zp_inj p) bn256_g1_consts in let G := gen_aff (zp_inj p) bn256_g1_consts in let sc := bn256_fr in
  ln_ok (fun n => Z.log2 (Z.of_nat n) mod 24 + 1) /\ crate_curve o c G sc /\ ca c = f0 o /\
  Forall2 (represents (num_limbs sc) (modulus sc)) (map (mont_of sc) [2; 5; -1]) (map (fun x => x mod modulus sc) [2; 5; -1]) /\
  Forall2 (arep o c) [G; aff_identity o; G] [Some (ax G, ay G); None; Some (ax G, ay G)].
Proof.
  intros p o c G sc. assert (HI0 : In sc all_fields) by (cbn [In all_fields]; tauto). pose proof crate_curve_bn256_g1 as HV.
  destruct (C44_generator _ _ _ _ _ HV) as (OG & _). split; [|split; [exact HV|split; [|split]]].
  - intros n _. pose proof (Z.mod_pos_bound (Z.log2 (Z.of_nat n)) 24). lia.
  - assert (HB0 : In bn256_fq all_fields) by (cbn [In all_fields]; tauto). apply (fl_eqb _ (pf_laws _ _ _ (ex_field _ HB0))). vm_compute. reflexivity.
  - repeat (constructor; [exact (mont_of_repr sc _ HI0)|]). constructor.
  - repeat constructor; exact OG.
Qed.
