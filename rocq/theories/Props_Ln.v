(** C66: the window size.  msm.rs:338-344 and 461-468 compute it with floating point numbers, as
    [(f64::from(bases.len() as u32)).ln().ceil() as usize].  Here the real logarithm takes the place of the
    parameter [ln_ceil] of Msm.v. *)
From Verif Require Import Base Word Bytes Field SpecField Params Algebra PrimeField SpecCurve SpecCurveFacts Group Curve CurveFacts CurveGroup CurveParams CurveInst CrateCurves CurveSum
  FieldFacts BytesFacts FieldSerdeFacts Fft Msm MsmFacts MsmBest Props_Field Props_Field2 Props_Curve Props_Msm.
From Coq Require Import Reals Lra.
Local Open Scope Z_scope.

(** [float_ln f]: [f n] is the ceiling of a number that differs from the natural logarithm of [n as u32] by at
    most 1/100 (the error of the function of the Rust standard library is far smaller); the logarithm of 0 is
    minus infinity and that of 1 is zero, and the cast to [usize] makes 0 of both. *)
Definition float_ln (f : nat -> Z) : Prop := forall n, let m := Z.of_nat n mod 2 ^ 32 in
  (2 <= m -> exists v : R, (Rabs (v - ln (IZR m)) <= 1 / 100)%R /\ (IZR (f n) - 1 < v <= IZR (f n))%R) /\
  (m < 2 -> f n = 0).

Lemma exp_mul_nat x n : exp (INR n * x) = (exp x ^ n)%R.
Proof.
  induction n as [|n IH]; [cbn [INR pow]; rewrite Rmult_0_l; apply exp_0|].
  rewrite S_INR, Rmult_plus_distr_r, Rmult_1_l, exp_plus, IH. cbn [pow]. ring.
Qed.
Lemma IZR_pow_nat z n : IZR (z ^ Z.of_nat n) = (IZR z ^ n)%R.
Proof. rewrite pow_IZR. reflexivity. Qed.
Lemma exp_191_8 : (IZR (2 ^ 32) <= exp (191 / 8))%R.
Proof.
  replace (191 / 8)%R with (INR 191 * (1 / 8))%R by (rewrite INR_IZR_INZ; cbn; lra).
  rewrite exp_mul_nat. apply Rle_trans with ((9 / 8) ^ 191)%R.
  - unfold Rdiv. rewrite Rpow_mult_distr, pow_inv.
    apply (Rmult_le_reg_r (8 ^ 191)); [apply pow_lt; lra|]. rewrite Rmult_assoc, Rinv_l by (apply pow_nonzero; lra).
    rewrite Rmult_1_r, <- !IZR_pow_nat, <- mult_IZR. apply IZR_le. vm_compute. discriminate.
  - apply pow_incr. split; [lra|]. pose proof (exp_ineq1 (1 / 8) ltac:(lra)). lra.
Qed.
Lemma ln_le x y : (0 < x)%R -> (x <= y)%R -> (ln x <= ln y)%R.
Proof. intros P [Q|<-]; [left; apply ln_increasing; assumption|right; reflexivity]. Qed.
Lemma ln_upper m : 0 < m <= 2 ^ 32 -> (ln (IZR m) <= 191 / 8)%R.
Proof.
  intros [P Q]. apply IZR_lt in P. apply IZR_le in Q.
  rewrite <- (ln_exp (191 / 8)). apply ln_le; [exact P|]. exact (Rle_trans _ _ _ Q exp_191_8).
Qed.
Lemma ln_lower m : 3 <= m -> (1 <= ln (IZR m))%R.
Proof.
  intros P. apply IZR_le in P. rewrite <- (ln_exp 1). apply ln_le; [apply exp_pos|]. exact (Rle_trans _ _ _ exp_le_3 P).
Qed.
(** For fewer than 2^32 bases the window has between 1 and 24 bits. *)
Theorem C66_range : forall f, float_ln f -> forall n, (3 <= n)%nat -> Z.of_nat n < 2 ^ 32 -> 1 <= f n <= 24.
Proof.
  intros f Hf n N B. destruct (Hf n) as [H _]. rewrite Z.mod_small in H by lia.
  destruct (H ltac:(lia)) as (v & Hv & V1 & V2). 
  pose proof (Rle_abs (v - ln (IZR (Z.of_nat n)))) as A1. pose proof (Rle_abs (- (v - ln (IZR (Z.of_nat n))))) as A2. rewrite Rabs_Ropp in A2.
  pose proof (ln_upper (Z.of_nat n) ltac:(lia)) as U. pose proof (ln_lower (Z.of_nat n) ltac:(lia)) as L.
  assert (0 < IZR (f n) < 25)%R as [X1 X2] by lra. apply lt_IZR in X1. apply lt_IZR in X2. lia.
Qed.
Print Assumptions C66_range.

(** So the sums are right for fewer than 2^32 bases, with no assumption but [float_ln]. *)
Definition patched (f : nat -> Z) (n : nat) : Z := if Z.of_nat n <? 2 ^ 32 then f n else 1.
Lemma patched_ok f : float_ln f -> ln_ok (patched f).
Proof.
  intros Hf n N. unfold patched. destruct (Z.ltb_spec (Z.of_nat n) (2 ^ 32)); [|lia]. apply (C66_range f Hf); lia.
Qed.
Lemma patched_window f n : Z.of_nat n < 2 ^ 32 -> window_size (patched f) n = window_size f n.
Proof. intros B. unfold window_size, patched. rewrite (proj2 (Z.ltb_lt _ _) B). reflexivity. Qed.
Section Patch.
Context {F : Type} (o : fops F) (c : cconf F) (sc : fconf) (f : nat -> Z).
Lemma patched_serial ks bases acc : Z.of_nat (length bases) < 2 ^ 32 ->
  msm_serial o c sc (patched f) ks bases acc = msm_serial o c sc f ks bases acc.
Proof. intros B. unfold msm_serial. rewrite patched_window by exact B. reflexivity. Qed.
Lemma chunks_small {X} ch : forall fuel (l x : list X), In x (chunks fuel ch l) -> (length x <= length l)%nat.
Proof.
  induction fuel as [|fuel IH]; intros l x I; [contradiction|]. cbn [chunks] in I. destruct l as [|y l]; [contradiction|].
  destruct I as [<-|I]; [rewrite firstn_length; lia|]. specialize (IH _ _ I). rewrite skipn_length in IH. lia.
Qed.
Lemma patched_parallel threads ks bases : Z.of_nat (length bases) < 2 ^ 32 ->
  msm_parallel o c sc (patched f) threads ks bases = msm_parallel o c sc f threads ks bases.
Proof.
  intros B. unfold msm_parallel. rewrite patched_serial by exact B. destruct (negb _); [reflexivity|].
  destruct (Nat.ltb threads (length ks)); [|reflexivity]. cbv zeta. destruct (Nat.eqb _ 0); [reflexivity|]. do 2 f_equal.
  apply map_ext_in. intros [ks' bs'] I. apply in_combine_r, chunks_small in I. cbn [fst snd]. apply patched_serial. lia.
Qed.
Lemma patched_best threads ks bases : Z.of_nat (length bases) < 2 ^ 32 ->
  msm_best o c sc (patched f) threads ks bases = msm_best o c sc f threads ks bases.
Proof. intros B. unfold msm_best. rewrite patched_window, patched_parallel by exact B. reflexivity. Qed.
End Patch.
Theorem C66_msm : forall F (o : fops F) c g sc, crate_curve o c g sc -> forall f, float_ln f -> forall threads ks vs bases Ps,
  (0 < threads)%nat -> Forall2 (represents (num_limbs sc) (modulus sc)) ks vs -> Forall2 (arep o c) bases Ps -> length ks = length bases ->
  Z.of_nat (length bases) < 2 ^ 32 ->
  let right r := exists p, r = Some p /\ prep o c p (msum_pts o (ca c) vs Ps) in
  right (msm_serial o c sc f ks bases (proj_identity o)) /\ right (msm_parallel o c sc f threads ks bases) /\
  (ca c = f0 o -> Forall (fun P => P <> None) Ps -> right (msm_best o c sc f threads ks bases)).
Proof.
  intros F o c g sc HV f Hf threads ks vs bases Ps Ht HK HB L B right. unfold right. pose proof (patched_ok f Hf) as Ok.
  rewrite <- (patched_serial o c sc f), <- (patched_parallel o c sc f), <- (patched_best o c sc f) by exact B. split; [|split].
  - exact (C16_serial F o c g sc HV _ Ok ks vs bases Ps HK HB).
  - exact (C16_parallel F o c g sc HV _ Ok threads ks vs bases Ps Ht HK HB L).
  - intros Ha Fin. exact (C17_finite_partial F o c g sc HV Ha _ Ok threads ks vs bases Ps Ht HK HB L Fin).
Qed.
Print Assumptions C66_msm.

(** The bound is sharp: [bases.len() as u32] is 0 for 2^32 bases, the window has 0 bits, and the division by it
    panics; so does [msm_parallel] on one thread. *)
Theorem C66_truncation : forall F (o : fops F) c g sc, crate_curve o c g sc -> forall f, float_ln f -> forall ks vs bases,
  Forall2 (represents (num_limbs sc) (modulus sc)) ks vs -> (exists v, In v vs /\ v <> 0) -> length ks = length bases ->
  Z.of_nat (length bases) = 2 ^ 32 ->
  (forall acc, msm_serial o c sc f ks bases acc = None) /\ msm_parallel o c sc f 1 ks bases = None.
Proof.
  intros F o c g sc HV f Hf ks vs bases HK (v & Iv & Nv) L B. pose proof (scalar_odd o c g sc HV) as Hs.
  assert (X : exists k, In k ks /\ represents (num_limbs sc) (modulus sc) k v).
  { clear - HK Iv. induction HK as [|k w ks vs R HK IH]; [contradiction|]. destruct Iv as [->|I]; [exists k; split; [left; reflexivity|exact R]|].
    destruct (IH I) as (k' & I' & R'). exists k'. split; [right; exact I'|exact R']. }
  destruct X as (k & Ik & Rk).
  assert (M : max_byte_size sc (map (to_repr sc) ks) <> O).
  { intros Z0. assert (Fo : Forall (fun b => is_bytes b /\ 0 <= le_int b < modulus sc) (map (to_repr sc) ks)).
    { apply Forall_forall. intros b Hb. apply in_map_iff in Hb as (k0 & <- & Hk0).
      assert (exists w, represents (num_limbs sc) (modulus sc) k0 w) as [w Rw].
      { clear - HK Hk0. induction HK as [|k w ks vs R HK IH]; [contradiction|]. destruct Hk0 as [->|I]; [eauto|auto]. }
      destruct (to_repr_spec sc Hs k0 w Rw) as (_ & By & E). destruct Rw as (_ & Rw & _). rewrite E. split; [exact By|lia]. }
    pose proof (max_byte_size_spec sc _ (to_repr sc k) Fo (in_map _ _ _ Ik) (proj1 Hs)) as Lt. rewrite Z0 in Lt.
    destruct (to_repr_spec sc Hs k v Rk) as (_ & _ & E). rewrite E in Lt. destruct Rk as (_ & Rk & _). cbn in Lt. lia. }
  assert (W : window_size f (length bases) = 0).
  { unfold window_size. destruct (Nat.ltb_spec (length bases) 4); [lia|]. destruct (Nat.ltb_spec (length bases) 32); [lia|].
    apply (proj2 (Hf (length bases))). rewrite B, Z_mod_same_full. lia. }
  assert (Sr : forall acc, msm_serial o c sc f ks bases acc = None).
  { intros acc. unfold msm_serial. rewrite W. destruct (Nat.eqb_spec (max_byte_size sc (map (to_repr sc) ks)) 0); [contradiction|reflexivity]. }
  split; [exact Sr|]. unfold msm_parallel. rewrite L, Nat.eqb_refl. cbn [negb].
  destruct (Nat.ltb_spec 1 (length bases)); [|lia]. cbv zeta. rewrite Nat.div_1_r. destruct (Nat.eqb_spec (length bases) 0); [lia|].
  assert (Ch : forall X (l : list X), l <> [] -> chunks (length l) (length l) l = [l]).
  { intros X [|x l] Nl; [contradiction|]. cbn [length chunks]. change (S (length l)) with (length (x :: l)).
    rewrite firstn_all, skipn_all. destruct (length l); reflexivity. }
  rewrite <- L at 1 2. rewrite (Ch _ ks) by (intros ->; cbn in L; lia). rewrite (Ch _ bases) by (intros ->; cbn in *; lia).
  cbn [combine map fst snd sequence fold_right]. rewrite Sr. reflexivity.
Qed.
Print Assumptions C66_truncation.

(** The hypothesis can be met: the ceiling of the logarithm itself. *)
Example ex_float_ln : exists f, float_ln f.
Proof.
  exists (fun n => let m := Z.of_nat n mod 2 ^ 32 in if m <? 2 then 0 else - Int_part (- ln (IZR m))). intros n m. split.
  - intros Hm. fold m. cbv zeta. rewrite (proj2 (Z.ltb_ge m 2) Hm). exists (ln (IZR m)). split.
    + unfold Rminus. rewrite Rplus_opp_r, Rabs_R0. lra.
    + rewrite opp_IZR. destruct (base_Int_part (- ln (IZR m))). lra.
  - intros Hm. fold m. cbv zeta. rewrite (proj2 (Z.ltb_lt m 2) Hm). reflexivity.
Qed.
