(** Property C24: square roots in the quadratic extensions.

    [o] is any realisation of the prime field (the limb arrays of the crate are
    one, LimbField.v); [is_square o2 a] says that [a = y * y] for some [y]. *)
From Verif Require Import Base Word Limbs SpecField LimbsFacts Algebra Pow Tower TowerFacts FiniteField Field Params
  PrimeField FrobeniusFacts Primality Certs Compute TowerParams TowerInst Inverse Sqrt SqrtFacts ConstFacts GenCerts
  Props_Tower Props_Field Props_Field2 Sqrt2 Sqrt2Facts.
From Bignums Require Import BigZ.
Local Open Scope Z_scope.

Lemma words_check l : forallb (fun w => (0 <=? w) && (w <? 2 ^ 64)) l = true -> words l.
Proof.
  intros E. rewrite forallb_forall in E. apply Forall_forall. intros x Hx. specialize (E x Hx).
  apply andb_prop in E. destruct E as [A B]. apply Z.leb_le in A. apply Z.ltb_lt in B. rewrite W_val. lia.
Qed.

Lemma beta_nr t {F} (o : fops F) inj : prime_field (modulus (t_field t)) o inj -> tower_check t = true ->
  forall x, fmul o x x <> inj (t_beta t).
Proof.
  intros HP Hc. exact (tc_beta t o inj HP _ _ _ (fun a => eq_refl (quad_mul o (fun x => x) a a)) (fun x => eq_refl) Hc).
Qed.

Theorem C24_bn256 : forall F (o : fops F) inj, prime_field (modulus bn256_fq) o inj -> forall a,
  match bn256_fq2_sqrt o a with
  | Some s => fmul (bn256_fq2 o) s s = a
  | None => ~ is_square (bn256_fq2 o) a
  end.
Proof.
  intros F o inj HP a. unfold bn256_fq2_sqrt.
  apply (sqrt_algo9_spec (modulus bn256_fq) o inj HP (mnr_neg o) (inj (-1)) (quad_square_complex o)).
  - vm_compute. reflexivity.
  - exact (mnr_neg_inj o inj _ HP).
  - exact (beta_nr bn256_tower o inj HP bn256_tower_ok).
  - exact (sq_complex o inj _ HP).
  - vm_compute. reflexivity.
  - exact (inj_m1 o inj _ HP).
  - apply words_check. vm_compute. reflexivity.
  - vm_compute. reflexivity.
  - apply words_check. vm_compute. reflexivity.
  - vm_compute. reflexivity.
Qed.
Print Assumptions C24_bn256.

Theorem C24_bls12381 : forall F (o : fops F) inj, prime_field (modulus bls12381_fq) o inj -> forall a,
  match bls_fq2_sqrt o a with
  | Some s => fmul (bls_fq2 o) s s = a
  | None => ~ is_square (bls_fq2 o) a
  end.
Proof.
  intros F o inj HP a. unfold bls_fq2_sqrt.
  apply (sqrt_algo9_spec (modulus bls12381_fq) o inj HP (mnr_neg o) (inj (-1)) (quad_square_complex o)).
  - vm_compute. reflexivity.
  - exact (mnr_neg_inj o inj _ HP).
  - exact (beta_nr bls12381_tower o inj HP bls_tower_ok).
  - exact (sq_complex o inj _ HP).
  - vm_compute. reflexivity.
  - exact (inj_m1 o inj _ HP).
  - apply words_check. vm_compute. reflexivity.
  - vm_compute. reflexivity.
  - apply words_check. vm_compute. reflexivity.
  - vm_compute. reflexivity.
Qed.
Print Assumptions C24_bls12381.

Lemma fp_sqrt_spec c {F} (o : fops F) inj : In c all_fields -> prime_field (modulus c) o inj -> forall x,
  match fp_sqrt o inj c x with Some r => fmul o r r = x | None => ~ is_square o x end.
Proof.
  intros Hc HP x. unfold fp_sqrt.
  destruct (sqrt_with_spec c (field_odd c Hc) (field_prime c Hc) (generator_half c Hc)
    (all_fields_supported c Hc) o inj HP _ x eq_refl) as (r & -> & Hr). exact Hr.
Qed.

Lemma pluto_five_nonresidue : negb (bpow 5 ((modulus pluto_eris_fp - 1) / 2) (modulus pluto_eris_fp) =? 1) = true.
Proof. vm_compute. reflexivity. Qed.

(** Two levels of the recursion of Algorithm 10 are enough.  Missing: zero. *)
Theorem C24_pluto_partial : forall F (o : fops F) inj, prime_field (modulus pluto_eris_fp) o inj ->
  forall fuel a, (2 <= fuel)%nat -> a <> f0 (pluto_fp2 o) ->
  exists r, pluto_fp2_sqrt o inj fuel a = SqRet r /\
  match r with
  | Some s => fmul (pluto_fp2 o) s s = a
  | None => ~ is_square (pluto_fp2 o) a
  end.
Proof.
  intros F o inj HP fuel a Hfu Ha. destruct fuel as [|[|n]]; [lia|lia|]. unfold pluto_fp2_sqrt.
  pose proof (pf_hom _ _ _ HP) as Hh.
  apply (sqrt_algo10_spec (modulus pluto_eris_fp) o inj HP (mnr_m5 o) (inj (-5)) (quad_square o (mnr_m5 o))
    ltac:(vm_compute; reflexivity) (mnr_m5_inj o inj _ HP) (beta_nr pluto_tower o inj HP pluto_tower_ok)
    (quad_square_mul o (mnr_m5 o) _ (fl_rl _ (pf_laws _ _ _ HP)) (mnr_m5_inj o inj _ HP))
    _ _ _ (inj (eval pluto_pre_f_raw))).
  - vm_compute. reflexivity.
  - apply words_check. vm_compute. reflexivity.
  - vm_compute. reflexivity.
  - reflexivity.
  - apply (pf_nonsquare (modulus pluto_eris_fp) o inj HP).
    + vm_compute. reflexivity.
    + vm_compute. reflexivity.
    + vm_compute. discriminate.
    + pose proof pluto_five_nonresidue as E. apply negb_true_iff, Z.eqb_neq in E. exact E.
  - change (fmul (quad_ops o (mnr_m5 o) (quad_square o (mnr_m5 o)))) with (quad_mul o (mnr_m5 o)).
    assert (Q := quad_mul_school o (mnr_m5 o) _ (fl_rl _ (pf_laws _ _ _ HP)) (mnr_m5_inj o inj _ HP)).
    rewrite !Q. cbn [q0 q1].
    rewrite <- (zh_0 _ _ Hh), <- ?(zh_mul _ _ Hh), <- ?(zh_add _ _ Hh), <- ?(zh_mul _ _ Hh), <- ?(zh_add _ _ Hh),
      <- ?(zh_mul _ _ Hh), <- ?(zh_add _ _ Hh).
    apply quad_ext; cbn [q0 q1]; change (f1 (quad_ops o (mnr_m5 o) (quad_square o (mnr_m5 o)))) with (quad_one o);
    unfold quad_one; cbn [q0 q1].
    + rewrite <- (zh_1 _ _ Hh). apply (pf_eq _ _ _ HP). vm_compute. reflexivity.
    + rewrite <- (zh_0 _ _ Hh). apply (pf_eq _ _ _ HP). vm_compute. reflexivity.
  - intros x. apply fp_sqrt_spec; [|exact HP]. vm_compute. tauto.
  - exact Ha.
Qed.
Print Assumptions C24_pluto_partial.

(** The property fails for zero in the pluto Fp2: zero is a square, but the
    recursion never returns, whatever depth is granted. *)
Theorem C24_pluto_zero_refuted : forall F (o : fops F) inj, prime_field (modulus pluto_eris_fp) o inj ->
  is_square (pluto_fp2 o) (f0 (pluto_fp2 o)) /\
  forall fuel, pluto_fp2_sqrt o inj fuel (f0 (pluto_fp2 o)) = SqDiverge.
Proof.
  intros F o inj HP. split.
  - exists (f0 (pluto_fp2 o)). pose proof (fl_rl _ (tf_2 _ _ _ _ _ (pluto_tower_facts o inj HP))) as R.
    exact (fpowz_zero _ R 2 ltac:(lia)).
  - intros fuel. apply (sqrt_algo10_zero (modulus pluto_eris_fp) o inj HP (mnr_m5 o) (inj (-5)) (quad_square o (mnr_m5 o))
      ltac:(vm_compute; reflexivity) (mnr_m5_inj o inj _ HP) (beta_nr pluto_tower o inj HP pluto_tower_ok)
      (quad_square_mul o (mnr_m5 o) _ (fl_rl _ (pf_laws _ _ _ HP)) (mnr_m5_inj o inj _ HP))).
    + vm_compute. reflexivity.
    + apply words_check. vm_compute. reflexivity.
    + vm_compute. reflexivity.
Qed.
Print Assumptions C24_pluto_zero_refuted.

(** Concrete runs over residues held as [bigZ]: a square (3 + 4u = (2 + u)^2) and a
    non-square in the bn256 Fq2. *)
Definition run_bn256 (a b : Z) : option bool :=
  let ob := bz_ops (BigZ.of_Z (modulus bn256_fq)) in
  let e := mk_quad (BigZ.of_Z a) (BigZ.of_Z b) in
  match bn256_fq2_sqrt ob e with
  | Some s => Some (feqb (bn256_fq2 ob) (fmul (bn256_fq2 ob) s s) e)
  | None => None
  end.
Example C24_runs : run_bn256 3 4 = Some true /\ run_bn256 9 1 = None.
Proof. vm_compute. repeat split. Qed.
(** The hypotheses are met: the residues modulo the prime, and the element 3 + 4u. *)
Example C24_instance : let o := zp_ops (modulus bn256_fq) in let inj := zp_inj (modulus bn256_fq) in
  exists s, bn256_fq2_sqrt o (mk_quad (inj 3) (inj 4)) = Some s
    /\ fmul (bn256_fq2 o) s s = mk_quad (inj 3) (inj 4).
Proof.
  intros o inj. assert (I : In bn256_fq all_fields) by (vm_compute; tauto).
  pose proof (field_in bn256_fq I) as HP. pose proof (pf_hom _ _ _ HP) as Hh.
  pose proof (C24_bn256 _ o inj HP (mk_quad (inj 3) (inj 4))) as E.
  destruct (bn256_fq2_sqrt o (mk_quad (inj 3) (inj 4))) as [s|]; [exists s; auto|].
  exfalso. apply E. exists (mk_quad (inj 2) (inj 1)). unfold bn256_fq2, fq2_ops. cbn [quad_ops fmul].
  rewrite (quad_mul_school o (mnr_neg o) _ (fl_rl _ (pf_laws _ _ _ HP)) (mnr_neg_inj o inj _ HP)).
  cbn [q0 q1]. fold inj in Hh.
  rewrite <- ?(zh_mul _ _ Hh), <- ?(zh_add _ _ Hh), <- ?(zh_mul _ _ Hh), <- ?(zh_add _ _ Hh). reflexivity.
Qed.
Example C24_pluto_instance : let o := zp_ops (modulus pluto_eris_fp) in let inj := zp_inj (modulus pluto_eris_fp) in
  exists s, pluto_fp2_sqrt o inj 2 (mk_quad (inj (-1)) (inj 4)) = SqRet (Some s)
    /\ fmul (pluto_fp2 o) s s = mk_quad (inj (-1)) (inj 4).
Proof.
  intros o inj. assert (I : In pluto_eris_fp all_fields) by (vm_compute; tauto).
  pose proof (field_in pluto_eris_fp I) as HP. pose proof (pf_hom _ _ _ HP) as Hh. fold inj in Hh.
  destruct (C24_pluto_partial _ o inj HP 2 (mk_quad (inj (-1)) (inj 4)) ltac:(lia)) as (r & E & Hr).
  - intros E. apply (f_equal q1) in E. assert (E' : inj 4 = inj 0) by (etransitivity; [exact E|symmetry; exact (zh_0 _ _ Hh)]). clear E. rename E' into E.
    apply (pf_eq _ _ _ HP) in E. vm_compute in E. discriminate.
  - destruct r as [s|]; [exists s; auto|]. exfalso. apply Hr. exists (mk_quad (inj 2) (inj 1)).
    unfold pluto_fp2, fp2_ops. cbn [quad_ops fmul].
    rewrite (quad_mul_school o (mnr_m5 o) _ (fl_rl _ (pf_laws _ _ _ HP)) (mnr_m5_inj o inj _ HP)).
    cbn [q0 q1].
    rewrite <- ?(zh_mul _ _ Hh), <- ?(zh_add _ _ Hh), <- ?(zh_mul _ _ Hh), <- ?(zh_add _ _ Hh). reflexivity.
Qed.
