(** Properties C10 and C18-C23: primality of the moduli and the extension towers. *)
From Verif Require Import Base Algebra Pow Tower SpecTower TowerFacts FiniteField Field Params
  PrimeField FrobeniusFacts Certs TowerParams TowerInst.

(** C10 *)
Theorem C10_moduli_prime : Forall (fun c => prime (modulus c)) all_fields.
Proof. exact all_moduli_prime. Qed.
Print Assumptions C10_moduli_prime.
Theorem C10_no_divisor : forall c d, In c all_fields -> 1 < d < modulus c -> modulus c mod d <> 0.
Proof.
  intros c d Hc Hd E. pose proof (proj1 (Forall_forall _ _) all_moduli_prime c Hc) as Hp.
  assert (D : (d | modulus c)) by (apply Zmod_divide; [lia|exact E]).
  destruct (prime_divisors _ Hp d D) as [X|[X|[X|X]]]; lia.
Qed.
Print Assumptions C10_no_divisor.
Example C10_example : length all_fields = 10%nat /\ In pluto_eris_fq all_fields /\ 2 ^ 445 < modulus pluto_eris_fq.
Proof. vm_compute. auto 20. Qed.

(** A concrete field for the examples below: residues modulo a prime. *)
Lemma field_in c : In c all_fields -> prime_field (modulus c) (zp_ops (modulus c)) (zp_inj (modulus c)).
Proof.
  intros Hc. apply zp_prime_field. exact (proj1 (Forall_forall _ _) all_moduli_prime c Hc).
Qed.

(** C18.  Multiplication and squaring are those of the quotient rings, over any
    commutative ring and any [beta], [xi]; the linear operations are
    coefficient-wise. *)
Theorem C18_quad_mul : forall F (o : fops F) mnr beta, ring_laws o ->
  (forall x, mnr x = fmul o beta x) -> forall a b,
  quad_list (quad_mul o mnr a b) = quotient_mul o 2 beta (quad_list a) (quad_list b).
Proof. exact (fun F o mnr beta HR Hm a b => quad_mul_spec o mnr beta HR Hm a b). Qed.
Print Assumptions C18_quad_mul.
Theorem C18_quad_square : forall F (o : fops F) mnr beta, ring_laws o ->
  (forall x, mnr x = fmul o beta x) -> forall a,
  quad_list (quad_square o mnr a) = quotient_mul o 2 beta (quad_list a) (quad_list a).
Proof. exact (fun F o mnr beta HR Hm a => eq_trans (f_equal quad_list (quad_square_mul o mnr beta HR Hm a))
  (quad_mul_spec o mnr beta HR Hm a a)). Qed.
Print Assumptions C18_quad_square.
(** The override of bn256 and bls12-381, where u^2 = -1. *)
Theorem C18_quad_square_complex : forall F (o : fops F), ring_laws o -> forall a,
  quad_list (quad_square_complex o a) = quotient_mul o 2 (fneg o (f1 o)) (quad_list a) (quad_list a).
Proof.
  intros F o HR a.
  assert (Hm : forall x, fmul o (fneg o (f1 o)) x = fmul o (fneg o (f1 o)) x) by reflexivity.
  rewrite (quad_square_complex_mul o _ _ HR Hm eq_refl). exact (quad_mul_spec o _ _ HR Hm a a).
Qed.
Print Assumptions C18_quad_square_complex.
Theorem C18_cubic_mul : forall F (o : fops F) mnr xi, ring_laws o ->
  (forall x, mnr x = fmul o xi x) -> forall a b,
  cubic_list (cubic_mul o mnr a b) = quotient_mul o 3 xi (cubic_list a) (cubic_list b).
Proof. exact (fun F o mnr xi HR Hm a b => cubic_mul_spec o mnr xi HR Hm a b). Qed.
Print Assumptions C18_cubic_mul.
Theorem C18_cubic_square : forall F (o : fops F) mnr xi, ring_laws o ->
  (forall x, mnr x = fmul o xi x) -> forall a,
  cubic_list (cubic_square o mnr a) = quotient_mul o 3 xi (cubic_list a) (cubic_list a).
Proof. exact (fun F o mnr xi HR Hm a => eq_trans (f_equal cubic_list (cubic_square_mul o mnr xi HR Hm a))
  (cubic_mul_spec o mnr xi HR Hm a a)). Qed.
Print Assumptions C18_cubic_square.
Theorem C18_linear : forall F (o : fops F), ring_laws o ->
  (forall a b : quad F,
     quad_list (quad_add o a b) = [fadd o (q0 a) (q0 b); fadd o (q1 a) (q1 b)] /\
     quad_list (quad_sub o a b) = [fsub o (q0 a) (q0 b); fsub o (q1 a) (q1 b)] /\
     quad_list (quad_neg o a) = [fneg o (q0 a); fneg o (q1 a)] /\
     quad_double o a = quad_add o a a) /\
  (forall a b : cubic F,
     cubic_list (cubic_add o a b) = [fadd o (k0 a) (k0 b); fadd o (k1 a) (k1 b); fadd o (k2 a) (k2 b)] /\
     cubic_list (cubic_sub o a b) = [fsub o (k0 a) (k0 b); fsub o (k1 a) (k1 b); fsub o (k2 a) (k2 b)] /\
     cubic_list (cubic_neg o a) = [fneg o (k0 a); fneg o (k1 a); fneg o (k2 a)] /\
     cubic_double o a = cubic_add o a a).
Proof.
  intros F o HR. split; intros a b; repeat split.
  - unfold quad_double, quad_add. rewrite !(rl_dbl _ HR). reflexivity.
  - unfold cubic_double, cubic_add. rewrite !(rl_dbl _ HR). reflexivity.
Qed.
Print Assumptions C18_linear.
(** [mul_by_nonresidue]: of the prime fields, of Fp2 and of Fp6. *)
Theorem C18_nonresidue : forall p F (o : fops F) inj, prime_field p o inj ->
  (forall x, mnr_neg o x = fmul o (inj (-1)) x) /\
  (forall x, mnr_m5 o x = fmul o (inj (-5)) x) /\
  (forall x, bn256_fq2_mnr o x = fmul (bn256_fq2 o) (mk_quad (inj 9) (inj 1)) x) /\
  (forall x, bls_fq2_mnr o x = fmul (bls_fq2 o) (mk_quad (inj 1) (inj 1)) x).
Proof. exact (fun p F o inj HP => conj (mnr_neg_inj o inj p HP) (conj (mnr_m5_inj o inj p HP)
  (conj (bn256_mnr_inj o inj p HP) (bls_mnr_inj o inj p HP)))). Qed.
Print Assumptions C18_nonresidue.
Theorem C18_mul_by_v : forall F (o : fops F) mnr xi, ring_laws o ->
  (forall x, mnr x = fmul o xi x) -> forall a,
  cubic_list (cubic_mul_by_v mnr a) = quotient_mul o 3 xi [f0 o; f1 o; f0 o] (cubic_list a).
Proof. exact (fun F o mnr xi HR Hm a => eq_trans (f_equal cubic_list (cubic_mul_by_v_spec o mnr xi HR Hm a))
  (cubic_mul_spec o mnr xi HR Hm (cubic_v o) a)). Qed.
Print Assumptions C18_mul_by_v.
(** The concrete towers, over any representation of the base prime field: all
    three levels satisfy the field laws. *)
Theorem C18_bn256 : forall F (o : fops F) inj, prime_field (modulus bn256_fq) o inj ->
  field_laws (bn256_fq2 o) /\ field_laws (bn256_fq6 o) /\ field_laws (bn256_fq12 o).
Proof. exact (fun F o inj HP => let T := bn256_tower_facts o inj HP in
  conj (tf_2 _ _ _ _ _ T) (conj (tf_6 _ _ _ _ _ T) (tf_12 _ _ _ _ _ T))). Qed.
Print Assumptions C18_bn256.
Theorem C18_bls12381 : forall F (o : fops F) inj, prime_field (modulus bls12381_fq) o inj ->
  field_laws (bls_fq2 o) /\ field_laws (bls_fq6 o) /\ field_laws (bls_fq12 o).
Proof. exact (fun F o inj HP => let T := bls_tower_facts o inj HP in
  conj (tf_2 _ _ _ _ _ T) (conj (tf_6 _ _ _ _ _ T) (tf_12 _ _ _ _ _ T))). Qed.
Print Assumptions C18_bls12381.
Theorem C18_pluto : forall F (o : fops F) inj, prime_field (modulus pluto_eris_fp) o inj ->
  field_laws (pluto_fp2 o) /\ field_laws (pluto_fp6 o inj) /\ field_laws (pluto_fp12 o inj).
Proof. exact (fun F o inj HP => let T := pluto_tower_facts o inj HP in
  conj (tf_2 _ _ _ _ _ T) (conj (tf_6 _ _ _ _ _ T) (tf_12 _ _ _ _ _ T))). Qed.
Print Assumptions C18_pluto.
Example C18_example : prime_field (modulus bn256_fq) (zp_ops (modulus bn256_fq)) (zp_inj (modulus bn256_fq)) /\
  prime_field (modulus bls12381_fq) (zp_ops (modulus bls12381_fq)) (zp_inj (modulus bls12381_fq)) /\
  prime_field (modulus pluto_eris_fp) (zp_ops (modulus pluto_eris_fp)) (zp_inj (modulus pluto_eris_fp)).
Proof. split; [|split]; apply field_in; cbn; auto 20. Qed.

(** C19 *)
Theorem C19_quad : forall F (o : fops F) mnr beta, field_laws o ->
  (forall x, mnr x = fmul o beta x) -> (forall x, fmul o x x <> beta) -> forall a,
  match quad_invert o mnr a with
  | None => a = mk_quad (f0 o) (f0 o)
  | Some b => a <> mk_quad (f0 o) (f0 o) /\ quad_mul o mnr a b = mk_quad (f1 o) (f0 o)
  end.
Proof. exact (fun F o mnr beta H Hm Hn a => quad_invert_spec o mnr beta H Hm Hn a). Qed.
Print Assumptions C19_quad.
Theorem C19_cubic : forall F (o : fops F) mnr xi, field_laws o ->
  (forall x, mnr x = fmul o xi x) -> (forall x, fmul o x (fmul o x x) <> xi) -> forall a,
  match cubic_invert o mnr a with
  | None => a = mk_cubic (f0 o) (f0 o) (f0 o)
  | Some b => a <> mk_cubic (f0 o) (f0 o) (f0 o) /\ cubic_mul o mnr a b = mk_cubic (f1 o) (f0 o) (f0 o)
  end.
Proof. exact (fun F o mnr xi H Hm Hn a => cubic_invert_spec o mnr xi H Hm Hn a). Qed.
Print Assumptions C19_cubic.
(** For the concrete towers the hypotheses hold: in all nine fields [finv] is
    [None] exactly at zero and else the inverse. *)
Definition inversion_correct {F} (o : fops F) : Prop := forall a,
  match finv o a with
  | None => a = f0 o
  | Some b => a <> f0 o /\ fmul o a b = f1 o
  end.
Lemma inversion_of_laws {F} (o : fops F) : field_laws o -> inversion_correct o.
Proof.
  intros H a. destruct (finv o a) as [b|] eqn:E.
  - exact (finv_some o H a b E).
  - exact (finv_none o H a E).
Qed.
Theorem C19_towers :
  (forall F (o : fops F) inj, prime_field (modulus bn256_fq) o inj ->
    inversion_correct (bn256_fq2 o) /\ inversion_correct (bn256_fq6 o) /\ inversion_correct (bn256_fq12 o)) /\
  (forall F (o : fops F) inj, prime_field (modulus bls12381_fq) o inj ->
    inversion_correct (bls_fq2 o) /\ inversion_correct (bls_fq6 o) /\ inversion_correct (bls_fq12 o)) /\
  (forall F (o : fops F) inj, prime_field (modulus pluto_eris_fp) o inj ->
    inversion_correct (pluto_fp2 o) /\ inversion_correct (pluto_fp6 o inj) /\ inversion_correct (pluto_fp12 o inj)).
Proof.
  split; [|split]; intros F o inj HP.
  - destruct (C18_bn256 F o inj HP) as (A & B & C). auto using inversion_of_laws.
  - destruct (C18_bls12381 F o inj HP) as (A & B & C). auto using inversion_of_laws.
  - destruct (C18_pluto F o inj HP) as (A & B & C). auto using inversion_of_laws.
Qed.
Print Assumptions C19_towers.

(** C20 *)
Theorem C20_fp6 : forall F (o : fops F) mnr xi, ring_laws o -> (forall x, mnr x = fmul o xi x) ->
  forall a c0 c1,
  mul_by_1 o mnr a c1 = cubic_mul o mnr a (mk_cubic (f0 o) c1 (f0 o)) /\
  mul_by_01 o mnr a c0 c1 = cubic_mul o mnr a (mk_cubic c0 c1 (f0 o)).
Proof. exact (fun F o mnr xi HR Hm a c0 c1 =>
  conj (mul_by_1_spec o mnr xi HR Hm a c1) (mul_by_01_spec o mnr xi HR Hm a c0 c1)). Qed.
Print Assumptions C20_fp6.
Theorem C20_fp12 : forall F (o : fops F) mnr xi, ring_laws o -> (forall x, mnr x = fmul o xi x) ->
  forall f c0 c1 c3 c4,
  mul_by_014 o mnr f c0 c1 c4 = fmul (fq12_ops o mnr) f
    (mk_quad (mk_cubic c0 c1 (f0 o)) (mk_cubic (f0 o) c4 (f0 o))) /\
  mul_by_034 o mnr f c0 c3 c4 = fmul (fq12_ops o mnr) f
    (mk_quad (mk_cubic c0 (f0 o) (f0 o)) (mk_cubic c3 c4 (f0 o))).
Proof. exact (fun F o mnr xi HR Hm f c0 c1 c3 c4 =>
  conj (mul_by_014_spec o mnr xi HR Hm f c0 c1 c4) (mul_by_034_spec o mnr xi HR Hm f c0 c3 c4)). Qed.
Print Assumptions C20_fp12.
Example C20_example : ring_laws (bn256_fq2 (zp_ops (modulus bn256_fq))) /\
  forall x, bn256_fq2_mnr (zp_ops (modulus bn256_fq)) x
    = fmul (bn256_fq2 (zp_ops (modulus bn256_fq))) (inj2 (zp_inj (modulus bn256_fq)) (9, 1)) x.
Proof.
  assert (P := field_in bn256_fq ltac:(cbn; auto)). split.
  - exact (fl_rl _ (tf_2 _ _ _ _ _ (bn256_tower_facts _ _ P))).
  - exact (bn256_mnr_inj _ _ _ P).
Qed.

(** C21.  Exact for quadratic extensions of a field whose [is_zero] is exact ... *)
Theorem C21_quad_partial : forall F (o : fops F) a, (forall x, fis0 o x = true <-> x = f0 o) ->
  (quad_is_zero o a = true <-> a = mk_quad (f0 o) (f0 o)).
Proof. exact (fun F o a Hz => quad_is0_law o (fun x => x) (fun x => x) Hz a). Qed.
Print Assumptions C21_quad_partial.
(** ... but the cubic extension looks at two of three coefficients only. *)
Theorem C21_cubic_exact : forall F (o : fops F) a, (forall x, fis0 o x = true <-> x = f0 o) ->
  (cubic_is_zero o a = true <-> k0 a = f0 o /\ k1 a = f0 o).
Proof. exact (fun F o a Hz => cubic_is_zero_spec o a Hz). Qed.
Print Assumptions C21_cubic_exact.
Theorem C21_refuted : forall F (o : fops F), field_laws o -> is0_law o ->
  (exists a, cubic_is_zero o a = true /\ a <> cubic_zero o) /\
  forall mnr, exists b, fis0 (fq12_ops o mnr) b = true /\ b <> f0 (fq12_ops o mnr).
Proof.
  intros F o H Hz.
  assert (E : cubic_is_zero o (mk_cubic (f0 o) (f0 o) (f1 o)) = true)
    by (apply (cubic_is_zero_spec o _ Hz); auto).
  assert (N : mk_cubic (f0 o) (f0 o) (f1 o) <> cubic_zero o)
    by (intros X; injection X; apply (fl_1_0 _ H)).
  split.
  - exists (mk_cubic (f0 o) (f0 o) (f1 o)). auto.
  - intros mnr. exists (mk_quad (mk_cubic (f0 o) (f0 o) (f1 o)) (mk_cubic (f0 o) (f0 o) (f1 o))).
    split.
    + cbn. unfold quad_is_zero. cbn [q0 q1]. cbn [fq6_ops cubic_ops fis0]. rewrite E. reflexivity.
    + intros X. exact (fl_1_0 _ H (f_equal (fun x => k2 (q0 x)) X)).
Qed.
Print Assumptions C21_refuted.
(** Concretely: the non-zero element v^2 of bn256 Fq6. *)
Example C21_witness :
  let o2 := bn256_fq2 (zp_ops (modulus bn256_fq)) in
  fis0 (bn256_fq6 (zp_ops (modulus bn256_fq))) (mk_cubic (f0 o2) (f0 o2) (f1 o2)) = true /\
  feqb (bn256_fq6 (zp_ops (modulus bn256_fq))) (mk_cubic (f0 o2) (f0 o2) (f1 o2))
    (f0 (bn256_fq6 (zp_ops (modulus bn256_fq)))) = false.
Proof. vm_compute. auto. Qed.

(** C22 *)
Theorem C22_bn256 : forall F (o : fops F) inj, prime_field (modulus bn256_fq) o inj -> forall k, 0 <= k ->
  let p := modulus bn256_fq in
  (forall a, fq2_frobenius o k a = fpowz (bn256_fq2 o) a (p ^ k)) /\
  (forall a, tower_frob6 o inj bn256_tower (bn256_fq2 o) k a = fpowz (bn256_fq6 o) a (p ^ k)) /\
  (forall a, tower_frob12 o inj bn256_tower (bn256_fq2 o) k a = fpowz (bn256_fq12 o) a (p ^ k)).
Proof. exact (fun F o inj HP k Hk => let T := bn256_tower_facts o inj HP in
  conj (fun a => tf_frob2 _ _ _ _ _ T k a Hk) (conj (fun a => tf_frob6 _ _ _ _ _ T k a Hk)
   (fun a => tf_frob12 _ _ _ _ _ T k a Hk))). Qed.
Print Assumptions C22_bn256.
Theorem C22_bls12381 : forall F (o : fops F) inj, prime_field (modulus bls12381_fq) o inj -> forall k, 0 <= k ->
  let p := modulus bls12381_fq in
  (forall a, fq2_frobenius o k a = fpowz (bls_fq2 o) a (p ^ k)) /\
  (forall a, tower_frob6 o inj bls12381_tower (bls_fq2 o) k a = fpowz (bls_fq6 o) a (p ^ k)) /\
  (forall a, tower_frob12 o inj bls12381_tower (bls_fq2 o) k a = fpowz (bls_fq12 o) a (p ^ k)).
Proof. exact (fun F o inj HP k Hk => let T := bls_tower_facts o inj HP in
  conj (fun a => tf_frob2 _ _ _ _ _ T k a Hk) (conj (fun a => tf_frob6 _ _ _ _ _ T k a Hk)
   (fun a => tf_frob12 _ _ _ _ _ T k a Hk))). Qed.
Print Assumptions C22_bls12381.
Theorem C22_pluto : forall F (o : fops F) inj, prime_field (modulus pluto_eris_fp) o inj -> forall k, 0 <= k ->
  let p := modulus pluto_eris_fp in
  (forall a, fq2_frobenius o k a = fpowz (pluto_fp2 o) a (p ^ k)) /\
  (forall a, tower_frob6 o inj pluto_tower (pluto_fp2 o) k a = fpowz (pluto_fp6 o inj) a (p ^ k)) /\
  (forall a, tower_frob12 o inj pluto_tower (pluto_fp2 o) k a = fpowz (pluto_fp12 o inj) a (p ^ k)).
Proof. exact (fun F o inj HP k Hk => let T := pluto_tower_facts o inj HP in
  conj (fun a => tf_frob2 _ _ _ _ _ T k a Hk) (conj (fun a => tf_frob6 _ _ _ _ _ T k a Hk)
   (fun a => tf_frob12 _ _ _ _ _ T k a Hk))). Qed.
Print Assumptions C22_pluto.
(** The table values used are the ones the literals of the source denote. *)
Theorem C22_tables_denote :
  (lits_denote (modulus bn256_fq) 4 bn256_c6_1_src bn256_c6_1 &&
   lits_denote (modulus bn256_fq) 4 bn256_c6_2_src bn256_c6_2 &&
   lits_denote (modulus bn256_fq) 4 bn256_c12_src bn256_c12 = true) /\
  (lits_denote (modulus bls12381_fq) 6 bls12381_c6_1_src bls12381_c6_1 &&
   lits_denote (modulus bls12381_fq) 6 bls12381_c6_2_src bls12381_c6_2 &&
   lits_denote (modulus bls12381_fq) 6 bls12381_c12_src bls12381_c12 = true) /\
  (lits_denote (modulus pluto_eris_fp) 7 pluto_c6_1_src pluto_c6_1 &&
   lits_denote (modulus pluto_eris_fp) 7 pluto_c6_2_src pluto_c6_2 &&
   lits_denote (modulus pluto_eris_fp) 7 pluto_c12_src pluto_c12 = true).
Proof. exact (conj bn256_tables_denote (conj bls_tables_denote pluto_tables_denote)). Qed.
Print Assumptions C22_tables_denote.
(** The map is not the identity: u is sent to -u. *)
Example C22_example :
  let o := zp_ops (modulus bn256_fq) in
  quad_eqb o (fq2_frobenius o 1 (mk_quad (f0 o) (f1 o))) (mk_quad (f0 o) (fneg o (f1 o))) = true /\
  feqb o (f1 o) (fneg o (f1 o)) = false.
Proof. vm_compute. auto. Qed.

(** C23 *)
Theorem C23_bn256 : forall F (o : fops F) inj, prime_field (modulus bn256_fq) o inj -> forall f,
  let p := modulus bn256_fq in
  fpowz (bn256_fq12 o) f (p ^ 4 - p ^ 2 + 1) = f1 (bn256_fq12 o) ->
  cyclotomic_square (bn256_fq2 o) (bn256_fq2_mnr o) f = fmul (bn256_fq12 o) f f.
Proof. exact (fun F o inj HP f => tf_cyclo _ _ _ _ _ (bn256_tower_facts o inj HP) f). Qed.
Print Assumptions C23_bn256.
Theorem C23_bls12381 : forall F (o : fops F) inj, prime_field (modulus bls12381_fq) o inj -> forall f,
  let p := modulus bls12381_fq in
  fpowz (bls_fq12 o) f (p ^ 4 - p ^ 2 + 1) = f1 (bls_fq12 o) ->
  cyclotomic_square (bls_fq2 o) (bls_fq2_mnr o) f = fmul (bls_fq12 o) f f.
Proof. exact (fun F o inj HP f => tf_cyclo _ _ _ _ _ (bls_tower_facts o inj HP) f). Qed.
Print Assumptions C23_bls12381.
Theorem C23_pluto : forall F (o : fops F) inj, prime_field (modulus pluto_eris_fp) o inj -> forall f,
  let p := modulus pluto_eris_fp in
  fpowz (pluto_fp12 o inj) f (p ^ 4 - p ^ 2 + 1) = f1 (pluto_fp12 o inj) ->
  cyclotomic_square (pluto_fp2 o) (pluto_mnr o inj) f = fmul (pluto_fp12 o inj) f f.
Proof. exact (fun F o inj HP f => tf_cyclo _ _ _ _ _ (pluto_tower_facts o inj HP) f). Qed.
Print Assumptions C23_pluto.
(** Every non-zero x yields an element meeting the hypothesis. *)
Example C23_example : forall F (o : fops F) inj, prime_field (modulus bn256_fq) o inj -> forall x,
  let p := modulus bn256_fq in
  x <> f0 (bn256_fq12 o) ->
  fpowz (bn256_fq12 o) (fpowz (bn256_fq12 o) x ((p ^ 6 - 1) * (p ^ 2 + 1))) (p ^ 4 - p ^ 2 + 1)
    = f1 (bn256_fq12 o).
Proof. exact (fun F o inj HP x => tf_image _ _ _ _ _ (bn256_tower_facts o inj HP) x). Qed.
