(** Property C07: the Legendre symbol.

    [jacobi_symbol a n] (SpecJacobi.v) is defined by the Gauss-Schering count and does not
    mention the algorithm.  [JDiverged] and [JPanic] are the results of the model for a
    loop that does not end and for an index out of bounds. *)
From Verif Require Import Base Word Limbs Bytes Field SpecField Params FieldFacts Certs LimbsFacts.
From Verif Require Import Algebra Pow FiniteField PrimeField Tower TowerFacts Primality TowerParams TowerInst.
From Verif Require Import Inverse InverseFacts InvertFacts LimbField Sqrt SqrtFacts Props_Field Props_Field2 Props_Sqrt2.
From Verif Require Import SpecJacobi JacSymFacts Jacobi JacobiLint JacobiInner JacobiProg JacobiFacts JacobiLoop JacobiField.
From Verif Require Import Curve CurveFacts CurveParams CurveInst H2c H2cFacts H2cSuites H2cSuiteFacts SerdeInst CrateCurves SpecH2c
  CofGroups Props_H2c.
From Bignums Require Import BigZ.
Local Open Scope Z_scope.

(** ** The reference symbol is the usual one *)
(** For an odd prime it is the Legendre symbol... *)
Theorem C07_symbol_prime : forall p x, prime p -> Z.odd p = true -> 0 <= x < p ->
  (x = 0 -> jacobi_symbol x p = 0) /\
  (x <> 0 -> (exists y, (y * y) mod p = x) -> jacobi_symbol x p = 1) /\
  (x <> 0 -> (forall y, (y * y) mod p <> x) -> jacobi_symbol x p = -1).
Proof. exact js_legendre. Qed.
Print Assumptions C07_symbol_prime.
(** ... and it is multiplicative in the lower argument. *)
Theorem C07_symbol_product : forall a m n, 0 < m -> 0 < n -> Z.odd m = true -> Z.odd n = true ->
  jacobi_symbol a (m * n) = jacobi_symbol a m * jacobi_symbol a n.
Proof. exact js_lower_mul. Qed.
Print Assumptions C07_symbol_product.

(** ** The algorithm *)
(** [jacobi::<L>(n, d)] ends without a panic with the Jacobi symbol, for all limb slices
    that fit and leave the top 31 bits free, and any odd [d], prime or not. *)
Theorem C07_jacobi : forall L n d, (1 <= L)%nat -> words n -> words d -> (length n <= L)%nat -> (length d <= L)%nat ->
  eval n < 2 ^ (64 * Z.of_nat L - 31) -> eval d < 2 ^ (64 * Z.of_nat L - 31) -> Z.odd (eval d) = true ->
  jacobi L n d = JVal (jacobi_symbol (eval n) (eval d)).
Proof.
  intros L n d HL Wn' Wd Ln Ld Bn Bd Od.
  assert (EJ : jo_lim L = 2 ^ (64 * Z.of_nat L - 31)).
  { unfold jo_lim. rewrite Wn_pow2, <- Z.pow_sub_r by lia. reflexivity. }
  rewrite <- EJ in Bn, Bd. exact (jacobi_spec L n d HL Wn' Wd Ln Ld Bn Bd Od).
Qed.
Print Assumptions C07_jacobi.
(** The single-word loop alone. *)
Theorem C07_jacobinary : forall n d t, 0 <= n < W -> 0 < d < W -> Z.odd d = true ->
  run_until 8 jacobinary_step (n, d, t) = inr ((if Z.testbit t 1 then -1 else 1) * jacobi_symbol n d).
Proof.
  intros n d t Hn Hd Od. rewrite jacobinary_spec by assumption. unfold jm. rewrite Z.abs_eq by lia. reflexivity.
Qed.
Print Assumptions C07_jacobinary.

(** ** Fields *)
Theorem C07_legendre : forall c a x, odd_conf c -> prime (modulus c) -> represents (num_limbs c) (modulus c) a x ->
  (x = 0 -> fe_legendre c a = JVal 0) /\
  (x <> 0 -> (exists y, (y * y) mod modulus c = x) -> fe_legendre c a = JVal 1) /\
  (x <> 0 -> (forall y, (y * y) mod modulus c <> x) -> fe_legendre c a = JVal (-1)).
Proof.
  intros c a x Hc Hp R. rewrite (fe_legendre_symbol c a x Hc R).
  destruct (js_legendre (modulus c) x Hp (proj2 Hc) (proj1 (proj2 R))) as (L1 & L2 & L3).
  split; [|split]; intros; f_equal; auto.
Qed.
Print Assumptions C07_legendre.
Theorem C07_crate : forall c a x, In c all_fields -> represents (num_limbs c) (modulus c) a x ->
  (x = 0 -> fe_legendre c a = JVal 0) /\
  (x <> 0 -> (exists y, (y * y) mod modulus c = x) -> fe_legendre c a = JVal 1) /\
  (x <> 0 -> (forall y, (y * y) mod modulus c <> x) -> fe_legendre c a = JVal (-1)).
Proof. exact (fun c a x H => C07_legendre c a x (field_odd c H) (field_prime c H)). Qed.
Print Assumptions C07_crate.
(** [ct_quadratic_residue] and [ct_quadratic_non_residue]; zero counts as a residue. *)
Theorem C07_residue_tests : forall c a x, In c all_fields -> represents (num_limbs c) (modulus c) a x ->
  (fe_qnr c a = true <-> forall y, (y * y) mod modulus c <> x) /\
  (fe_qr c a = true <-> exists y, (y * y) mod modulus c = x).
Proof.
  intros c a x H R. pose proof (C07_crate c a x H R) as (L0 & L1 & L2).
  assert (Z0 : (0 * 0) mod modulus c = 0) by (apply Z.mod_0_l; pose proof (p_gt1 c (field_odd c H)); lia).
  assert (S : (exists y, (y * y) mod modulus c = x) \/ (forall y, (y * y) mod modulus c <> x)).
  { destruct (C08_crate c a x H R) as ([s|] & _ & E); [left; destruct E as (y & _ & E); eauto|right; exact E]. }
  unfold fe_qnr, fe_qr. destruct (Z.eq_dec x 0) as [Ex|Nx].
  - rewrite (L0 Ex). cbn [Z.eqb Pos.eqb negb]. subst x. split; split; try discriminate; eauto.
    intros A. exfalso. exact (A 0 Z0).
  - destruct S as [S|S]; [rewrite (L1 Nx S)|rewrite (L2 Nx S)]; cbn [Z.eqb Pos.eqb negb]; split; split; try discriminate; eauto.
    + intros A. exfalso. destruct S as [y E]. exact (A y E).
    + intros [y E]. exfalso. exact (S y E).
Qed.
Print Assumptions C07_residue_tests.

(** ** Quadratic extensions *)
(** A correct Legendre symbol on any field. *)
Definition legendre_ok {F} (o : fops F) (leg : F -> jac_out) : Prop := forall x,
  (x = f0 o -> leg x = JVal 0) /\
  (x <> f0 o -> is_square o x -> leg x = JVal 1) /\
  (~ is_square o x -> leg x = JVal (-1)).

(** The limb arrays of the crate, with the crate's operations. *)
Definition lf_legendre (c : fconf) (x : lf c) : jac_out := fe_legendre c (limbs x).
Definition lf_qnr (c : fconf) (x : lf c) : bool := fe_qnr c (limbs x).

Lemma lf_pf7 c : In c all_fields -> forall Hc : odd_conf c, prime_field (modulus c) (lf_ops c Hc) (lf_inj c Hc).
Proof. intros H Hc. exact (lf_prime_field c Hc (field_sized c H) (field_prime c H)). Qed.

Lemma lf_square_iff c Hc (x : lf c) : In c all_fields ->
  is_square (lf_ops c Hc) x <-> exists y, (y * y) mod modulus c = lf_val c x.
Proof.
  intros H. pose proof (lf_zrep c Hc (field_sized c H) (field_prime c H)) as ZR.
  rewrite <- (zr_inj_val _ _ _ _ ZR x) at 1. rewrite (pf_square_iff _ _ _ (lf_pf7 c H Hc)).
  rewrite (zr_mod (modulus c) _ _ _ (field_prime c H) ZR x). reflexivity.
Qed.
Theorem C07_limbs : forall c (Hc : odd_conf c), In c all_fields -> legendre_ok (lf_ops c Hc) (lf_legendre c).
Proof.
  intros c Hc H x. pose proof (lf_zrep c Hc (field_sized c H) (field_prime c H)) as ZR.
  destruct (C07_crate c (limbs x) (lf_val c x) H (lf_repr c Hc x)) as (L0 & L1 & L2).
  assert (Z0 : x = f0 (lf_ops c Hc) <-> lf_val c x = 0).
  { split; [intros ->; exact (zr_0 _ _ _ _ ZR)|]. intros E. apply (zr_ext _ _ _ _ ZR). rewrite E. symmetry. exact (zr_0 _ _ _ _ ZR). }
  assert (S0 : (0 * 0) mod modulus c = 0) by (apply Z.mod_0_l; pose proof (p_gt1 c Hc); lia).
  rewrite (lf_square_iff c Hc x H). unfold lf_legendre. split; [|split].
  - intros E. apply L0, Z0, E.
  - intros N S. apply L1; [rewrite <- Z0; exact N|exact S].
  - intros N. apply L2; [|intros y E; apply N; eauto]. intros E. apply N. exists 0. rewrite E. exact S0.
Qed.
Print Assumptions C07_limbs.

Lemma quad_legendre_ok p {F} (o : fops F) inj mnr beta sq leg : prime_field p o inj -> 2 < p ->
  (forall x, mnr x = fmul o beta x) -> (forall x, fmul o x x <> beta) -> (forall a, sq a = quad_mul o mnr a a) ->
  legendre_ok o leg -> legendre_ok (quad_ops o mnr sq) (quad_legendre o mnr leg).
Proof.
  intros HP P2 Hm Hn Hs HL x. unfold quad_legendre. destruct (HL (quad_norm o mnr x)) as (L0 & L1 & L2).
  pose proof (norm_square p o inj HP mnr beta sq P2 Hm Hn Hs x) as NS.
  pose proof (quad_norm_zero o mnr beta (pf_laws _ _ _ HP) Hm Hn x) as NZ.
  split; [|split].
  - intros E. apply L0, NZ, E.
  - intros N S. apply L1; [intros E; apply N, NZ, E|apply NS, S].
  - intros N. apply L2. intros S. apply N, NS, S.
Qed.

Theorem C07_bn256_fq2 : forall F (o : fops F) inj leg, prime_field (modulus bn256_fq) o inj -> legendre_ok o leg ->
  legendre_ok (bn256_fq2 o) (quad_legendre o (mnr_neg o) leg).
Proof.
  intros F o inj leg HP. apply (quad_legendre_ok (modulus bn256_fq) o inj (mnr_neg o) (inj (-1)) (quad_square_complex o) leg HP).
  - vm_compute. reflexivity.
  - exact (mnr_neg_inj o inj _ HP).
  - exact (beta_nr bn256_tower o inj HP bn256_tower_ok).
  - exact (sq_complex o inj _ HP).
Qed.
Print Assumptions C07_bn256_fq2.
Theorem C07_bls12381_fq2 : forall F (o : fops F) inj leg, prime_field (modulus bls12381_fq) o inj -> legendre_ok o leg ->
  legendre_ok (bls_fq2 o) (quad_legendre o (mnr_neg o) leg).
Proof.
  intros F o inj leg HP. apply (quad_legendre_ok (modulus bls12381_fq) o inj (mnr_neg o) (inj (-1)) (quad_square_complex o) leg HP).
  - vm_compute. reflexivity.
  - exact (mnr_neg_inj o inj _ HP).
  - exact (beta_nr bls12381_tower o inj HP bls_tower_ok).
  - exact (sq_complex o inj _ HP).
Qed.
Print Assumptions C07_bls12381_fq2.
Theorem C07_pluto_fp2 : forall F (o : fops F) inj leg, prime_field (modulus pluto_eris_fp) o inj -> legendre_ok o leg ->
  legendre_ok (pluto_fp2 o) (quad_legendre o (mnr_m5 o) leg).
Proof.
  intros F o inj leg HP. apply (quad_legendre_ok (modulus pluto_eris_fp) o inj (mnr_m5 o) (inj (-5)) (quad_square o (mnr_m5 o)) leg HP).
  - vm_compute. reflexivity.
  - exact (mnr_m5_inj o inj _ HP).
  - exact (beta_nr pluto_tower o inj HP pluto_tower_ok).
  - exact (quad_square_mul o (mnr_m5 o) _ (fl_rl _ (pf_laws _ _ _ HP)) (mnr_m5_inj o inj _ HP)).
Qed.
Print Assumptions C07_pluto_fp2.

(** ** The maps to the curve with the crate's own residue test *)
Theorem C07_qnr_test : forall c (Hc : odd_conf c), In c all_fields -> qnr_ok (lf_ops c Hc) (lf_qnr c).
Proof.
  intros c Hc H x. unfold lf_qnr. rewrite (lf_square_iff c Hc x H).
  rewrite (proj1 (C07_residue_tests c (limbs x) (lf_val c x) H (lf_repr c Hc x))).
  split; [intros A [y E]; exact (A y E)|intros A y E; apply A; eauto].
Qed.
Print Assumptions C07_qnr_test.

(** C46 and C36 with no hypothesis on the test: the crate's limb arrays and [legendre]. *)
Theorem C46_svdw_limbs : forall odd : forall c, lf c -> bool,
  let spec := fun c (Hc : odd_conf c) cc (m : (lf c -> bool) -> lf c -> h2c (proj (lf c))) =>
    forall u, exists x y, m (lf_qnr c) u = HRet (mk_proj x y (f1 (lf_ops c Hc))) /\
      svdw_spec (lf_ops c Hc) (odd c) (ca cc) (cb cc) (f1 (lf_ops c Hc)) u x y in
  (forall Hc, let o := lf_ops bn256_fq Hc in let inj := lf_inj bn256_fq Hc in
     spec bn256_fq Hc (curve_of_bn256_g1 o inj bn256_g1_consts) (fun q => bn256_g1_map o inj (odd _) q)) /\
  (forall Hc, let o := lf_ops bn256_fr Hc in let inj := lf_inj bn256_fr Hc in
     spec bn256_fr Hc (curve_of o inj grumpkin_consts) (fun q => grumpkin_map o inj (odd _) q)) /\
  (forall Hc, let o := lf_ops secp256k1_fq Hc in let inj := lf_inj secp256k1_fq Hc in
     spec secp256k1_fq Hc (curve_of o inj secq256k1_consts) (fun q => secq256k1_map o inj (odd _) q)) /\
  (forall Hc, let o := lf_ops pluto_eris_fp Hc in let inj := lf_inj pluto_eris_fp Hc in
     spec pluto_eris_fp Hc (curve_of o inj pluto_consts) (fun q => pluto_map o inj (odd _) q)) /\
  (forall Hc, let o := lf_ops pluto_eris_fq Hc in let inj := lf_inj pluto_eris_fq Hc in
     spec pluto_eris_fq Hc (curve_of o inj eris_consts) (fun q => eris_map o inj (odd _) q)).
Proof.
  intros odd spec.
  split; [|split; [|split; [|split]]]; intros Hc; cbv zeta; unfold spec; intros u; set (o := lf_ops _ Hc); set (inj := lf_inj _ Hc).
  - assert (H : In bn256_fq all_fields) by in_fields.
    exact (proj1 (C46_svdw _ o inj (odd _) _ (C07_qnr_test _ Hc H)) (lf_pf7 _ H Hc) u).
  - assert (H : In bn256_fr all_fields) by in_fields.
    exact (proj1 (proj2 (C46_svdw _ o inj (odd _) _ (C07_qnr_test _ Hc H))) (lf_pf7 _ H Hc) u).
  - assert (H : In secp256k1_fq all_fields) by in_fields.
    exact (proj1 (proj2 (proj2 (C46_svdw _ o inj (odd _) _ (C07_qnr_test _ Hc H)))) (lf_pf7 _ H Hc) u).
  - assert (H : In pluto_eris_fp all_fields) by in_fields.
    exact (proj1 (proj2 (proj2 (proj2 (C46_svdw _ o inj (odd _) _ (C07_qnr_test _ Hc H))))) (lf_pf7 _ H Hc) u).
  - assert (H : In pluto_eris_fq all_fields) by in_fields.
    exact (proj2 (proj2 (proj2 (proj2 (C46_svdw _ o inj (odd _) _ (C07_qnr_test _ Hc H))))) (lf_pf7 _ H Hc) u).
Qed.
Print Assumptions C46_svdw_limbs.

(** ** The comment of [approximate] *)
(** jacobi.rs:251-262 promises (v div 2^(n-32)) * 2^32 + v mod 2^32 where n > 64 is the bit
    length of the larger argument.  The code keeps only the bits of the top limb: with
    z leading zeros there, 64 - z of them instead of 32 when z > 32. *)
Definition documented_approximation (n v : Z) : Z := v / 2 ^ (n - 32) * 2 ^ 32 + v mod 2 ^ 32.
Theorem C07_approximate_doc_refuted :
  let x := [1; 2 ^ 63; 1] in let y := [1; 0; 0] in
  approximate 3 x y = Some (2 ^ 63 + 1, 1, false) /\
  documented_approximation (Z.log2 (eval x) + 1) (eval x) = 2 ^ 63 + 2 ^ 62 + 1.
Proof. vm_compute. split; reflexivity. Qed.
Print Assumptions C07_approximate_doc_refuted.
(** What it returns for all inputs.  The loops still end and return the symbol, see [C07_jacobi]. *)
Theorem C07_approximate : forall L x y, (1 <= L)%nat -> length x = L -> length y = L -> words x -> words y ->
  match approximate L x y with
  | None => eval x = 0 /\ eval y = 0
  | Some (a, b, true) => a = eval x /\ b = eval y
  | Some (a, b, false) => exists i z, (1 <= i < L)%nat /\ 0 <= z <= 63 /\
      let top v := v / 2 ^ (64 * Z.of_nat i) in
      Z.log2 (Z.max (eval x) (eval y)) + 1 = 64 * Z.of_nat i + 64 - z /\
      a = top (eval x) * 2 ^ z / 2 ^ 32 * 2 ^ 32 + eval x mod 2 ^ 32 /\
      b = top (eval y) * 2 ^ z / 2 ^ 32 * 2 ^ 32 + eval y mod 2 ^ 32
  end.
Proof.
  intros L x y HL Lx Ly Wx Wy. pose proof (approximate_spec L x y HL Lx Ly Wx Wy) as A.
  destruct (approximate L x y) as [[[a b] [|]]|]; [|destruct A as (i & z & Hi & Hz & Ex & Ey & Ux & Uy & T & -> & ->)|exact A].
  - destruct A as (E1 & E2 & _). auto.
  - exists i, z. split; [exact Hi|]. split; [exact Hz|]. cbv zeta beta.
    pose proof (firstn_bound x i Wx ltac:(lia)) as Fx. pose proof (firstn_bound y i Wy ltac:(lia)) as Fy.
    pose proof (nth_word x i Wx) as Nx. pose proof (nth_word y i Wy) as Ny.
    assert (DV : forall v l h, v = l + Wn i * h -> 0 <= l < Wn i -> v / 2 ^ (64 * Z.of_nat i) = h).
    { intros v l h E B. rewrite <- Wn_pow2, E. rewrite Z.add_comm, Z.mul_comm, Z.div_add_l by lia.
      rewrite Z.div_small by exact B. ring. }
    rewrite (DV _ _ _ Ex Fx), (DV _ _ _ Ey Fy).
    assert (LW : forall l, words l -> eval l mod 2 ^ 32 = nth 0 l 0 mod 2 ^ 32).
    { intros l Hl. destruct (eval_low l Hl) as [q Eq]. replace (nth 0 l 0) with (eval l + q * 2 ^ 32).
      - symmetry. apply Z_mod_plus_full.
      - change (2 ^ 32) with B32. lia. }
    rewrite (LW x Wx), (LW y Wy). split; [|split; reflexivity].
    assert (E1 : 2 ^ (64 - z) = 2 * 2 ^ (63 - z)) by (replace (64 - z) with (Z.succ (63 - z)) by lia; apply Z.pow_succ_r; lia).
    assert (EQ : 2 ^ (63 - z + 64 * Z.of_nat i) = Wn i * 2 ^ (63 - z)) by (rewrite Z.pow_add_r, Wn_pow2 by lia; ring).
    assert (LG : Z.log2 (Z.max (eval x) (eval y)) = 63 - z + 64 * Z.of_nat i); [|lia].
    apply Z.log2_unique; [lia|]. rewrite Z.pow_succ_r by lia. rewrite EQ. rewrite E1 in Ux, Uy.
    set (P := 2 ^ (63 - z)) in *. set (T0 := Wn i) in *. pose proof (Wn_pos i) as WP. fold T0 in WP.
    set (xi := nth i x 0) in *. set (yi := nth i y 0) in *.
    assert (eval x < 2 * (T0 * P)) by (rewrite Ex; clear - Fx WP Nx Ux; nia).
    assert (eval y < 2 * (T0 * P)) by (rewrite Ey; clear - Fy WP Ny Uy; nia).
    split; [|clear - H H0; lia]. destruct T as [T|T].
    + assert (T0 * P <= eval x) by (rewrite Ex; clear - Fx WP T; nia). clear - H1; lia.
    + assert (T0 * P <= eval y) by (rewrite Ey; clear - Fy WP T; nia). clear - H1; lia.
Qed.
Print Assumptions C07_approximate.

(** ** Concrete cases *)
Example C07_example_values :
  map (fun x => fe_legendre bn256_fq (mont_of bn256_fq x)) [0; 2; 3] = [JVal 0; JVal 1; JVal (-1)] /\
  fe_legendre secp256k1_fp (mont_of secp256k1_fp (-1)) = JVal (-1).
Proof. vm_compute. repeat split; reflexivity. Qed.
(** The hypotheses of [C07_crate] are met, and its cases occur. *)
Example C07_example : fe_legendre secp256r1_fq (mont_of secp256r1_fq 4) = JVal 1.
Proof.
  assert (I : In secp256r1_fq all_fields) by (cbn [In all_fields]; tauto).
  apply (proj1 (proj2 (C07_crate _ _ _ I (mont_of_repr _ 4 I)))); [discriminate|]. exists 2. reflexivity.
Qed.
(** A composite lower argument of three limbs, and one with a common factor. *)
Example C07_example_jacobi :
  jacobi 4 [5; 7; 11] [15; 0; 1] = JVal (jacobi_symbol (eval [5; 7; 11]) (eval [15; 0; 1])) /\
  jacobi 3 [21] [15] = JVal 0 /\ jacobi 3 [2] [15] = JVal 1 /\ jacobi 3 [7] [15] = JVal (-1).
Proof.
  split; [|vm_compute; repeat split; reflexivity].
  assert (B : Forall (fun w => 0 <= w < 16) [5; 7; 11] /\ Forall (fun w => 0 <= w < 16) [15; 0; 1]) by (split; repeat constructor; lia).
  assert (K : forall l, Forall (fun w => 0 <= w < 16) l -> words l).
  { intros l Hl. eapply Forall_impl; [|exact Hl]. intros w Hw. cbv beta in Hw. rewrite W_val. lia. }
  refine (C07_jacobi 4 [5; 7; 11] [15; 0; 1] _ (K _ (proj1 B)) (K _ (proj2 B)) _ _ _ _ _).
  - lia.
  - cbn [length]. lia.
  - cbn [length]. lia.
  - vm_compute. reflexivity.
  - vm_compute. reflexivity.
  - vm_compute. reflexivity.
Qed.
