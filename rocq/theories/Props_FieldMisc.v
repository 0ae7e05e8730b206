(** Property theorems C56 ([sqrt_ratio]) and C57 (ordering and constants of the quadratic extensions). *)
From Verif Require Import Base Word Limbs Bytes Field SpecField Params LimbsFacts FieldFacts BytesFacts FieldSerdeFacts
  Algebra Pow Tower TowerFacts FiniteField PrimeField Primality Certs ConstFacts TowerParams TowerInst Curve Inverse LimbField Props_Field Props_Field2
  Props_Tower Sqrt Sqrt2 Sqrt2Facts Props_Sqrt2 Serde SerdeInst H2c H2cFacts H2cSuites H2cSuiteFacts FieldMisc.
From Coq Require Import Znumtheory.
Local Open Scope Z_scope.

(** ** C56 *)
Section Mul0.
Context {F : Type} (o : fops F) (HR : ring_laws o).
Add Ring FRmisc : (rl_ring _ HR).
Lemma mul0l x : fmul o (f0 o) x = f0 o.
Proof. ring. Qed.
End Mul0.
Lemma root_nonsquare (c : fconf) {F} (o : fops F) inj : In c all_fields -> prime_field (modulus c) o inj ->
  ~ is_square o (inj (root_of_unity_int c)).
Proof.
  intros I HP. pose proof (field_odd c I) as Hc. pose proof (generator_half c I) as Hg. pose proof (p_gt2 c Hc) as P2.
  pose proof (pf_laws _ _ _ HP) as HL.
  assert (Z0 : inj (root_of_unity_int c) <> f0 o).
  { intros E. apply (pf_zero_iff _ _ _ HP) in E. pose proof (root_bound c Hc Hg) as B. rewrite Z.mod_small in E by lia. lia. }
  apply (euler_nonsquare o HL _ (prime_field_finite _ _ _ HP) (pf_two _ _ _ HP P2) _ Z0).
  destruct (adicity c Hc) as (A1 & A2 & A3 & A4).
  rewrite (pf_pow _ _ _ HP) by (apply Z.div_pos; lia).
  rewrite (half_adicity c Hc), Z.pow_mul_r by lia. rewrite Zpower_mod, (root_half c Hc Hg) by lia.
  assert (E : (modulus c - 1) ^ odd_part c mod modulus c = (-1) mod modulus c).
  { replace (modulus c - 1) with (-1 + 1 * modulus c) by lia. rewrite Zpower_mod, Z.mod_add by lia. rewrite <- Zpower_mod by lia.
    change (-1) with (- (1)) at 1. rewrite Z.pow_opp_odd by (apply Z.odd_spec; exact A4). rewrite Z.pow_1_l by lia. reflexivity. }
  rewrite E, (pf_mod _ _ _ HP). exact (inj_m1 o inj _ HP).
Qed.

(** [sqrt_ratio num div]: (true, sqrt(num/div)) if the quotient is a square, (true, 0) if num = 0,
    (false, 0) if only div = 0, and otherwise (false, sqrt(w num/div)), w = ROOT_OF_UNITY, as
    the documentation of trait [Field] says; no panic. *)
Definition ratio_spec {F} (o : fops F) (w num div : F) (b : bool) (r : F) : Prop :=
  (num = f0 o -> b = true /\ r = f0 o)
  /\ (num <> f0 o -> div = f0 o -> b = false /\ r = f0 o)
  /\ (num <> f0 o -> div <> f0 o -> exists v, fmul o v div = num /\
        if b then fmul o r r = v else ~ is_square o v /\ fmul o r r = fmul o v w).
Theorem C56_sqrt_ratio : forall c, In c all_fields -> forall F (o : fops F) inj, prime_field (modulus c) o inj ->
  forall num div, exists b r, field_sqrt_ratio o inj c num div = HRet (b, r)
    /\ ratio_spec o (inj (root_of_unity_int c)) num div b r.
Proof.
  intros c I F o inj HP num div. pose proof (field_odd c I) as Hc. pose proof (p_gt2 c Hc) as P2.
  pose proof (pf_laws _ _ _ HP) as H. pose proof (fl_rl _ H) as HR. pose proof (pf_is0 _ _ _ HP) as H0.
  pose proof (root_nonsquare c o inj I HP) as Nz. set (w := inj (root_of_unity_int c)) in *.
  pose proof (fq_sqrt_ok c I o inj HP) as HS.
  assert (SQ0 : forall r, fmul o r r = f0 o -> r = f0 o).
  { intros r E. destruct (feqb_dec o H r (f0 o)) as [X|X]; [exact X|]. exfalso. exact (mul_nonzero o H r r X X E). }
  unfold field_sqrt_ratio. fold w. destruct (feqb_dec o H div (f0 o)) as [Zd|Zd].
  - subst div. unfold sqrt_ratio. cbv zeta. rewrite (inv_or_zero_0' o H), !(mul0l o HR), (proj2 (H0 _) eq_refl).
    destruct (HS (f0 o)) as [(r & E & Er)|(E & N)].
    2:{ exfalso. apply N. exists (f0 o). apply (mul0l o HR). }
    rewrite E. cbn [h_sqrt h_bind]. rewrite Bool.orb_true_r. cbn [orb select h_unwrap h_bind negb andb].
    rewrite Bool.orb_false_r. exists (fis0 o num), r. split; [reflexivity|]. apply SQ0 in Er. split; [|split].
    + intros Zn. split; [apply H0; exact Zn|exact Er].
    + intros Nn _. split; [|exact Er]. destruct (fis0 o num) eqn:E1; [|reflexivity]. apply H0 in E1. contradiction.
    + intros _ X. contradiction.
  - destruct (sqrt_ratio_spec o H H0 _ (prime_field_finite _ _ _ HP) (pf_two _ _ _ HP P2) _ HS num div w Zd Nz) as (v & sq & r & Ev & E & S).
    exists sq, r. split; [exact E|]. split; [|split].
    + intros Zn. assert (V0 : v = f0 o).
      { destruct (feqb_dec o H v (f0 o)) as [X|X]; [exact X|]. exfalso. rewrite Zn in Ev. exact (mul_nonzero o H _ _ X Zd Ev). }
      destruct S as [[-> Er]|(-> & N & _)]; [split; [reflexivity|apply SQ0; congruence]|].
      exfalso. apply N. exists (f0 o). rewrite V0. apply (mul0l o HR).
    + intros _ X. contradiction.
    + intros _ _. exists v. split; [exact Ev|]. destruct S as [[-> Er]|(-> & N & Er)]; auto.
Qed.
Print Assumptions C56_sqrt_ratio.
(** [sqrt_alt x] is [sqrt_ratio x 1]. *)
Theorem C56_sqrt_alt : forall c, In c all_fields -> forall F (o : fops F) inj, prime_field (modulus c) o inj ->
  forall x, exists b r, field_sqrt_alt o inj c x = HRet (b, r)
    /\ if b then fmul o r r = x else ~ is_square o x /\ fmul o r r = fmul o x (inj (root_of_unity_int c)).
Proof.
  intros c I F o inj HP x. destruct (C56_sqrt_ratio c I F o inj HP x (f1 o)) as (b & r & E & S0 & _ & S1).
  pose proof (pf_laws _ _ _ HP) as H. pose proof (fl_rl _ H) as HR.
  exists b, r. split; [exact E|]. destruct (feqb_dec o H x (f0 o)) as [Z0|Z0].
  - destruct (S0 Z0) as [-> ->]. rewrite Z0. apply (mul0l o HR).
  - destruct (S1 Z0 (fl_1_0 _ H)) as (v & Ev & S). assert (v = x) as <-; [|exact S].
    rewrite <- Ev. pose proof (rl_ring _ HR) as R. rewrite (Rmul_comm R). symmetry. apply (Rmul_1_l R).
Qed.
Print Assumptions C56_sqrt_alt.
(** On the extension fields [sqrt_ratio] always panics. *)
Theorem C56_ext_refuted : forall F (num div : F), ext_sqrt_ratio num div = HPanic.
Proof. reflexivity. Qed.
Print Assumptions C56_ext_refuted.

(** ** C57 *)
(** The pair [a] of limb arrays stands for [x0 + x1 u]. *)
Definition rep2 (c : fconf) (a : quad (list Z)) (x0 x1 : Z) : Prop :=
  represents (num_limbs c) (modulus c) (q0 a) x0 /\ represents (num_limbs c) (modulus c) (q1 a) x1.
(** The order is that of the integers [x1 p + x0]: total, antisymmetric, and equal only on equal elements. *)
Theorem C57_cmp : forall c a b x0 x1 y0 y1, odd_conf c -> rep2 c a x0 x1 -> rep2 c b y0 y1 ->
  t2_cmp c a b = (x1 * modulus c + x0 ?= y1 * modulus c + y0)
  /\ t2_partial_cmp c a b = Some (t2_cmp c a b) /\ (t2_cmp c a b = Eq <-> a = b).
Proof.
  intros c a b x0 x1 y0 y1 Hc [A0 A1] [B0 B1].
  pose proof (proj1 (proj2 A0)) as RA0. pose proof (proj1 (proj2 A1)) as RA1. pose proof (proj1 (proj2 B0)) as RB0. pose proof (proj1 (proj2 B1)) as RB1.
  assert (E : t2_cmp c a b = (x1 * modulus c + x0 ?= y1 * modulus c + y0)).
  { unfold t2_cmp. rewrite (fe_cmp_spec c Hc _ _ _ _ A1 B1), (fe_cmp_spec c Hc _ _ _ _ A0 B0).
    destruct (Z.compare_spec x1 y1) as [->|L|L]; symmetry.
    - apply Z.add_compare_mono_l.
    - apply Z.compare_lt_iff. nia.
    - apply Z.compare_gt_iff. nia. }
  split; [exact E|]. split; [reflexivity|]. rewrite E, Z.compare_eq_iff. split.
  - intros Q. assert (x1 = y1) by nia. subst y1. assert (x0 = y0) by lia. subst y0. destruct a as [a0 a1], b as [b0 b1]. cbn [q0 q1] in *.
    rewrite (repr_inj c _ _ _ A0 B0), (repr_inj c _ _ _ A1 B1). reflexivity.
  - intros ->. rewrite (repr_unique c Hc _ _ _ A0 B0), (repr_unique c Hc _ _ _ A1 B1). reflexivity.
Qed.
Print Assumptions C57_cmp.
(** [lexicographically_largest] is "greater than its negation" in this order, unless the coefficient that decides is (p-1)/2. *)
Lemma t2_neg_rep c a x0 x1 : odd_conf c -> rep2 c a x0 x1 -> rep2 c (t2_neg c a) ((- x0) mod modulus c) ((- x1) mod modulus c).
Proof. intros Hc [A0 A1]. split; cbn [t2_neg q0 q1]; apply C01_neg; assumption. Qed.
Lemma neg_mod p x : 0 <= x < p -> (- x) mod p = if x =? 0 then 0 else p - x.
Proof.
  intros Hx. destruct (Z.eqb_spec x 0) as [->|N]; [apply Z.mod_0_l; lia|]. rewrite <- (Z.mod_add _ 1) by lia. rewrite Z.mod_small by lia. lia.
Qed.
Theorem C57_lex_partial : forall c a x0 x1, odd_conf c -> rep2 c a x0 x1 ->
  (if x1 =? 0 then x0 else x1) <> (modulus c - 1) / 2 ->
  (t2_lexicographically_largest c a = true <-> t2_cmp c a (t2_neg c a) = Gt).
Proof.
  intros c a x0 x1 Hc RA D. pose proof (t2_neg_rep c a x0 x1 Hc RA) as RN. rewrite (proj1 (C57_cmp c _ _ _ _ _ _ Hc RA RN)).
  destruct RA as [A0 A1]. pose proof (proj1 (proj2 A0)) as RA0. pose proof (proj1 (proj2 A1)) as RA1. pose proof (p_gt2 c Hc) as P2.
  unfold t2_lexicographically_largest. rewrite (C12_exact c _ _ Hc A0), (C12_exact c _ _ Hc A1).
  rewrite !neg_mod by assumption. rewrite Z.compare_gt_iff.
  assert (Zq : fe_eqb (q1 a) (fe_zero c) = (x1 =? 0)).
  { apply Bool.eq_true_iff_eq. rewrite (fe_eqb_repr c Hc _ _ _ _ A1 (fe_zero_repr c Hc)), Z.eqb_eq. reflexivity. }
  rewrite Zq. destruct Hc as [_ Ho]. set (p := modulus c) in *.
  pose proof (Z.div_mod p 2 ltac:(lia)) as E2. rewrite Zmod_odd, Ho in E2.
  assert (E3 : (p - 1) / 2 = p / 2). { symmetry. apply Z.div_unique with 0; lia. }
  rewrite E3 in *. clear Ho A0 A1 RN Zq E3. destruct (Z.eqb_spec x1 0) as [-> |N1].
  - destruct (Z.leb_spec (p / 2) 0) as [L|L]; [lia|]. change (0 =? 0) with true in D. cbv iota in D. cbn [orb andb]. rewrite Z.leb_le, !Z.mul_0_l, !Z.add_0_l. destruct (Z.eqb_spec x0 0); lia.
  - cbn [andb]. rewrite Bool.orb_false_r, Z.leb_le. destruct (Z.eqb_spec x0 0); split; intros X; nia.
Qed.
Print Assumptions C57_lex_partial.
(** At (p-1)/2 it fails: the element (p-1)/2 is reported largest and is less than its negation. *)
Theorem C57_lex_refuted : forall c, In c all_fields -> exists a x0 x1, rep2 c a x0 x1
  /\ t2_lexicographically_largest c a = true /\ t2_cmp c a (t2_neg c a) = Lt.
Proof.
  intros c I. pose proof (field_odd c I) as Hc. pose proof (p_gt2 c Hc) as P2.
  assert (H0 : 0 < (modulus c - 1) / 2) by (apply Z.div_str_pos; lia).
  assert (H1 : (modulus c - 1) / 2 < modulus c) by (apply Z.div_lt_upper_bound; lia).
  destruct (represents_onto c ((modulus c - 1) / 2) Hc ltac:(lia)) as (h & Rh & _).
  assert (RA : rep2 c (mk_quad h (fe_zero c)) ((modulus c - 1) / 2) 0) by (split; [exact Rh|exact (fe_zero_repr c Hc)]).
  exists (mk_quad h (fe_zero c)), ((modulus c - 1) / 2), 0. split; [exact RA|]. split.
  - unfold t2_lexicographically_largest. cbn [q0 q1]. rewrite (C12_exact c _ _ Hc Rh), Z.leb_refl, Bool.andb_true_r.
    replace (fe_eqb (fe_zero c) (fe_zero c)) with true; [apply Bool.orb_true_r|].
    symmetry. apply (fe_eqb_repr c Hc _ _ _ _ (fe_zero_repr c Hc) (fe_zero_repr c Hc)). reflexivity.
  - rewrite (proj1 (C57_cmp c _ _ _ _ _ _ Hc RA (t2_neg_rep c _ _ _ Hc RA))). apply Z.compare_lt_iff.
    rewrite !neg_mod by lia. cbn [Z.eqb]. destruct (Z.eqb_spec ((modulus c - 1) / 2) 0); [lia|].
    destruct Hc as [_ Ho]. set (p := modulus c) in *. pose proof (Z.div_mod p 2 ltac:(lia)) as E2. rewrite Zmod_odd, Ho in E2.
    assert (E3 : (p - 1) / 2 = p / 2) by (symmetry; apply Z.div_unique with 0; lia). rewrite E3. lia.
Qed.
Print Assumptions C57_lex_refuted.
(** [From<u64>], and the constants with their meaning. *)
Theorem C57_constants : forall c, In c all_fields -> let p := modulus c in
  (forall v, 0 <= v < 2 ^ 64 -> rep2 c (t2_from_u64 c v) (v mod p) 0)
  /\ (exists h, rep2 c (t2_TWO_INV c) h 0 /\ (2 * h) mod p = 1)
  /\ (exists z, rep2 c (t2_ZETA c) z 0 /\ z <> 1 /\ (z * z * z) mod p = 1)
  /\ (exists w wi, rep2 c (t2_ROOT_OF_UNITY c) w 0 /\ has_order p w (2 ^ t2_S c)
       /\ rep2 c (t2_ROOT_OF_UNITY_INV c) wi 0 /\ (w * wi) mod p = 1)
  /\ rep2 c (t2_MULTIPLICATIVE_GENERATOR c) (mul_gen c mod p) 0
  /\ rep2 c (t2_DELTA c) (mul_gen c ^ (2 ^ t2_S c) mod p) 0.
Proof.
  intros c I p. pose proof (field_odd c I) as Hc. pose proof (fe_zero_repr c Hc) as R0. pose proof (p_gt2 c Hc) as P2.
  destruct (C09_constants c Hc (field_prime c I) (generator_half c I)) as (_ & _ & _ & (h & Rh & Eh) & Rg & _ & Rd & Rz & w & wi & Rw & Ow & Rwi & Ew).
  split; [|split; [|split; [|split; [|split]]]].
  - intros v Hv. split; [apply C03_from_u64; assumption|exact R0].
  - exists h. split; [split; assumption|exact Eh].
  - exists ((zeta c mod p * (zeta c mod p)) mod p). split; [split; [apply C02_mul; assumption|exact R0]|].
    destruct (C09_crate c I) as (_ & (_ & E3 & N3) & B). fold p in E3, N3, B. rewrite (Z.mod_small (zeta c) p) by lia. set (z := zeta c) in *.
    assert (N2 : (z * z) mod p <> 1) by (rewrite <- (Z.pow_2_r z); apply N3; lia).
    split; [exact N2|]. rewrite (Zmult_mod ((z * z) mod p * ((z * z) mod p))), Zmod_mod, <- (Zmult_mod (z * z) (z * z)), <- Zmult_mod.
    replace (z * z * (z * z) * (z * z)) with (z ^ 3 * z ^ 3) by ring. rewrite Zmult_mod, E3. apply Z.mod_small. fold p in P2. lia.
  - exists w, wi. split; [split; assumption|]. split; [exact Ow|]. split; [split; assumption|exact Ew].
  - split; assumption.
  - split; assumption.
Qed.
Print Assumptions C57_constants.

(** The roles of the constants in trait [PrimeField] are not kept: in the extension ROOT_OF_UNITY and
    MULTIPLICATIVE_GENERATOR are squares, so they are neither of maximal 2-power order nor generators. *)
Section Squares.
Context (p : Z) {F : Type} (o : fops F) (inj : Z -> F) (HP : prime_field p o inj) (mnr : F -> F) (beta : F) (sq : quad F -> quad F).
Context (P2 : 2 < p) (Hm : forall x, mnr x = fmul o beta x) (Hn : forall x, fmul o x x <> beta) (Hs : forall a, sq a = quad_mul o mnr a a).
Let HR := fl_rl _ (pf_laws _ _ _ HP).
Add Ring FRsq : (rl_ring _ HR).
Lemma base_square x : is_square (quad_ops o mnr sq) (mk_quad x (f0 o)).
Proof using All.
  apply (norm_square p o inj HP mnr beta sq P2 Hm Hn Hs). exists x.
  rewrite (quad_norm_val o mnr beta HR Hm). cbn [q0 q1]. ring.
Qed.
End Squares.
Theorem C57_roles_refuted :
  (forall F (o : fops F) inj, prime_field (modulus bn256_fq) o inj -> forall x, is_square (bn256_fq2 o) (mk_quad x (f0 o)))
  /\ (forall F (o : fops F) inj, prime_field (modulus bls12381_fq) o inj -> forall x, is_square (bls_fq2 o) (mk_quad x (f0 o)))
  /\ (forall F (o : fops F) inj, prime_field (modulus pluto_eris_fp) o inj -> forall x, is_square (pluto_fp2 o) (mk_quad x (f0 o))).
Proof.
  split; [|split]; intros F o inj HP x.
  - apply (base_square (modulus bn256_fq) o inj HP (mnr_neg o) (inj (-1)) (quad_square_complex o)).
    + vm_compute. reflexivity.
    + exact (mnr_neg_inj o inj _ HP).
    + exact (beta_nr bn256_tower o inj HP bn256_tower_ok).
    + exact (sq_complex o inj _ HP).
  - apply (base_square (modulus bls12381_fq) o inj HP (mnr_neg o) (inj (-1)) (quad_square_complex o)).
    + vm_compute. reflexivity.
    + exact (mnr_neg_inj o inj _ HP).
    + exact (beta_nr bls12381_tower o inj HP bls_tower_ok).
    + exact (sq_complex o inj _ HP).
  - apply (base_square (modulus pluto_eris_fp) o inj HP (mnr_m5 o) (inj (-5)) (quad_square o (mnr_m5 o))).
    + vm_compute. reflexivity.
    + exact (mnr_m5_inj o inj _ HP).
    + exact (beta_nr pluto_tower o inj HP pluto_tower_ok).
    + exact (quad_square_mul o (mnr_m5 o) _ (fl_rl _ (pf_laws _ _ _ HP)) (mnr_m5_inj o inj _ HP)).
Qed.
Print Assumptions C57_roles_refuted.
(** [char_le_bits]: the bits of the modulus. *)
Theorem C57_char_le_bits : forall c, In c all_fields -> length (char_le_bits c) = (64 * num_limbs c)%nat
  /\ forall i, (i < 64 * num_limbs c)%nat -> nth i (char_le_bits c) false = Z.testbit (modulus c) (Z.of_nat i).
Proof.
  assert (X : forallb (fun c => Nat.eqb (length (char_le_bits c)) (64 * num_limbs c)
    && forallb (fun i => Bool.eqb (nth i (char_le_bits c) false) (Z.testbit (modulus c) (Z.of_nat i))) (seq 0 (64 * num_limbs c))) all_fields = true)
    by (vm_compute; reflexivity).
  intros c I. pose proof (proj1 (forallb_forall _ _) X c I) as Y. apply Bool.andb_true_iff in Y as [Y1 Y2].
  split; [apply Nat.eqb_eq; exact Y1|]. intros i Hi. apply Bool.eqb_prop.
  exact (proj1 (forallb_forall _ _) Y2 i (proj2 (in_seq _ _ _) (conj (Nat.le_0_l _) Hi))).
Qed.
Print Assumptions C57_char_le_bits.

(** ** Examples *)
(** 8 / 2 is a square. *)
Example ex_C56 : forall F (o : fops F) inj, prime_field (modulus bn256_fq) o inj ->
  exists r, field_sqrt_ratio o inj bn256_fq (inj 8) (inj 2) = HRet (true, r) /\ fmul o r r = inj 4.
Proof.
  intros F o inj HP. assert (I : In bn256_fq all_fields) by in_fields.
  destruct (C56_sqrt_ratio bn256_fq I F o inj HP (inj 8) (inj 2)) as (b & r & E & _ & _ & S).
  assert (N8 : inj 8 <> f0 o) by (intros X; apply (pf_zero_iff _ _ _ HP) in X; revert X; vm_compute; discriminate).
  assert (N2 : inj 2 <> f0 o) by (intros X; apply (pf_zero_iff _ _ _ HP) in X; revert X; vm_compute; discriminate).
  destruct (S N8 N2) as (v & Ev & Sv). pose proof (pf_laws _ _ _ HP) as H.
  assert (V : v = inj 4).
  { apply (mul_cancel_l o H (inj 2) _ _ N2). rewrite <- (zh_mul _ _ (pf_hom _ _ _ HP)), (Rmul_comm (rl_ring _ (fl_rl _ H))). exact Ev. }
  destruct b.
  - exists r. split; [exact E|]. congruence.
  - exfalso. destruct Sv as [N _]. apply N. rewrite V. exists (inj 2). rewrite <- (zh_mul _ _ (pf_hom _ _ _ HP)). reflexivity.
Qed.
Example ex_C57 : let a := mk_quad (from_u64 bls12381_fq 7) (from_u64 bls12381_fq 1) in let b := mk_quad (from_u64 bls12381_fq 2) (from_u64 bls12381_fq 3) in
  t2_cmp bls12381_fq a b = Lt /\ t2_cmp bls12381_fq b a = Gt /\ t2_lexicographically_largest bls12381_fq a = false
  /\ t2_cmp bls12381_fq a (t2_neg bls12381_fq a) = Lt.
Proof. vm_compute. auto. Qed.
