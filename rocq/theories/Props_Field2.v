(** Property theorems C06, C08 and C09: inversion, square roots and the
    generated constants of the prime fields.

    [represents n p a x] (SpecField.v): the [n] limbs [a] are canonical and are
    the Montgomery form of the integer [x] in [0,p). *)
From Verif Require Import Base Word Limbs Bytes Field SpecField Params FieldFacts Certs.
From Verif Require Import Algebra Pow FiniteField PrimeField.
From Verif Require Import Inverse InvertFacts LimbField Sqrt SqrtFacts ConstFacts GenCerts Props_Field.

Lemma all_fields_sized : Forall sized all_fields.
Proof. repeat constructor. Qed.
Lemma field_odd c : In c all_fields -> odd_conf c.
Proof. intros H. exact (proj1 (Forall_forall _ _) all_fields_odd c H). Qed.
Lemma field_sized c : In c all_fields -> sized c.
Proof. intros H. exact (proj1 (Forall_forall _ _) all_fields_sized c H). Qed.
Lemma field_prime c : In c all_fields -> prime (modulus c).
Proof. intros H. exact (proj1 (Forall_forall _ _) all_moduli_prime c H). Qed.
Lemma all_fields_supported : forall c, In c all_fields -> sqrt_supported c.
Proof.
  assert (A : forallb (fun c => (modulus c mod 16 =? 1) || (modulus c mod 4 =? 3)) all_fields = true) by (vm_compute; reflexivity).
  intros c H. rewrite forallb_forall in A. specialize (A c H). apply orb_true_iff in A. unfold sqrt_supported.
  rewrite !Z.eqb_eq in A. exact A.
Qed.

(** C06.  [Diverged] is the result of the model when the loop of [invert] has
    not stopped after the number of rounds the model grants it. *)
Theorem C06_invert : forall c a x, odd_conf c -> sized c -> prime (modulus c) ->
  represents (num_limbs c) (modulus c) a x ->
  (x = 0 -> fe_invert c a = Done None) /\
  (x <> 0 -> exists i y, fe_invert c a = Done (Some i) /\
     represents (num_limbs c) (modulus c) i y /\ (x * y) mod modulus c = 1).
Proof. exact (fun c a x Hc Hs Hp => fe_invert_prime c Hc Hs Hp a x). Qed.
Print Assumptions C06_invert.
Theorem C06_crate : forall c a x, In c all_fields -> represents (num_limbs c) (modulus c) a x ->
  (x = 0 -> fe_invert c a = Done None) /\
  (x <> 0 -> exists i y, fe_invert c a = Done (Some i) /\
     represents (num_limbs c) (modulus c) i y /\ (x * y) mod modulus c = 1).
Proof. exact (fun c a x H => fe_invert_prime c (field_odd c H) (field_sized c H) (field_prime c H) a x). Qed.
Print Assumptions C06_crate.
(** The Bernstein-Yang inverter itself, for any odd modulus (not only primes),
    any adjuster, and any value that fits the limbs. *)
Theorem C06_inverter : forall L S m adj value,
  (1 <= L)%nat -> words m -> words adj -> words value ->
  1 < eval m -> Z.odd (eval m) = true -> eval m < 2 ^ (62 * Z.of_nat L - 64) ->
  eval value < 2 ^ (62 * Z.of_nat L - 64) -> eval adj < eval m -> eval m <= W ^ Z.of_nat S ->
  62 * Z.of_nat L + 64 <= 2 ^ 62 ->
  match by_invert L S (by_new L m adj) value with
  | Diverged => False
  | Done None => ~ rel_prime (eval m) (eval value)
  | Done (Some r) => rel_prime (eval m) (eval value) /\ length r = S /\ words r /\
      0 <= eval r < eval m /\ (eval m | eval r * eval value - eval adj)
  end.
Proof. exact by_invert_spec. Qed.
Print Assumptions C06_inverter.

Definition mont_of (c : fconf) (x : Z) : list Z := to_token c (mont c x).
Lemma mont_of_repr c x : In c all_fields -> represents (num_limbs c) (modulus c) (mont_of c x) (x mod modulus c).
Proof. intros H. exact (const_repr c (field_odd c H) x). Qed.
Example C06_example :
  fe_invert bn256_fq (mont_of bn256_fq 2) = Done (Some (TWO_INV bn256_fq)) /\
  fe_invert pluto_eris_fp (mont_of pluto_eris_fp (-1)) = Done (Some (mont_of pluto_eris_fp (-1))) /\
  fe_invert secp256k1_fp (fe_zero secp256k1_fp) = Done None.
Proof. repeat (split; [vm_compute; reflexivity|]). vm_compute; reflexivity. Qed.

(** C08.  The outer option of [fe_sqrt] is [None] for the moduli the macro refuses
    at compile time. *)
Theorem C08_sqrt : forall c a x, odd_conf c -> sized c -> prime (modulus c) ->
  mul_gen c ^ ((modulus c - 1) / 2) mod modulus c = modulus c - 1 ->
  (modulus c mod 16 = 1 \/ modulus c mod 4 = 3) ->
  represents (num_limbs c) (modulus c) a x ->
  exists r, fe_sqrt c a = Some r /\
  match r with
  | Some s => exists y, represents (num_limbs c) (modulus c) s y /\ (y * y) mod modulus c = x
  | None => forall y, (y * y) mod modulus c <> x
  end.
Proof. exact (fun c a x Hc Hs Hp Hg Hsup => fe_sqrt_spec c Hc Hs Hp Hg Hsup a x). Qed.
Print Assumptions C08_sqrt.
Theorem C08_crate : forall c a x, In c all_fields -> represents (num_limbs c) (modulus c) a x ->
  exists r, fe_sqrt c a = Some r /\
  match r with
  | Some s => exists y, represents (num_limbs c) (modulus c) s y /\ (y * y) mod modulus c = x
  | None => forall y, (y * y) mod modulus c <> x
  end.
Proof. exact (fun c a x H => fe_sqrt_spec c (field_odd c H) (field_sized c H) (field_prime c H)
  (generator_half c H) (all_fields_supported c H) a x). Qed.
Print Assumptions C08_crate.
(** [sqrt_is c x r]: [sqrt] of the element [x] succeeds with a root of [x]
    ([r = true]), resp. returns nothing ([r = false]). *)
Definition sqrt_is (c : fconf) (x : Z) (r : bool) : bool :=
  match fe_sqrt c (mont_of c x) with
  | Some (Some s) => r && fe_eqb (fe_square c s) (mont_of c x)
  | Some None => negb r
  | None => false
  end.
Definition small_field : fconf := {| modulus := 97; mul_gen := 5; zeta := 35; big_endian := false |}.
Example C08_example_small : sqrt_is small_field 8 true && sqrt_is small_field 5 false = true.
Proof. vm_compute. reflexivity. Qed.
Example C08_example : exists s, fe_sqrt secp256r1_fq (mont_of secp256r1_fq 4) = Some (Some s).
Proof.
  assert (I : In secp256r1_fq all_fields) by (cbn [In all_fields]; tauto).
  destruct (C08_crate _ _ _ I (mont_of_repr _ 4 I)) as ([s|] & E & H); [exists s; exact E|].
  exfalso. apply (H 2). reflexivity.
Qed.

(** C09.  [has_order p a n] (ConstFacts.v): [n] is the least positive exponent
    with [a^n = 1 mod p]. *)
Theorem C09_constants : forall c, odd_conf c -> prime (modulus c) ->
  mul_gen c ^ ((modulus c - 1) / 2) mod modulus c = modulus c - 1 ->
  let p := modulus c in let rep := represents (num_limbs c) p in let S := two_adicity c in
  (exists t, p - 1 = 2 ^ S * t /\ Z.odd t = true) /\ 1 <= S /\
  rep (fe_one c) 1 /\
  (exists h, rep (TWO_INV c) h /\ (2 * h) mod p = 1) /\
  rep (MULTIPLICATIVE_GENERATOR c) (mul_gen c mod p) /\
  (forall y, (y * y) mod p <> mul_gen c mod p) /\
  rep (DELTA c) (mul_gen c ^ (2 ^ S) mod p) /\
  rep (ZETA c) (zeta c mod p) /\
  exists w wi, rep (ROOT_OF_UNITY c) w /\ has_order p w (2 ^ S) /\
    rep (ROOT_OF_UNITY_INV c) wi /\ (w * wi) mod p = 1.
Proof.
  intros c Hc Hp Hg p rep S. pose proof (p_gt2 c Hc) as P2. fold p in P2.
  destruct (adicity c Hc) as (A1 & A2 & A3 & A4). pose proof (const_repr c Hc) as CR. fold p rep in CR.
  assert (Small : forall b e, 0 <= e -> modpow b e p mod p = modpow b e p).
  { intros b e He. apply Z.mod_small. apply modpow_bound; lia. }
  refine (conj _ (conj A1 (conj (fe_one_repr c Hc) (conj _ (conj (CR _) (conj _ (conj _ (conj (CR _) _)))))))).
  - exists (odd_part c). auto.
  - exists (two_inv_int c). split; [|exact (two_inverse c Hc Hp)].
    change (rep (TWO_INV c) (modpow 2 (p - 2) p)). rewrite <- (Small 2 (p - 2)) by lia. apply CR.
  - intros y E. pose proof (zp_prime_field p Hp) as ZF.
    assert (Sq : is_square (zp_ops p) (zp_inj p (mul_gen c))) by (apply (pf_square_iff _ _ _ ZF); exists y; exact E).
    pose proof (pf_laws _ _ _ ZF) as HL.
    assert (NZ : zp_inj p (mul_gen c) <> f0 (zp_ops p)).
    { intros Z0. apply (pf_zero_iff _ _ _ ZF) in Z0. unfold p in *. rewrite Zpower_mod, Z0, Z.pow_0_l, Z.mod_0_l in Hg by (try (apply Z.div_str_pos); lia). lia. }
    apply (square_half_pow _ HL p (prime_field_finite _ _ _ ZF) (pf_two _ _ _ ZF P2) _ NZ) in Sq.
    rewrite (pf_pow _ _ _ ZF) in Sq by (apply Z.div_pos; lia).
    rewrite <- (zh_1 _ _ (pf_hom _ _ _ ZF)) in Sq. apply (pf_eq _ _ _ ZF) in Sq.
    unfold p in *. rewrite Hg, !Z.mod_small in Sq by lia. lia.
  - unfold DELTA, delta_int. replace (mul_gen c ^ (2 ^ S) mod p) with (modpow (mul_gen c) (Z.shiftl 1 S) p mod p).
    + apply CR.
    + rewrite Z.shiftl_mul_pow2, Z.mul_1_l by lia. rewrite modpow_spec, Zmod_mod by (try apply Z.pow_nonneg; lia). reflexivity.
  - exists (root_of_unity_int c), (root_of_unity_inv_int c).
    split; [|split; [exact (root_order c Hc Hg)|split; [|exact (root_inverse c Hc Hp Hg)]]].
    + change (rep (ROOT_OF_UNITY c) (modpow (mul_gen c) (odd_part c) p)). rewrite <- (Small (mul_gen c) (odd_part c)) by lia. apply CR.
    + change (rep (ROOT_OF_UNITY_INV c) (modpow (root_of_unity_int c) (p - 2) p)). rewrite <- (Small (root_of_unity_int c) (p - 2)) by lia. apply CR.
Qed.
Print Assumptions C09_constants.
Theorem C09_crate : forall c, In c all_fields ->
  let p := modulus c in
  mul_gen c ^ ((p - 1) / 2) mod p = p - 1 /\ has_order p (zeta c) 3 /\ 0 < zeta c < p.
Proof. exact (fun c H => conj (generator_half c H) (conj (zeta_order c H)
  (match zetas_cube c H with conj _ B => conj (Z.lt_trans 0 1 _ Z.lt_0_1 (proj1 B)) (proj2 B) end))). Qed.
Print Assumptions C09_crate.
(** [MULTIPLICATIVE_GENERATOR] generates the whole multiplicative group. *)
Theorem C09_generator : forall c, In c all_fields -> has_order (modulus c) (mul_gen c) (modulus c - 1).
Proof.
  intros c H. assert (E : exists qs, In (c, qs) factored).
  { cbn [In all_fields] in H. unfold factored. cbn [In].
    do 10 (destruct H as [<-|H]; [eexists; tauto|]). destruct H. }
  destruct E as (qs & I). exact (generators_primitive c qs I).
Qed.
Print Assumptions C09_generator.
Example C09_example_adicity :
  map two_adicity all_fields = [1; 28; 1; 32; 1; 6; 1; 4; 32; 32].
Proof. vm_compute. reflexivity. Qed.
Example C09_example : has_order (modulus bn256_fr) (root_of_unity_int bn256_fr) (2 ^ (two_adicity bn256_fr)).
Proof.
  assert (I : In bn256_fr all_fields) by (cbn [In all_fields]; tauto).
  exact (root_order bn256_fr (field_odd _ I) (generator_half _ I)).
Qed.
