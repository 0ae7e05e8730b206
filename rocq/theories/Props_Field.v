(** Property theorems C01-C05 and C11-C13: prime-field arithmetic, integer
    conversions, byte encodings, comparisons.

    [c] ranges over every macro configuration with an odd modulus; the ten
    configurations of the crate satisfy this ([all_fields_odd]).
    [represents n p a x] (SpecField.v): the [n] limbs [a] are canonical and are
    the Montgomery form of the integer [x] in [0,p). *)
From Verif Require Import Base Word Limbs Bytes Field SpecField Params.
From Verif Require Import LimbsFacts FieldFacts BytesFacts FieldSerdeFacts.

Example all_fields_odd : Forall odd_conf all_fields.
Proof. repeat constructor. Qed.

(** Every canonical limb vector represents exactly one residue and every
    residue has exactly one representation, so [represents] is the usual
    identification of the type with the integers mod p. *)
Theorem represents_total : forall c a, odd_conf c -> canonical (num_limbs c) (modulus c) a ->
  exists! x, represents (num_limbs c) (modulus c) a x.
Proof. exact (fun c a Hc Ha => match canon_repr c Hc a Ha with ex_intro _ v Hv =>
  ex_intro _ v (conj Hv (fun w Hw => repr_unique c Hc a v w Hv Hw)) end). Qed.
Print Assumptions represents_total.
Theorem represents_onto : forall c x, odd_conf c -> 0 <= x < modulus c ->
  exists! a, represents (num_limbs c) (modulus c) a x.
Proof. exact represents_onto_lemma. Qed.
Print Assumptions represents_onto.

(** C01 *)
Theorem C01_add : forall c a b x y, odd_conf c ->
  represents (num_limbs c) (modulus c) a x -> represents (num_limbs c) (modulus c) b y ->
  represents (num_limbs c) (modulus c) (fe_add c a b) ((x + y) mod modulus c).
Proof. exact (fun c a b x y Hc => fe_add_repr c Hc a b x y). Qed.
Print Assumptions C01_add.
Theorem C01_sub : forall c a b x y, odd_conf c ->
  represents (num_limbs c) (modulus c) a x -> represents (num_limbs c) (modulus c) b y ->
  represents (num_limbs c) (modulus c) (fe_sub c a b) ((x - y) mod modulus c).
Proof. exact (fun c a b x y Hc => fe_sub_repr c Hc a b x y). Qed.
Print Assumptions C01_sub.
Theorem C01_neg : forall c a x, odd_conf c ->
  represents (num_limbs c) (modulus c) a x ->
  represents (num_limbs c) (modulus c) (fe_neg c a) ((- x) mod modulus c).
Proof. exact (fun c a x Hc => fe_neg_repr c Hc a x). Qed.
Print Assumptions C01_neg.
Theorem C01_double : forall c a x, odd_conf c ->
  represents (num_limbs c) (modulus c) a x ->
  represents (num_limbs c) (modulus c) (fe_double c a) ((2 * x) mod modulus c).
Proof. exact (fun c a x Hc => fe_double_repr c Hc a x). Qed.
Print Assumptions C01_double.
Theorem C01_sum : forall c l xs, odd_conf c ->
  Forall2 (represents (num_limbs c) (modulus c)) l xs ->
  represents (num_limbs c) (modulus c) (fe_sum c l) (fold_right Z.add 0 xs mod modulus c).
Proof. exact (fun c l xs Hc => fe_sum_repr c Hc l xs). Qed.
Print Assumptions C01_sum.

(** C02 *)
Theorem C02_mul : forall c a b x y, odd_conf c ->
  represents (num_limbs c) (modulus c) a x -> represents (num_limbs c) (modulus c) b y ->
  represents (num_limbs c) (modulus c) (fe_mul c a b) ((x * y) mod modulus c).
Proof. exact (fun c a b x y Hc => fe_mul_repr c Hc a b x y). Qed.
Print Assumptions C02_mul.
Theorem C02_square : forall c a x, odd_conf c ->
  represents (num_limbs c) (modulus c) a x ->
  represents (num_limbs c) (modulus c) (fe_square c a) ((x * x) mod modulus c).
Proof. exact (fun c a x Hc => fe_square_repr c Hc a x). Qed.
Print Assumptions C02_square.
Theorem C02_square_is_mul : forall c a, odd_conf c ->
  canonical (num_limbs c) (modulus c) a -> fe_square c a = fe_mul c a a.
Proof. exact (fun c a Hc => fe_square_is_mul c Hc a). Qed.
Print Assumptions C02_square_is_mul.
Theorem C02_product : forall c l xs, odd_conf c ->
  Forall2 (represents (num_limbs c) (modulus c)) l xs ->
  represents (num_limbs c) (modulus c) (fe_product c l) (fold_right Z.mul 1 xs mod modulus c).
Proof. exact (fun c l xs Hc => fe_product_repr c Hc l xs). Qed.
Print Assumptions C02_product.
Theorem C02_zero_one : forall c, odd_conf c ->
  represents (num_limbs c) (modulus c) (fe_zero c) 0 /\
  represents (num_limbs c) (modulus c) (fe_one c) 1.
Proof. exact (fun c Hc => conj (fe_zero_repr c Hc) (fe_one_repr c Hc)). Qed.
Print Assumptions C02_zero_one.

(** Non-vacuity for C01/C02: in the field with the full top limb (secp256k1),
    p-1 and p-2 are represented, and the operators give the expected limbs. *)
Example C01_C02_example :
  let c := secp256k1_fp in
  let a := from_raw c (big_to_limbs (modulus c - 1) 4) in
  let b := from_raw c (big_to_limbs (modulus c - 2) 4) in
  represents (num_limbs c) (modulus c) a (modulus c - 1) /\
  represents (num_limbs c) (modulus c) b (modulus c - 2) /\
  fe_from_mont c (fe_add c a b) = big_to_limbs (modulus c - 3) 4 /\
  fe_from_mont c (fe_mul c a b) = [2; 0; 0; 0].
Proof.
  assert (Hc : odd_conf secp256k1_fp) by (split; vm_compute; reflexivity).
  assert (Hn : num_limbs secp256k1_fp = 4%nat) by (vm_compute; reflexivity).
  assert (G : forall e, 0 <= e < modulus secp256k1_fp ->
    represents (num_limbs secp256k1_fp) (modulus secp256k1_fp)
      (from_raw secp256k1_fp (big_to_limbs e 4)) e).
  { intros e He. pose proof (p_lt_R secp256k1_fp Hc) as HR. rewrite Hn in HR.
    destruct (big_to_limbs_spec 4 e) as (L & Wd & E); [lia|].
    pose proof (mul_R2_repr secp256k1_fp Hc (big_to_limbs e 4)) as M.
    rewrite E, Z.mod_small in M by auto. now apply M. }
  cbn zeta. split; [|split; [|split; vm_compute; reflexivity]].
  - apply G. split; vm_compute; congruence.
  - apply G. split; vm_compute; congruence.
Qed.

(** C03 *)
Theorem C03_from_raw : forall c l, odd_conf c -> length l = num_limbs c -> words l ->
  represents (num_limbs c) (modulus c) (from_raw c l) (eval l mod modulus c).
Proof. exact (fun c l Hc => mul_R2_repr c Hc l). Qed.
Print Assumptions C03_from_raw.
Theorem C03_from_u64 : forall c v, odd_conf c -> 0 <= v < 2 ^ 64 ->
  represents (num_limbs c) (modulus c) (from_u64 c v) (v mod modulus c).
Proof. exact (fun c v Hc => from_u64_repr c Hc v). Qed.
Print Assumptions C03_from_u64.
(** [from_u128] drops the upper word when there is a single limb; no field of
    the crate has fewer than four. *)
Theorem C03_from_u128 : forall c v, odd_conf c -> (2 <= num_limbs c)%nat -> 0 <= v < 2 ^ 128 ->
  represents (num_limbs c) (modulus c) (from_u128 c v) (v mod modulus c).
Proof. exact (fun c v Hc => from_u128_repr c Hc v). Qed.
Print Assumptions C03_from_u128.
Theorem C03_from_bool : forall c b, odd_conf c ->
  represents (num_limbs c) (modulus c) (from_bool c b) (if b then 1 else 0).
Proof. exact (fun c b Hc => from_bool_repr c Hc b). Qed.
Print Assumptions C03_from_bool.
Example C03_limbs : Forall (fun c => (2 <= num_limbs c)%nat) all_fields.
Proof. vm_compute. repeat constructor. Qed.
(** A non-reduced input: 2^256 - 1 in bn256 Fr. *)
Example C03_example : let l := [W - 1; W - 1; W - 1; W - 1] in
  length l = num_limbs bn256_fr /\ modulus bn256_fr < eval l /\
  eval (fe_from_mont bn256_fr (from_raw bn256_fr l)) = eval l mod modulus bn256_fr.
Proof. vm_compute. auto. Qed.

(** C04.  [size c] is the byte length; [bytes_int] reads the configured order. *)
Theorem C04_to_bytes : forall c a x, odd_conf c ->
  represents (num_limbs c) (modulus c) a x ->
  length (to_bytes c a) = size c /\ is_bytes (to_bytes c a) /\
  bytes_int (big_endian c) (to_bytes c a) = x.
Proof. exact (fun c a x Hc => to_bytes_spec c Hc a x). Qed.
Print Assumptions C04_to_bytes.
Theorem C04_from_bytes : forall c l, odd_conf c -> is_bytes l -> length l = size c ->
  match from_bytes c l with
  | Some a => represents (num_limbs c) (modulus c) a (bytes_int (big_endian c) l)
  | None => modulus c <= bytes_int (big_endian c) l
  end.
Proof. exact (fun c l Hc => from_bytes_spec c Hc l). Qed.
Print Assumptions C04_from_bytes.
Theorem C04_to_repr : forall c a x, odd_conf c ->
  represents (num_limbs c) (modulus c) a x ->
  length (to_repr c a) = size c /\ is_bytes (to_repr c a) /\ le_int (to_repr c a) = x.
Proof. exact (fun c a x Hc => to_repr_spec c Hc a x). Qed.
Print Assumptions C04_to_repr.
Theorem C04_from_repr : forall c l, odd_conf c -> is_bytes l -> length l = size c ->
  match from_repr c l with
  | Some a => represents (num_limbs c) (modulus c) a (le_int l)
  | None => modulus c <= le_int l
  end.
Proof. exact (fun c l Hc => from_repr_spec c Hc l). Qed.
Print Assumptions C04_from_repr.
Theorem C04_roundtrip : forall c a, odd_conf c -> canonical (num_limbs c) (modulus c) a ->
  from_bytes c (to_bytes c a) = Some a /\ from_repr c (to_repr c a) = Some a.
Proof. exact (fun c a Hc Ha => conj (from_to_bytes c Hc a Ha) (from_to_repr c Hc a Ha)). Qed.
Print Assumptions C04_roundtrip.
Theorem C04_no_malleability : forall c l a, odd_conf c -> is_bytes l -> length l = size c ->
  (from_bytes c l = Some a -> canonical (num_limbs c) (modulus c) a /\ to_bytes c a = l) /\
  (from_repr c l = Some a -> canonical (num_limbs c) (modulus c) a /\ to_repr c a = l).
Proof. exact (fun c l a Hc Hl HL => conj (to_from_bytes c Hc l a Hl HL) (to_from_repr c Hc l a Hl HL)). Qed.
Print Assumptions C04_no_malleability.
(** Accepted and rejected inputs, big-endian field. *)
Example C04_example :
  from_bytes bls12381_fq (repeat 0 47 ++ [5]) = Some (from_u64 bls12381_fq 5) /\
  from_bytes bls12381_fq (be_bytes 48 (modulus bls12381_fq)) = None /\
  is_bytes (repeat 0 47 ++ [5]) /\ length (repeat 0 47 ++ [5]) = size bls12381_fq.
Proof. vm_compute. repeat split; repeat constructor; discriminate. Qed.

(** C05 *)
Theorem C05_from_uniform_bytes : forall c l, odd_conf c -> is_bytes l ->
  (size c <= length l <= 2 * size c)%nat ->
  represents (num_limbs c) (modulus c) (from_uniform_bytes c l) (le_int l mod modulus c).
Proof. exact (fun c l Hc Hl HL => from_uniform_bytes_repr c Hc l Hl (proj2 HL)). Qed.
Print Assumptions C05_from_uniform_bytes.
Example C05_example : let l := repeat 255 48 in
  (size bn256_fr <= length l <= 2 * size bn256_fr)%nat /\
  eval (fe_from_mont bn256_fr (from_uniform_bytes bn256_fr l)) = (256 ^ 48 - 1) mod modulus bn256_fr.
Proof. vm_compute. repeat split; repeat constructor. Qed.

(** C11 *)
Theorem C11_eq : forall c a b x y, odd_conf c ->
  represents (num_limbs c) (modulus c) a x -> represents (num_limbs c) (modulus c) b y ->
  (fe_eqb a b = true <-> x = y).
Proof. exact (fun c a b x y Hc => fe_eqb_repr c Hc a b x y). Qed.
Print Assumptions C11_eq.
Theorem C11_cmp : forall c a b x y, odd_conf c ->
  represents (num_limbs c) (modulus c) a x -> represents (num_limbs c) (modulus c) b y ->
  fe_cmp c a b = (x ?= y).
Proof. exact (fun c a b x y Hc => fe_cmp_spec c Hc a b x y). Qed.
Print Assumptions C11_cmp.
Theorem C11_is_odd : forall c a x, odd_conf c ->
  represents (num_limbs c) (modulus c) a x -> is_odd c a = Z.odd x.
Proof. exact (fun c a x Hc => is_odd_spec c Hc a x). Qed.
Print Assumptions C11_is_odd.
Theorem C11_to_le_bits : forall c a x, odd_conf c ->
  represents (num_limbs c) (modulus c) a x ->
  to_le_bits c a = map (fun i => Z.testbit x (Z.of_nat i)) (seq 0 (64 * num_limbs c)).
Proof. exact (fun c a x Hc => to_le_bits_spec c Hc a x). Qed.
Print Assumptions C11_to_le_bits.
Example C11_example :
  fe_cmp bls12381_fq (from_u64 bls12381_fq 256) (from_u64 bls12381_fq 1) = Gt /\
  is_odd bls12381_fq (from_u64 bls12381_fq 257) = true.
Proof. vm_compute. auto. Qed.

(** C12.  The documented meaning ("strictly larger than its negation") is false
    for exactly one pair: (p-1)/2 is reported as largest although its negation
    (p+1)/2 is larger; both are reported.  What the code computes: *)
Theorem C12_exact : forall c a x, odd_conf c ->
  represents (num_limbs c) (modulus c) a x ->
  lexicographically_largest c a = ((modulus c - 1) / 2 <=? x).
Proof. exact (fun c a x Hc => lexicographically_largest_spec c Hc a x). Qed.
Print Assumptions C12_exact.
(** The documented claim away from that value. *)
Theorem C12_partial : forall c a x, odd_conf c ->
  represents (num_limbs c) (modulus c) a x -> x <> (modulus c - 1) / 2 ->
  (lexicographically_largest c a = true <-> (- x) mod modulus c < x).
Proof. exact (fun c a x Hc => lex_largest_partial c Hc a x). Qed.
Print Assumptions C12_partial.
(** The full claim fails in every field: *)
Theorem C12_refuted : forall c, odd_conf c -> exists a x,
  represents (num_limbs c) (modulus c) a x /\
  lexicographically_largest c a = true /\
  lexicographically_largest c (fe_neg c a) = true /\
  ~ (- x) mod modulus c < x.
Proof. exact lex_largest_refuted. Qed.
Print Assumptions C12_refuted.
Example C12_witness :
  let a := from_raw bls12381_fq (half_modulus bls12381_fq) in
  lexicographically_largest bls12381_fq a = true /\
  lexicographically_largest bls12381_fq (fe_neg bls12381_fq a) = true.
Proof. vm_compute. auto. Qed.

(** C13 *)
Theorem C13_roundtrip : forall c a, odd_conf c -> canonical (num_limbs c) (modulus c) a ->
  from_raw_bytes c (to_raw_bytes a) = Some a /\
  forall rest, is_bytes rest -> read_raw c (to_raw_bytes a ++ rest) = Some (a, rest).
Proof. exact (fun c a Hc Ha => conj (from_to_raw_bytes c Hc a Ha)
  (fun rest => read_to_raw_bytes c Hc a rest Ha)). Qed.
Print Assumptions C13_roundtrip.
Theorem C13_from_raw_bytes : forall c l, odd_conf c -> is_bytes l ->
  match from_raw_bytes c l with
  | Some a => length l = size c /\ le_int l < modulus c /\
      canonical (num_limbs c) (modulus c) a /\ to_raw_bytes a = l
  | None => length l <> size c \/ modulus c <= le_int l
  end.
Proof. exact (fun c l Hc => from_raw_bytes_spec c Hc l). Qed.
Print Assumptions C13_from_raw_bytes.
Theorem C13_read_raw : forall c r, odd_conf c -> is_bytes r ->
  match read_raw c r with
  | Some (a, rest) => (size c <= length r)%nat /\ le_int (firstn (size c) r) < modulus c /\
      canonical (num_limbs c) (modulus c) a /\ r = to_raw_bytes a ++ rest
  | None => (length r < size c)%nat \/ modulus c <= le_int (firstn (size c) r)
  end.
Proof. exact (fun c r Hc => read_raw_spec c Hc r). Qed.
Print Assumptions C13_read_raw.
Example C13_example :
  from_raw_bytes bn256_fq (le_bytes 32 (modulus bn256_fq - 1)) <> None /\
  from_raw_bytes bn256_fq (le_bytes 32 (modulus bn256_fq)) = None /\
  from_raw_bytes bn256_fq [1; 2; 3] = None.
Proof. vm_compute. repeat split; discriminate. Qed.
