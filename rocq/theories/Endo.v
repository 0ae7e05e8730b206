(** Model of the [endo!] macro (src/derive/curve.rs:1-50): the decomposition of
    a scalar along the curve endomorphism, with the parameters of its five
    users.  It is stated for any field configuration with four limbs. *)
From Verif Require Import Base Word Limbs Bytes Field Params.

Definition arr4 := (Z * Z * Z * Z)%type.
(** src/arithmetic.rs:14-19 [EndoParameters] *)
Record endo_params := { gamma1 : arr4; gamma2 : arr4; eb1 : arr4; eb2 : arr4 }.

Section Decompose.
Variable c : fconf.
Variable params : endo_params.

(** src/derive/curve.rs:6-14 [to_limbs].  [to_repr] of these fields has 32
    bytes, so that the slices exist. *)
Definition to_limbs4 (e : list Z) : arr4 :=
  let repr := to_repr c e in
  let word i := from_le_bytes (chunk8 repr i) in
  (word 0%nat, word 1%nat, word 2%nat, word 3%nat).
(** curve.rs:16-19 [get_lower_128] *)
Definition get_lower_128 (e : list Z) : Z :=
  let '(e0, e1, _, _) := to_limbs4 e in Z.lor e0 (Z.shiftl e1 64).
(** curve.rs:21-28 [is_neg] *)
Definition endo_is_neg (e : list Z) : bool :=
  let '(e0, e1, e2, e3) := to_limbs4 e in
  let '(_, borrow) := sbb 0xffffffffffffffff e0 0 in
  let '(_, borrow) := sbb 0xffffffffffffffff e1 borrow in
  let '(_, borrow) := sbb 0xffffffffffffffff e2 borrow in
  let '(_, borrow) := sbb 0 e3 borrow in
  negb (Z.land borrow 1 =? 0).
Definition lo4 (x : arr4 * arr4) : list Z :=
  let '(a0, a1, a2, a3, _) := x in [a0; a1; a2; a3].
(** curve.rs:30-46 [decompose_scalar] *)
Definition decompose_scalar (k : list Z) : Z * bool * Z * bool :=
  let input := to_limbs4 k in
  let c1 := mul_512 (gamma2 params) input in
  let c2 := mul_512 (gamma1 params) input in
  let c1 := snd c1 in
  let c2 := snd c2 in
  let q1 := mul_512 c1 (eb1 params) in
  let q2 := mul_512 c2 (eb2 params) in
  let q1 := from_raw c (lo4 q1) in
  let q2 := from_raw c (lo4 q2) in
  let k2 := fe_sub c q2 q1 in
  let k1 := fe_add c k (fe_mul c k2 (ZETA c)) in
  let k1_neg := endo_is_neg k1 in
  let k2_neg := endo_is_neg k2 in
  let k1 := if k1_neg then fe_neg c k1 else k1 in
  let k2 := if k2_neg then fe_neg c k2 else k2 in
  (get_lower_128 k1, k1_neg, get_lower_128 k2, k2_neg).
End Decompose.

(** src/bn256/curve.rs:137-146, used with bn256 [Fr] *)
Definition ENDO_PARAMS_BN : endo_params := {|
  gamma1 := (0xd91d232ec7e0b3d7, 0x2, 0, 0);
  gamma2 := (0x5398fd0300ff6565, 0x4ccef014a773d2d2, 0x02, 0);
  eb1 := (0x89d3256894d213e3, 0, 0, 0);
  eb2 := (0x0be4e1541221250b, 0x6f4d8248eeb859fd, 0, 0) |}.
(** src/grumpkin/curve.rs:59-66, used with grumpkin [Fr], which is bn256 [Fq] *)
Definition ENDO_PARAMS_GRUMPKIN : endo_params := {|
  gamma1 := (0xd91d232ec7e0b3d2, 0x2, 0, 0);
  gamma2 := (0x5398fd0300ff655f, 0x4ccef014a773d2d2, 0x02, 0);
  eb1 := (0x89d3256894d213e2, 0, 0, 0);
  eb2 := (0x0be4e1541221250b, 0x6f4d8248eeb859fd, 0, 0) |}.
(** src/bls12381/mod.rs:24-36, used with bls12381 [Fr] by G1 and G2 *)
Definition ENDO_PARAMS_BLS : endo_params := {|
  gamma2 := (0x63f6e522f6cfee30, 0x7c6becf1e01faadd, 0x01, 0);
  gamma1 := (0x02, 0, 0, 0);
  eb1 := (0x01, 0, 0, 0);
  eb2 := (0x0000000100000000, 0xac45a4010001a402, 0, 0) |}.
(** src/pasta/mod.rs:16-21, used by [Eq] with pasta [Fp] *)
Definition ENDO_PARAMS_EQ : endo_params := {|
  gamma1 := (0x32c49e4c00000003, 0x279a745902a2654e, 0x1, 0);
  gamma2 := (0x31f0256800000002, 0x4f34e8b2066389a4, 0x2, 0);
  eb1 := (0x8cb1279300000001, 0x49e69d1640a89953, 0, 0);
  eb2 := (0x0c7c095a00000001, 0x93cd3a2c8198e269, 0, 0) |}.
(** src/pasta/mod.rs:28-33, used by [Ep] with pasta [Fq] *)
Definition ENDO_PARAMS_EP : endo_params := {|
  gamma1 := (0x32c49e4bffffffff, 0x279a745902a2654e, 0x1, 0);
  gamma2 := (0x31f0256800000002, 0x4f34e8b2066389a4, 0x2, 0);
  eb1 := (0x8cb1279300000000, 0x49e69d1640a89953, 0, 0);
  eb2 := (0x0c7c095a00000001, 0x93cd3a2c8198e269, 0, 0) |}.

(** The pasta fields come from the external crate [pasta_curves] 0.5 (not in
    /repo).  Its elements are also four little-endian limbs in Montgomery form;
    the moduli and the constants [ZETA] are those of that crate, and the
    arithmetic is taken to be the same function as that of [impl_field!]. *)
Definition pasta_fp : fconf := {|
  modulus := 0x40000000000000000000000000000000224698fc094cf91b992d30ed00000001;
  mul_gen := 5;
  zeta := 0x12ccca834acdba712caad5dc57aab1b01d1f8bd237ad31491dad5ebdfdfe4ab9;
  big_endian := false |}.
Definition pasta_fq : fconf := {|
  modulus := 0x40000000000000000000000000000000224698fc0994a8dd8c46eb2100000001;
  mul_gen := 5;
  zeta := 0x06819a58283e528e511db4d81cf70f5a0fed467d47c033af2aa9d2e050aa0e4f;
  big_endian := false |}.

(** The five uses of [endo!]: src/bn256/curve.rs, src/grumpkin/curve.rs,
    src/bls12381/g1.rs and g2.rs (same arguments), src/pasta/mod.rs. *)
Definition endo_users : list (fconf * endo_params) :=
  [ (bn256_fr, ENDO_PARAMS_BN); (bn256_fq, ENDO_PARAMS_GRUMPKIN);
    (bls12381_fr, ENDO_PARAMS_BLS); (pasta_fp, ENDO_PARAMS_EQ); (pasta_fq, ENDO_PARAMS_EP) ].
