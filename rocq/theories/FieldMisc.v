(** Remaining functions of the field traits: [sqrt_ratio] and [sqrt_alt] of the prime fields,
    [char_le_bits], and ordering, conversion and constants of the quadratic extensions
    (macro `impl_tower2`). *)
From Verif Require Import Base Word Limbs Bytes Field SpecField LimbsFacts FieldFacts Algebra Tower Curve Inverse PrimeField LimbField Sqrt Sqrt2 H2c H2cSuites Serde.
Local Open Scope Z_scope.

Section Ratio.
Context {F : Type} (o : fops F) (inj : Z -> F) (c : fconf).
(** derive/src/field/mod.rs:416-418: `ff::helpers::sqrt_ratio_generic`, which hash_to_curve.rs:190-191
    copies with [ROOT_OF_UNITY] replaced by an argument *)
Definition field_sqrt_ratio (num div : F) : h2c (bool * F) :=
  sqrt_ratio o (fq_sqrt o inj c) num div (inj (root_of_unity_int c)).
(** the default [Field::sqrt_alt] of crate ff *)
Definition field_sqrt_alt (x : F) : h2c (bool * F) := field_sqrt_ratio x (f1 o).
End Ratio.
(** src/ff_ext/quadratic.rs:315-317 and cubic.rs:219-221: `unimplemented!()` *)
Definition ext_sqrt_ratio {F : Type} (num div : F) : h2c (bool * F) := HPanic.

(** src/derive/field/common.rs:39-46: bit [i] is bit [i mod 64] of limb [i / 64] *)
Definition char_le_bits (c : fconf) : list bool :=
  flat_map (fun limb => map (fun i => Z.testbit limb (Z.of_nat i)) (seq 0 64)) (modulus_limbs c).

Section Tower2.
Context (c : fconf).
Notation E := (quad (list Z)).
(** tower.rs:11-28 [cmp], [partial_cmp] *)
Definition t2_cmp (a b : E) : comparison :=
  match fe_cmp c (q1 a) (q1 b) with
  | Gt => Gt
  | Lt => Lt
  | Eq => fe_cmp c (q0 a) (q0 b)
  end.
Definition t2_partial_cmp (a b : E) : option comparison := Some (t2_cmp a b).
(** tower.rs:30-37 *)
Definition t2_from_u64 (v : Z) : E := mk_quad (from_u64 c v) (fe_zero c).
(** tower.rs:81-86 *)
Definition t2_ZETA : E := mk_quad (fe_mul c (ZETA c) (ZETA c)) (fe_zero c).
(** tower.rs:97-125 *)
Definition t2_MULTIPLICATIVE_GENERATOR : E := mk_quad (MULTIPLICATIVE_GENERATOR c) (fe_zero c).
Definition t2_ROOT_OF_UNITY : E := mk_quad (ROOT_OF_UNITY c) (fe_zero c).
Definition t2_ROOT_OF_UNITY_INV : E := mk_quad (ROOT_OF_UNITY_INV c) (fe_zero c).
Definition t2_DELTA : E := mk_quad (DELTA c) (fe_zero c).
Definition t2_TWO_INV : E := mk_quad (TWO_INV c) (fe_zero c).
Definition t2_S : Z := two_adicity c.
(** tower.rs:66-79 on limbs *)
Definition t2_lexicographically_largest (a : E) : bool :=
  lexicographically_largest c (q1 a) || (fe_eqb (q1 a) (fe_zero c) && lexicographically_largest c (q0 a)).
Definition t2_neg (a : E) : E := mk_quad (fe_neg c (q0 a)) (fe_neg c (q1 a)).
End Tower2.
