(** Model of the 64-bit word primitives of src/arithmetic.rs.

    A [u64] is an integer in [0, 2^64).  [u128] intermediates are unbounded
    integers here; the lemmas in WordFacts.v show the results fit. *)
From Verif Require Import Base.

(** The word base 2^64. *)
Definition W : Z := 18446744073709551616.

(** src/arithmetic.rs:22-25 [adc] *)
Definition adc (a b carry : Z) : Z * Z :=
  let ret := a + b + carry in (ret mod W, ret / W).

(** src/arithmetic.rs:29-32 [sbb].  The subtraction wraps in [u128]; the second
    component is the upper word, i.e. 0 or 2^64-1. *)
Definition sbb (a b borrow : Z) : Z * Z :=
  let ret := (a - (b + Z.shiftr borrow 63)) mod (W * W) in
  (ret mod W, ret / W).

(** src/arithmetic.rs:36-39 [mac] *)
Definition mac (a b c carry : Z) : Z * Z :=
  let ret := a + b * c + carry in (ret mod W, ret / W).

(** src/arithmetic.rs:43-46 [macx] *)
Definition macx (a b c : Z) : Z * Z :=
  let res := a + b * c in (res mod W, res / W).

(** [u64::wrapping_mul], [u64::wrapping_neg], used in derive/src/field. *)
Definition wmul (a b : Z) : Z := (a * b) mod W.
Definition wneg (a : Z) : Z := (- a) mod W.

(** src/arithmetic.rs:50-72 [mul_512], on 4-limb arrays (written out exactly as
    in the source).  Arrays are tuples here since the length is fixed. *)
Definition mul_512 (a b : Z * Z * Z * Z) : Z * Z * Z * Z * (Z * Z * Z * Z) :=
  let '(a0, a1, a2, a3) := a in
  let '(b0, b1, b2, b3) := b in
  let '(r0, carry) := macx 0 a0 b0 in
  let '(r1, carry) := macx carry a0 b1 in
  let '(r2, carry) := macx carry a0 b2 in
  let '(r3, carry_out) := macx carry a0 b3 in
  let '(r1, carry) := macx r1 a1 b0 in
  let '(r2, carry) := mac r2 a1 b1 carry in
  let '(r3, carry) := mac r3 a1 b2 carry in
  let '(r4, carry_out) := mac carry_out a1 b3 carry in
  let '(r2, carry) := macx r2 a2 b0 in
  let '(r3, carry) := mac r3 a2 b1 carry in
  let '(r4, carry) := mac r4 a2 b2 carry in
  let '(r5, carry_out) := mac carry_out a2 b3 carry in
  let '(r3, carry) := macx r3 a3 b0 in
  let '(r4, carry) := mac r4 a3 b1 carry in
  let '(r5, carry) := mac r5 a3 b2 carry in
  let '(r6, carry_out) := mac carry_out a3 b3 carry in
  (r0, r1, r2, r3, (r4, r5, r6, carry_out)).
