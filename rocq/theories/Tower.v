(** Model of the extension-field code: src/ff_ext/quadratic.rs, cubic.rs and the
    tower types of src/{bn256,bls12381}/fq{2,6,12}.rs, src/pluto_eris/fp{2,6,12}.rs.
    [mnr] is [mul_by_nonresidue] of the base field. *)
From Verif Require Import Base Algebra.

(** src/ff_ext/quadratic.rs:173-176 *)
Record quad (F : Type) := mk_quad { q0 : F; q1 : F }.
Arguments mk_quad {F}. Arguments q0 {F}. Arguments q1 {F}.
(** src/ff_ext/cubic.rs:4-8 *)
Record cubic (F : Type) := mk_cubic { k0 : F; k1 : F; k2 : F }.
Arguments mk_cubic {F}. Arguments k0 {F}. Arguments k1 {F}. Arguments k2 {F}.

Section Quad.
Context {F : Type} (o : fops F) (mnr : F -> F).
Notation "0" := (f0 o). Notation "1" := (f1 o).
Infix "+" := (fadd o). Infix "-" := (fsub o). Infix "*" := (fmul o).
Notation "- x" := (fneg o x).

(** quadratic.rs:184-198 *)
Definition quad_zero : quad F := mk_quad 0 0.
Definition quad_one : quad F := mk_quad 1 0.
(** quadratic.rs:211-240 *)
Definition quad_double (a : quad F) := mk_quad (fdbl o (q0 a)) (fdbl o (q1 a)).
Definition quad_add (a b : quad F) := mk_quad (q0 a + q0 b) (q1 a + q1 b).
Definition quad_sub (a b : quad F) := mk_quad (q0 a - q0 b) (q1 a - q1 b).
Definition quad_neg (a : quad F) := mk_quad (- q0 a) (- q1 a).
(** quadratic.rs:243-245 *)
Definition quad_conjugate (a : quad F) := mk_quad (q0 a) (- q1 a).
(** quadratic.rs:152-157 [mul_assign] *)
Definition quad_mul (lhs rhs : quad F) : quad F :=
  let v0 := q0 lhs * q0 rhs in
  let v1 := q1 lhs * q1 rhs in
  mk_quad (v0 + mnr v1) ((q0 lhs + q1 lhs) * (q0 rhs + q1 rhs) - (v0 + v1)).
(** quadratic.rs:159-165 [square_assign] (default) *)
Definition quad_square (el : quad F) : quad F :=
  let ab := q0 el * q1 el in
  let c0c1 := q0 el + q1 el in
  let c0 := (mnr (q1 el) + q0 el) * c0c1 - ab in
  mk_quad (c0 - mnr ab) (fdbl o ab).
(** bn256/fq2.rs:34-40, bls12381/fq2.rs:38-44 [square_assign] (override, u^2 = -1) *)
Definition quad_square_complex (el : quad F) : quad F :=
  let a := q0 el + q1 el in
  let b := q0 el - q1 el in
  let c := fdbl o (q0 el) in
  mk_quad (a * b) (c * q1 el).
(** quadratic.rs:272-274 *)
Definition quad_norm (a : quad F) : F := fsqr o (q0 a) - mnr (fsqr o (q1 a)).
(** quadratic.rs:319-324 *)
Definition quad_invert (a : quad F) : option (quad F) :=
  match finv o (quad_norm a) with
  | Some t => Some (mk_quad (q0 a * t) (q1 a * - t))
  | None => None
  end.
(** quadratic.rs:288-290, 336-340 *)
Definition quad_is_zero (a : quad F) : bool := fis0 o (q0 a) && fis0 o (q1 a).
Definition quad_eqb (a b : quad F) : bool := feqb o (q0 a) (q0 b) && feqb o (q1 a) (q1 b).

(** The [Field] instance (quadratic.rs:277-325); [sq] selects the squaring. *)
Definition quad_ops (sq : quad F -> quad F) : fops (quad F) :=
  {| f0 := quad_zero; f1 := quad_one; fadd := quad_add; fsub := quad_sub;
     fmul := quad_mul; fneg := quad_neg; fsqr := sq; fdbl := quad_double;
     finv := quad_invert; feqb := quad_eqb; fis0 := quad_is_zero |}.
End Quad.

Section Cubic.
Context {F : Type} (o : fops F) (mnr : F -> F).
Notation "0" := (f0 o). Notation "1" := (f1 o).
Infix "+" := (fadd o). Infix "-" := (fsub o). Infix "*" := (fmul o).
Notation "- x" := (fneg o x).

(** cubic.rs:94-109 *)
Definition cubic_zero : cubic F := mk_cubic 0 0 0.
Definition cubic_one : cubic F := mk_cubic 1 0 0.
(** cubic.rs:127-160 *)
Definition cubic_double (a : cubic F) := mk_cubic (fdbl o (k0 a)) (fdbl o (k1 a)) (fdbl o (k2 a)).
Definition cubic_add (a b : cubic F) := mk_cubic (k0 a + k0 b) (k1 a + k1 b) (k2 a + k2 b).
Definition cubic_sub (a b : cubic F) := mk_cubic (k0 a - k0 b) (k1 a - k1 b) (k2 a - k2 b).
Definition cubic_neg (a : cubic F) := mk_cubic (- k0 a) (- k1 a) (- k2 a).
(** cubic.rs:53-70 [mul_assign] *)
Definition cubic_mul (lhs rhs : cubic F) : cubic F :=
  let a_a := k0 lhs * k0 rhs in
  let b_b := k1 lhs * k1 rhs in
  let c_c := k2 lhs * k2 rhs in
  let t1 := (k1 rhs + k2 rhs) * (k1 lhs + k2 lhs) - (c_c + b_b) in
  let t1 := a_a + mnr t1 in
  let t3 := (k0 rhs + k2 rhs) * (k0 lhs + k2 lhs) - (a_a - b_b + c_c) in
  let t2 := (k0 rhs + k1 rhs) * (k0 lhs + k1 lhs) - (a_a + b_b) in
  let t2 := t2 + mnr c_c in
  mk_cubic t1 t2 t3.
(** cubic.rs:72-84 [square_assign] *)
Definition cubic_square (el : cubic F) : cubic F :=
  let s0 := fsqr o (k0 el) in
  let s1 := fdbl o (k0 el * k1 el) in
  let s2 := fsqr o (k0 el - k1 el + k2 el) in
  let s3 := fdbl o (k1 el * k2 el) in
  let s4 := fsqr o (k2 el) in
  mk_cubic (mnr s3 + s0) (mnr s4 + s1) (s1 + s2 + s3 - s0 - s4).
(** cubic.rs:223-236 *)
Definition cubic_invert (a : cubic F) : option (cubic F) :=
  let c0 := mnr (k2 a) * - k1 a + fsqr o (k0 a) in
  let c1 := mnr (fsqr o (k2 a)) - (k0 a * k1 a) in
  let c2 := fsqr o (k1 a) - (k0 a * k2 a) in
  let t := (k2 a * c1) + (k1 a * c2) in
  let t := mnr t + (k0 a * c0) in
  match finv o t with
  | Some t => Some (mk_cubic (t * c0) (t * c1) (t * c2))
  | None => None
  end.
(** cubic.rs:203-205: the third coefficient is not looked at. *)
Definition cubic_is_zero (a : cubic F) : bool := fis0 o (k0 a) && fis0 o (k1 a).
(** cubic.rs:249-253 *)
Definition cubic_eqb (a b : cubic F) : bool :=
  feqb o (k0 a) (k0 b) && feqb o (k1 a) (k1 b) && feqb o (k2 a) (k2 b).
(** cubic.rs:188-237 *)
Definition cubic_ops : fops (cubic F) :=
  {| f0 := cubic_zero; f1 := cubic_one; fadd := cubic_add; fsub := cubic_sub;
     fmul := cubic_mul; fneg := cubic_neg; fsqr := cubic_square; fdbl := cubic_double;
     finv := cubic_invert; feqb := cubic_eqb; fis0 := cubic_is_zero |}.

(** bn256/fq6.rs:38-43, bls12381/fq6.rs:34-39, pluto_eris/fp6.rs:37-42
    [mul_by_nonresidue] of the sextic field: multiplication by v. *)
Definition cubic_mul_by_v (a : cubic F) : cubic F := mk_cubic (mnr (k2 a)) (k0 a) (k1 a).

(** cubic.rs:14-26 *)
Definition mul_by_1 (lhs : cubic F) (c1 : F) : cubic F :=
  let b_b := k1 lhs * c1 in
  let t1 := (k1 lhs + k2 lhs) * c1 - b_b in
  let t1 := mnr t1 in
  let t2 := (k0 lhs + k1 lhs) * c1 - b_b in
  mk_cubic t1 t2 b_b.
(** cubic.rs:29-47 *)
Definition mul_by_01 (lhs : cubic F) (c0 c1 : F) : cubic F :=
  let a_a := k0 lhs * c0 in
  let b_b := k1 lhs * c1 in
  let t1 := c1 * (k1 lhs + k2 lhs) - b_b in
  let t1 := a_a + mnr t1 in
  let t3 := c0 * (k0 lhs + k2 lhs) - a_a + b_b in
  let t2 := (c0 + c1) * (k0 lhs + k1 lhs) - a_a - b_b in
  mk_cubic t1 t2 t3.

(** quadratic.rs:12-26, with [QuadExtField<CubicExtField<F>>] *)
Definition mul_by_014 (lhs : quad (cubic F)) (c0 c1 c4 : F) : quad (cubic F) :=
  let aa := mul_by_01 (q0 lhs) c0 c1 in
  let bb := mul_by_1 (q1 lhs) c4 in
  let t0 := cubic_add (q1 lhs) (q0 lhs) in
  let t1 := c1 + c4 in
  mk_quad (cubic_add (cubic_mul_by_v bb) aa)
          (cubic_sub (mul_by_01 t0 c0 t1) (cubic_add aa bb)).
(** quadratic.rs:28-46 *)
Definition mul_by_034 (lhs : quad (cubic F)) (c0 c3 c4 : F) : quad (cubic F) :=
  let t0 := mk_cubic (k0 (q0 lhs) * c0) (k1 (q0 lhs) * c0) (k2 (q0 lhs) * c0) in
  let t1 := mul_by_01 (q1 lhs) c3 c4 in
  let t2 := cubic_add (q0 lhs) (q1 lhs) in
  let t3 := c0 + c3 in
  mk_quad (cubic_add t0 (cubic_mul_by_v t1))
          (cubic_sub (cubic_sub (mul_by_01 t2 t3 c4) t0) t1).

(** src/derive/field/tower.rs:221-227 *)
Definition fp4_square (a0 a1 : F) : F * F :=
  let t0 := fsqr o a0 in
  let t1 := fsqr o a1 in
  (mnr t1 + t0, fsqr o (a0 + a1) - t0 - t1).
(** src/derive/field/tower.rs:220-247 *)
Definition cyclotomic_square (s : quad (cubic F)) : quad (cubic F) :=
  let '(t3, t4) := fp4_square (k0 (q0 s)) (k1 (q1 s)) in
  let c00 := fdbl o (t3 - k0 (q0 s)) + t3 in
  let c11 := fdbl o (t4 + k1 (q1 s)) + t4 in
  let '(t3, t4) := fp4_square (k0 (q1 s)) (k2 (q0 s)) in
  let '(t5, t6) := fp4_square (k1 (q0 s)) (k2 (q1 s)) in
  let c01 := fdbl o (t3 - k1 (q0 s)) + t3 in
  let c12 := fdbl o (t4 + k2 (q1 s)) + t4 in
  let t3 := mnr t6 in
  let c10 := fdbl o (t3 + k0 (q1 s)) + t3 in
  let c02 := fdbl o (t5 - k2 (q0 s)) + t5 in
  mk_quad (mk_cubic c00 c01 c02) (mk_cubic c10 c11 c12).
End Cubic.

Section Towers.
Context {F : Type} (o : fops F).
Infix "+" := (fadd o). Infix "-" := (fsub o).

(** [ExtField::mul_by_nonresidue] of the base fields:
    bn256/fq.rs:30-32, bls12381/fq.rs:31-33 *)
Definition mnr_neg (x : F) : F := fneg o x.
(** pluto_eris/fp.rs:36-38 *)
Definition mnr_m5 (x : F) : F := fneg o (fdbl o (fdbl o x) + x).

(** bn256/fq2.rs:46-55 *)
Definition bn256_fq2_mnr (a : quad F) : quad F :=
  let t0 := q0 a in
  let t1 := q1 a in
  let t := quad_double o (quad_double o (quad_double o a)) in
  mk_quad (q0 t + t0 - t1) (q1 t + t0 + t1).
(** bls12381/fq2.rs:50-55 *)
Definition bls_fq2_mnr (a : quad F) : quad F := mk_quad (q0 a - q1 a) (q0 a + q1 a).
(** src/ff_ext/mod.rs:39-41 (default), used by pluto_eris/fp2.rs:50-77 *)
Definition default_mnr {G} (og : fops G) (nr : G) (a : G) : G := fmul og nr a.

(** The quadratic fields Fq2/Fp2 *)
Definition fq2_ops : fops (quad F) := quad_ops o mnr_neg (quad_square_complex o).
Definition fp2_ops : fops (quad F) := quad_ops o mnr_m5 (quad_square o mnr_m5).
End Towers.

(** Fq6 and Fq12 over a quadratic field with its [mul_by_nonresidue]. *)
Definition fq6_ops {G} (og : fops G) (mnr : G -> G) : fops (cubic G) := cubic_ops og mnr.
Definition fq12_ops {G} (og : fops G) (mnr : G -> G) : fops (quad (cubic G)) :=
  let o6 := fq6_ops og mnr in
  quad_ops o6 (cubic_mul_by_v mnr) (quad_square o6 (cubic_mul_by_v mnr)).

(** ** Frobenius maps; [power : usize] is a non-negative integer. *)
(** bn256/fq2.rs:60-64, bls12381/fq2.rs:57-61, pluto_eris/fp2.rs:72-76 *)
Definition fq2_frobenius {F} (o : fops F) (power : Z) (a : quad F) : quad F :=
  if power mod 2 =? 0 then a else quad_conjugate o a.
(** bn256/fq6.rs:30-36, bls12381/fq6.rs:26-32, pluto_eris/fp6.rs:29-35;
    [tab1], [tab2] are the arrays FROBENIUS_COEFF_FQ6_C1 and _C2 (length 6). *)
Definition fq6_frobenius {G} (og : fops G) (frob2 : Z -> G -> G) (tab1 tab2 : list G)
    (power : Z) (a : cubic G) : cubic G :=
  mk_cubic (frob2 power (k0 a))
           (fmul og (frob2 power (k1 a)) (nth (Z.to_nat (power mod 6)) tab1 (f0 og)))
           (fmul og (frob2 power (k2 a)) (nth (Z.to_nat (power mod 6)) tab2 (f0 og))).
(** bn256/fq12.rs:26-32, bls12381/fq12.rs:22-28, pluto_eris/fp12.rs:26-32;
    [tab] is FROBENIUS_COEFF_FQ12_C1 (length 12). *)
Definition fq12_frobenius {G} (og : fops G) (frob2 : Z -> G -> G) (tab1 tab2 tab : list G)
    (power : Z) (a : quad (cubic G)) : quad (cubic G) :=
  let c0 := fq6_frobenius og frob2 tab1 tab2 power (q0 a) in
  let c1 := fq6_frobenius og frob2 tab1 tab2 power (q1 a) in
  let g := nth (Z.to_nat (power mod 12)) tab (f0 og) in
  mk_quad c0 (mk_cubic (fmul og (k0 c1) g) (fmul og (k1 c1) g) (fmul og (k2 c1) g)).
