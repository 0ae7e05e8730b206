(** Model of the curve arithmetic generated by [new_curve_impl!]
    (src/derive/curve.rs).  [o] is the base field. *)
From Verif Require Import Base Algebra.

(** curve.rs:250-262: the two point types. *)
Record proj (F : Type) := mk_proj { px : F; py : F; pz : F }.
Arguments mk_proj {F}. Arguments px {F}. Arguments py {F}. Arguments pz {F}.
Record aff (F : Type) := mk_aff { ax : F; ay : F }.
Arguments mk_aff {F}. Arguments ax {F}. Arguments ay {F}.

(** Macro arguments [constant_a], [constant_b] and the function [mul_by_3b]. *)
Record cconf (F : Type) := { ca : F; cb : F; mul3b : F -> F }.
Arguments ca {F}. Arguments cb {F}. Arguments mul3b {F}.

Section Curve.
Context {F : Type} (o : fops F) (c : cconf F).
Notation "0" := (f0 o). Notation "1" := (f1 o).
Infix "+" := (fadd o). Infix "-" := (fsub o). Infix "*" := (fmul o).
Notation "- x" := (fneg o x).

(** [conditional_select a b choice]: [b] when [choice]. *)
Definition select {A} (a b : A) (choice : bool) : A := if choice then b else a.

(** curve.rs:278-292: [curve_constant_3b], [mul_by_3b] *)
Definition mul3b_const (b : F) (input : F) : F := input * (b + b + b).
Definition mul3b_bn256_g1 (input : F) : F := fdbl o (fdbl o (fdbl o input)) + input.

Definition a_is_zero : bool := feqb o (ca c) 0.

(** curve.rs:303-312 *)
Definition curve_y2 (x : F) : F :=
  if a_is_zero then let x3 := fsqr o x * x in x3 + cb c
  else let x2 := fsqr o x in (x2 + ca c) * x + cb c.

(** curve.rs:603-613 *)
Definition proj_identity : proj F := mk_proj 0 1 0.
Definition proj_is_identity (p : proj F) : bool := fis0 o (pz p).
(** curve.rs:765-774 *)
Definition aff_identity : aff F := mk_aff 0 0.
Definition aff_is_identity (p : aff F) : bool := fis0 o (ax p) && fis0 o (ay p).

(** curve.rs:361-380 *)
Definition proj_eq (p q : proj F) : bool :=
  let x1 := px p * pz q in
  let y1 := py p * pz q in
  let x2 := px q * pz p in
  let y2 := py q * pz p in
  let self_is_zero := proj_is_identity p in
  let other_is_zero := proj_is_identity q in
  (self_is_zero && other_is_zero)
  || (negb self_is_zero && negb other_is_zero && feqb o x1 x2 && feqb o y1 y2).

(** curve.rs:698-703 *)
Definition aff_eq (p q : aff F) : bool :=
  let z1 := aff_is_identity p in
  let z2 := aff_is_identity q in
  (z1 && z2) || (negb z1 && negb z2 && feqb o (ax p) (ax q) && feqb o (ay p) (ay q)).

(** curve.rs:416-421 *)
Definition jacobian_coordinates (p : proj F) : F * F * F :=
  (px p * pz p, py p * fsqr o (pz p), pz p).

(** curve.rs:429-446 *)
Definition proj_is_on_curve (p : proj F) : bool :=
  if a_is_zero then
    feqb o (pz p * fsqr o (py p) - fsqr o (px p) * px p) (fsqr o (pz p) * pz p * cb c)
    || fis0 o (pz p)
  else
    let z2 := fsqr o (pz p) in
    feqb o (pz p * fsqr o (py p) - (fsqr o (px p) + ca c * z2) * px p) (z2 * pz p * cb c)
    || fis0 o (pz p).

(** curve.rs:813-823 *)
Definition aff_is_on_curve (p : aff F) : bool :=
  if a_is_zero then
    feqb o (fsqr o (ay p) - fsqr o (ax p) * ax p) (cb c) || aff_is_identity p
  else
    feqb o (fsqr o (ay p) - (fsqr o (ax p) + ca c) * ax p) (cb c) || aff_is_identity p.

(** [invert().unwrap_or(zero)] *)
Definition inv_or_zero (x : F) : F := match finv o x with Some y => y | None => 0 end.

(** curve.rs:456-467 *)
Definition new_jacobian (x y z : F) : option (proj F) :=
  let z_inv := inv_or_zero z in
  let p_x := x * z_inv in
  let p_y := y * fsqr o z_inv in
  let p := mk_proj p_x (select p_y 1 (fis0 o z)) z in
  if proj_is_on_curve p then Some p else None.

(** curve.rs:507-517 *)
Definition to_affine (p : proj F) : aff F :=
  let zinv := inv_or_zero (pz p) in
  let x := px p * zinv in
  let y := py p * zinv in
  select (mk_aff x y) aff_identity (fis0 o zinv).

(** curve.rs:776-783 *)
Definition to_curve (p : aff F) : proj F :=
  select (mk_proj (ax p) (ay p) 1) proj_identity (aff_is_identity p).

(** curve.rs:829-834 *)
Definition from_xy (x y : F) : option (aff F) :=
  let p := mk_aff x y in if aff_is_on_curve p then Some p else None.

(** curve.rs:474-505 [batch_normalize]: the first pass stores the running
    product in [q.x]; [None] is the panic of [invert().unwrap()]. *)
Fixpoint bn_forward (acc : F) (ps : list (proj F)) : list F * F :=
  match ps with
  | [] => ([], acc)
  | p :: ps' =>
    let acc' := select (acc * pz p) acc (proj_is_identity p) in
    let '(qs, r) := bn_forward acc' ps' in (acc :: qs, r)
  end.
(** Second pass, over the reversed vectors. *)
Fixpoint bn_backward (acc : F) (pqs : list (proj F * F)) : list (aff F) :=
  match pqs with
  | [] => []
  | (p, qx) :: rest =>
    let skip := proj_is_identity p in
    let tmp := qx * acc in
    let acc' := select (acc * pz p) acc skip in
    select (mk_aff (px p * tmp) (py p * tmp)) aff_identity skip :: bn_backward acc' rest
  end.
Definition batch_normalize (ps : list (proj F)) : option (list (aff F)) :=
  let '(qs, acc) := bn_forward 1 ps in
  match finv o acc with
  | None => None
  | Some acc => Some (rev (bn_backward acc (rev (combine ps qs))))
  end.

(** curve.rs:527-554 *)
Definition double_a0 (p : proj F) : proj F :=
  let t0 := fsqr o (py p) in
  let z3 := t0 + t0 in
  let z3 := z3 + z3 in
  let z3 := z3 + z3 in
  let t1 := py p * pz p in
  let t2 := fsqr o (pz p) in
  let t2 := mul3b c t2 in
  let x3 := t2 * z3 in
  let y3 := t0 + t2 in
  let z3 := t1 * z3 in
  let t1 := t2 + t2 in
  let t2 := t1 + t2 in
  let t0 := t0 - t2 in
  let y3 := t0 * y3 in
  let y3 := x3 + y3 in
  let t1 := px p * py p in
  let x3 := t0 * t1 in
  let x3 := x3 + x3 in
  select (mk_proj x3 y3 z3) proj_identity (proj_is_identity p).

(** curve.rs:555-596 *)
Definition double_gen (p : proj F) : proj F :=
  let t0 := fsqr o (px p) in
  let t1 := fsqr o (py p) in
  let t2 := fsqr o (pz p) in
  let t3 := px p * py p in
  let t3 := t3 + t3 in
  let z3 := px p * pz p in
  let z3 := z3 + z3 in
  let x3 := ca c * z3 in
  let y3 := mul3b c t2 in
  let y3 := x3 + y3 in
  let x3 := t1 - y3 in
  let y3 := t1 + y3 in
  let y3 := x3 * y3 in
  let x3 := t3 * x3 in
  let z3 := mul3b c z3 in
  let t2 := ca c * t2 in
  let t3 := t0 - t2 in
  let t3 := ca c * t3 in
  let t3 := t3 + z3 in
  let z3 := t0 + t0 in
  let t0 := z3 + t0 in
  let t0 := t0 + t2 in
  let t0 := t0 * t3 in
  let y3 := y3 + t0 in
  let t2 := py p * pz p in
  let t2 := t2 + t2 in
  let t0 := t2 * t3 in
  let x3 := x3 - t0 in
  let z3 := t2 * t1 in
  let z3 := z3 + z3 in
  let z3 := z3 + z3 in
  select (mk_proj x3 y3 z3) proj_identity (proj_is_identity p).

Definition proj_double (p : proj F) : proj F :=
  if a_is_zero then double_a0 p else double_gen p.

(** curve.rs:889-929 *)
Definition add_a0 (p q : proj F) : proj F :=
  let t0 := px p * px q in
  let t1 := py p * py q in
  let t2 := pz p * pz q in
  let t3 := px p + py p in
  let t4 := px q + py q in
  let t3 := t3 * t4 in
  let t4 := t0 + t1 in
  let t3 := t3 - t4 in
  let t4 := py p + pz p in
  let x3 := py q + pz q in
  let t4 := t4 * x3 in
  let x3 := t1 + t2 in
  let t4 := t4 - x3 in
  let x3 := px p + pz p in
  let y3 := px q + pz q in
  let x3 := x3 * y3 in
  let y3 := t0 + t2 in
  let y3 := x3 - y3 in
  let x3 := t0 + t0 in
  let t0 := x3 + t0 in
  let t2 := mul3b c t2 in
  let z3 := t1 + t2 in
  let t1 := t1 - t2 in
  let y3 := mul3b c y3 in
  let x3 := t4 * y3 in
  let t2 := t3 * t1 in
  let x3 := t2 - x3 in
  let y3 := y3 * t0 in
  let t1 := t1 * z3 in
  let y3 := t1 + y3 in
  let t0 := t0 * t3 in
  let z3 := z3 * t4 in
  let z3 := z3 + t0 in
  mk_proj x3 y3 z3.

(** curve.rs:930-978 *)
Definition add_gen (p q : proj F) : proj F :=
  let t0 := px p * px q in
  let t1 := py p * py q in
  let t2 := pz p * pz q in
  let t3 := px p + py p in
  let t4 := px q + py q in
  let t3 := t3 * t4 in
  let t4 := t0 + t1 in
  let t3 := t3 - t4 in
  let t4 := px p + pz p in
  let t5 := px q + pz q in
  let t4 := t4 * t5 in
  let t5 := t0 + t2 in
  let t4 := t4 - t5 in
  let t5 := py p + pz p in
  let x3 := py q + pz q in
  let t5 := t5 * x3 in
  let x3 := t1 + t2 in
  let t5 := t5 - x3 in
  let z3 := ca c * t4 in
  let x3 := mul3b c t2 in
  let z3 := x3 + z3 in
  let x3 := t1 - z3 in
  let z3 := t1 + z3 in
  let y3 := x3 * z3 in
  let t1 := t0 + t0 in
  let t1 := t1 + t0 in
  let t2 := ca c * t2 in
  let t4 := mul3b c t4 in
  let t1 := t1 + t2 in
  let t2 := t0 - t2 in
  let t2 := ca c * t2 in
  let t4 := t4 + t2 in
  let t0 := t1 * t4 in
  let y3 := y3 + t0 in
  let t0 := t5 * t4 in
  let x3 := t3 * x3 in
  let x3 := x3 - t0 in
  let t0 := t3 * t1 in
  let z3 := t5 * z3 in
  let z3 := z3 + t0 in
  mk_proj x3 y3 z3.

Definition proj_add (p q : proj F) : proj F :=
  if a_is_zero then add_a0 p q else add_gen p q.

(** curve.rs:987-1022 *)
Definition madd_a0 (p : proj F) (q : aff F) : proj F :=
  let t0 := px p * ax q in
  let t1 := py p * ay q in
  let t3 := ax q + ay q in
  let t4 := px p + py p in
  let t3 := t3 * t4 in
  let t4 := t0 + t1 in
  let t3 := t3 - t4 in
  let t4 := ay q * pz p in
  let t4 := t4 + py p in
  let y3 := ax q * pz p in
  let y3 := y3 + px p in
  let x3 := t0 + t0 in
  let t0 := x3 + t0 in
  let t2 := mul3b c (pz p) in
  let z3 := t1 + t2 in
  let t1 := t1 - t2 in
  let y3 := mul3b c y3 in
  let x3 := t4 * y3 in
  let t2 := t3 * t1 in
  let x3 := t2 - x3 in
  let y3 := y3 * t0 in
  let t1 := t1 * z3 in
  let y3 := t1 + y3 in
  let t0 := t0 * t3 in
  let z3 := z3 * t4 in
  let z3 := z3 + t0 in
  select (mk_proj x3 y3 z3) p (aff_is_identity q).

(** curve.rs:1023-1066 *)
Definition madd_gen (p : proj F) (q : aff F) : proj F :=
  let t0 := px p * ax q in
  let t1 := py p * ay q in
  let t3 := ax q + ay q in
  let t4 := px p + py p in
  let t3 := t3 * t4 in
  let t4 := t0 + t1 in
  let t3 := t3 - t4 in
  let t4 := ax q * pz p in
  let t4 := t4 + px p in
  let t5 := ay q * pz p in
  let t5 := t5 + py p in
  let z3 := ca c * t4 in
  let x3 := mul3b c (pz p) in
  let z3 := x3 + z3 in
  let x3 := t1 - z3 in
  let z3 := t1 + z3 in
  let y3 := x3 * z3 in
  let t1 := t0 + t0 in
  let t1 := t1 + t0 in
  let t2 := ca c * pz p in
  let t4 := mul3b c t4 in
  let t1 := t1 + t2 in
  let t2 := t0 - t2 in
  let t2 := ca c * t2 in
  let t4 := t4 + t2 in
  let t0 := t1 * t4 in
  let y3 := y3 + t0 in
  let t0 := t5 * t4 in
  let x3 := t3 * x3 in
  let x3 := x3 - t0 in
  let t0 := t3 * t1 in
  let z3 := t5 * z3 in
  let z3 := z3 + t0 in
  select (mk_proj x3 y3 z3) p (aff_is_identity q).

Definition proj_madd (p : proj F) (q : aff F) : proj F :=
  if a_is_zero then madd_a0 p q else madd_gen p q.

(** curve.rs:853-866, 1113-1124 *)
Definition proj_neg (p : proj F) : proj F := mk_proj (px p) (- py p) (pz p).
Definition aff_neg (p : aff F) : aff F := mk_aff (ax p) (- ay p).
(** curve.rs:1070-1085 *)
Definition proj_sub (p q : proj F) : proj F := proj_add p (proj_neg q).
Definition proj_msub (p : proj F) (q : aff F) : proj F := proj_madd p (aff_neg q).
(** curve.rs:1132-1163 *)
Definition aff_add_proj (p : aff F) (q : proj F) : proj F := proj_madd q p.
Definition aff_add (p q : aff F) : proj F := proj_add (to_curve q) (to_curve p).
Definition aff_sub (p q : aff F) : proj F := aff_add p (aff_neg q).
Definition aff_sub_proj (p : aff F) (q : proj F) : proj F := aff_add_proj p (proj_neg q).
(** curve.rs:873-883 *)
Definition proj_sum (l : list (proj F)) : proj F := fold_left proj_add l proj_identity.

(** curve.rs:1089-1111, 1165-1188: bits of the little-endian representation,
    most significant first. *)
Definition byte_bits_be (b : Z) : list bool := map (fun i => Z.testbit b i) [7; 6; 5; 4; 3; 2; 1; 0]%Z.
Definition repr_bits_be (repr : list Z) : list bool := flat_map byte_bits_be (rev repr).
Definition proj_mul (p : proj F) (repr : list Z) : proj F :=
  fold_left (fun acc bit => let acc := proj_double acc in select acc (proj_add acc p) bit)
    (repr_bits_be repr) proj_identity.
Definition aff_mul (p : aff F) (repr : list Z) : proj F :=
  fold_left (fun acc bit => let acc := proj_double acc in select acc (proj_madd acc p) bit)
    (repr_bits_be repr) proj_identity.

(** curve.rs:408-414 *)
Definition proj_endo (zeta : F) (p : proj F) : proj F := mk_proj (px p * zeta) (py p) (pz p).
End Curve.
