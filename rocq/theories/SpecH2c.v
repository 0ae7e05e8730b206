(** The maps of RFC 9380, sections 6.6.1 (Shallue-van de Woestijne) and 6.6.2
    (simplified SWU), as relations between the field element [u] and the affine
    point; divisions are cleared.  [odd] stands for [sgn0(x) = 1]. *)
From Verif Require Import Base Algebra FiniteField.

Section Spec.
Context {F : Type} (o : fops F) (odd : F -> bool).
Notation "0" := (f0 o). Notation "1" := (f1 o).
Infix "+" := (fadd o). Infix "-" := (fsub o). Infix "*" := (fmul o).
Notation "- x" := (fneg o x).

Definition curve_rhs (a b x : F) : F := x * x * x + a * x + b.
(** [y = sqrt(gx); if sgn0(u) != sgn0(y), set y = -y] *)
Definition signed_root (u gx y : F) : Prop :=
  exists r, r * r = gx /\ y = (if Bool.eqb (odd u) (odd r) then r else - r).

(** 6.6.2: [tv = Z^2 u^4 + Z u^2]; [x1 = (-B/A) (1 + 1/tv)], or [B / (Z A)] when [tv = 0];
    [x2 = Z u^2 x1]; the first of the two with a square [g(x)]. *)
Definition sswu_spec (a b z u x y : F) : Prop :=
  let t1 := z * (u * u) in
  let tv := t1 * t1 + t1 in
  exists x1,
    (tv = 0 -> x1 * (z * a) = b) /\
    (tv <> 0 -> x1 * (a * tv) = - b * (tv + 1)) /\
    (is_square o (curve_rhs a b x1) -> x = x1) /\
    (~ is_square o (curve_rhs a b x1) -> x = t1 * x1) /\
    signed_root u (curve_rhs a b x) y.

(** 6.6.1: [tv1 = u^2 g(Z)], [tv2 = 1 + tv1], [tv1 = 1 - tv1], [tv3 = inv0(tv1 tv2)],
    [tv4 = sqrt(-g(Z) (3 Z^2 + 4 A))] with [sgn0(tv4) = 0], [tv5 = u tv1 tv3 tv4],
    [tv6 = -4 g(Z) / (3 Z^2 + 4 A)], [x1 = -Z/2 - tv5], [x2 = -Z/2 + tv5],
    [x3 = Z + tv6 (tv2^2 tv3)^2]; the first of the three with a square [g(x)]. *)
Definition svdw_spec (a b z u x y : F) : Prop :=
  let g := curve_rhs a b in
  let T := (1 + 1 + 1) * (z * z) + (1 + 1 + 1 + 1) * a in
  exists tv3 tv4 tv6 h x1 x2 x3,
    let tv1 := 1 - u * u * g z in
    let tv2 := 1 + u * u * g z in
    (tv1 * tv2 = 0 -> tv3 = 0) /\ (tv1 * tv2 <> 0 -> tv3 * (tv1 * tv2) = 1) /\
    tv4 * tv4 = - g z * T /\ tv6 * T = - ((1 + 1 + 1 + 1) * g z) /\ h + h = - z /\
    (exists r, tv4 = if odd r then - r else r) /\
    x1 = h - u * tv1 * tv3 * tv4 /\ x2 = h + u * tv1 * tv3 * tv4 /\
    x3 = z + tv6 * ((tv2 * tv2 * tv3) * (tv2 * tv2 * tv3)) /\
    (is_square o (g x1) -> x = x1) /\
    (~ is_square o (g x1) -> is_square o (g x2) -> x = x2) /\
    (~ is_square o (g x1) -> ~ is_square o (g x2) -> x = x3) /\
    signed_root u (g x) y.
End Spec.
