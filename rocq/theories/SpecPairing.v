(** Specification of the ate pairings: Miller's algorithm on affine points over one
    field, with denominator elimination (vertical lines are left out), as in textbooks. *)
From Verif Require Import Base Algebra SpecCurve.
Local Open Scope Z_scope.

Section Spec.
Context {E : Type} (o : fops E) (a : E).
Infix "+" := (fadd o). Infix "-" := (fsub o). Infix "*" := (fmul o).

(** Value at (X, Y) of the line through [S] and [T] (the tangent if they are equal). *)
Definition line (S T : point (F := E)) (X Y : E) : E :=
  match S, T with
  | Some (x1, y1), Some (x2, y2) =>
    if feqb o x1 x2 then
      if feqb o y1 (fneg o y2) then X - x1
      else Y - y1 - quot o ((f1 o + f1 o + f1 o) * (x1 * x1) + a) ((f1 o + f1 o) * y1) * (X - x1)
    else Y - y1 - quot o (y2 - y1) (x2 - x1) * (X - x1)
  | Some (x1, _), None => X - x1
  | None, Some (x2, _) => X - x2
  | None, None => f1 o
  end.

(** Signed digits, most significant first, after the leading 1.  The state: the value
    of the function and the running multiple of [Q]. *)
Fixpoint miller_digits (ds : list Z) (Q : point) (X Y : E) (f : E) (T : point) : E * point :=
  match ds with
  | [] => (f, T)
  | d :: ds' =>
    let f := f * f * line T T X Y in
    let T := pt_add o a T T in
    if Z.eqb d 1 then miller_digits ds' Q X Y (f * line T Q X Y) (pt_add o a T Q)
    else if Z.eqb d (-1) then
      miller_digits ds' Q X Y (f * line T (pt_neg o Q) X Y) (pt_add o a T (pt_neg o Q))
    else miller_digits ds' Q X Y f T
  end.
(** f_{n,Q}(X,Y) for the n with the given digits *)
Definition miller_function (ds : list Z) (Q : point) (X Y : E) : E := fst (miller_digits ds Q X Y (f1 o) Q).
(** The value of the loop followed by two more lines, as for the BN curves. *)
Definition miller_function_bn (ds : list Z) (Q Q1 Q2 : point) (X Y : E) : E :=
  let '(f, T) := miller_digits ds Q X Y (f1 o) Q in
  f * line T Q1 X Y * line (pt_add o a T Q1) Q2 X Y.
End Spec.
(** The integer denoted by the digits, with the leading 1. *)
Definition digits_value (ds : list Z) : Z := fold_left (fun n d => 2 * n + d) ds 1.
(** A map on the coordinates of a point. *)
Definition pt_map {F G} (h : F -> G) (P : point (F := F)) : point (F := G) :=
  match P with None => None | Some (x, y) => Some (h x, h y) end.
