(** Specification of elliptic curves y^2 = x^3 + a x + b: affine points with a
    point at infinity and the textbook chord-and-tangent law. *)
From Verif Require Import Base Algebra.

Section Spec.
Context {F : Type} (o : fops F) (a b : F).
Notation "0" := (f0 o). Notation "1" := (f1 o).
Infix "+" := (fadd o). Infix "-" := (fsub o). Infix "*" := (fmul o).
Notation "- x" := (fneg o x).

(** [None] is the point at infinity. *)
Definition point : Type := option (F * F).

Definition on_curve (P : point) : Prop :=
  match P with None => True | Some (x, y) => y * y = x * x * x + a * x + b end.

Definition quot (n d : F) : F := match finv o d with Some i => n * i | None => 0 end.

Definition pt_neg (P : point) : point :=
  match P with None => None | Some (x, y) => Some (x, - y) end.

(** Third intersection with the line of slope [l] through [(x1,y1)], reflected. *)
Definition pt_line (l x1 y1 x2 : F) : point :=
  let x3 := l * l - x1 - x2 in Some (x3, l * (x1 - x3) - y1).

Definition pt_add (P Q : point) : point :=
  match P, Q with
  | None, _ => Q
  | _, None => P
  | Some (x1, y1), Some (x2, y2) =>
      if feqb o x1 x2 then
        if feqb o y1 (- y2) then None
        else pt_line (quot ((1 + 1 + 1) * (x1 * x1) + a) ((1 + 1) * y1)) x1 y1 x2
      else pt_line (quot (y2 - y1) (x2 - x1)) x1 y1 x2
  end.

(** [k]-fold sum *)
Fixpoint pt_mul (k : nat) (P : point) : point :=
  match k with O => None | S k' => pt_add P (pt_mul k' P) end.
Definition pt_mulz (k : Z) (P : point) : point :=
  match k with
  | Z0 => None
  | Zpos _ => pt_mul (Z.to_nat k) P
  | Zneg _ => pt_neg (pt_mul (Z.to_nat (Z.opp k)) P)
  end.
Definition pt_sum (l : list point) : point := fold_right pt_add None l.
End Spec.
