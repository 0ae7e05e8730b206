(** Specification of extension-field arithmetic, independent of the model:
    multiplication of coefficient lists modulo X^n - beta. *)
From Verif Require Import Base Algebra.

Section Spec.
Context {F : Type} (o : fops F).

Definition fsum (l : list F) : F := fold_right (fadd o) (f0 o) l.

(** Coefficient [k] of the product of polynomials [a] and [b] (lists of
    coefficients, constant term first). *)
Definition poly_coeff (a b : list F) (k : nat) : F :=
  fsum (map (fun i => fmul o (nth i a (f0 o)) (nth (k - i) b (f0 o))) (seq 0 (S k))).

(** Product in [F[X]/(X^n - beta)]: the coefficient at [X^(k+n)] is folded back
    with the factor [beta]. *)
Definition quotient_mul (n : nat) (beta : F) (a b : list F) : list F :=
  map (fun k => fadd o (poly_coeff a b k) (fmul o beta (poly_coeff a b (k + n)))) (seq 0 n).
End Spec.
