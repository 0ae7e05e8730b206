(** Reference definition of the Jacobi symbol, independent of the code.

    For an odd n > 0 and a coprime to n, the Gauss-Schering lemma says that the
    Jacobi symbol (a / n) is (-1)^e, where e is the number of k in 1 .. (n-1)/2 for
    which the residue of a * k modulo n exceeds n / 2.  This is taken as the
    definition; JacSymFacts.v derives the quadratic reciprocity law from it and
    shows that for a prime n it is the Legendre symbol. *)
From Verif Require Import Base.

(** 1, 2, ..., (n - 1) / 2 *)
Definition half_range (n : Z) : list Z :=
  map Z.of_nat (seq 1 (Z.to_nat ((n - 1) / 2))).

(** The residue of x is in the upper half. *)
Definition upper (n x : Z) : bool := n <? 2 * (x mod n).

Definition xor_all (l : list bool) : bool := fold_right xorb false l.

Definition gauss_parity (a n : Z) : bool :=
  xor_all (map (fun k => upper n (a * k)) (half_range n)).

Definition sgn_of (b : bool) : Z := if b then -1 else 1.

(** The Jacobi symbol (a / n) for odd n > 0. *)
Definition jacobi_symbol (a n : Z) : Z :=
  if Z.gcd a n =? 1 then sgn_of (gauss_parity a n) else 0.
