(** Model of the text forms: [Debug] of field elements, extensions, points and target groups, and
    the string [PrimeField::MODULUS].  A text is the list of its character codes.

    [write!] with [{:02x}], the derived [Debug] (one line, [{:?}]) and [BigUint::to_str_radix] are
    from the standard library and num-bigint and are written from their documentation. *)
From Coq Require Import String.
From Verif Require Import Base Algebra Tower Word Bytes Field Curve HashToCurve SerdeText.
Local Open Scope Z_scope.

(** derive/src/field/mod.rs:219-229 [fmt] of a prime field *)
Definition fe_debug (c : fconf) (a : list Z) : list Z := ascii_bytes "0x" ++ hex_encode (rev (to_repr c a)).

(** num-bigint: [to_str_radix(16)], lower case, without leading zeros.  The fuel is the number of
    binary digits. *)
Fixpoint hex_digits (fuel : nat) (n : Z) (acc : list Z) : list Z :=
  match fuel with
  | O => acc
  | S f => if n =? 0 then acc else hex_digits f (n / 16) (hex_char (n mod 16) :: acc)
  end.
Definition to_hex (n : Z) : list Z := if n =? 0 then [48] else hex_digits (Z.to_nat (Z.log2 n + 1)) n [].
(** derive/src/field/mod.rs:109, 448 [MODULUS] (and src/derive/field/tower.rs:96 for the extensions) *)
Definition modulus_str (c : fconf) : list Z := ascii_bytes "0x" ++ to_hex (modulus c).

(** [derive(Debug)] of a struct with named fields *)
Fixpoint debug_fields (l : list (string * list Z)) : list Z :=
  match l with
  | [] => []
  | [(n, v)] => ascii_bytes n ++ ascii_bytes ": " ++ v
  | (n, v) :: l => ascii_bytes n ++ ascii_bytes ": " ++ v ++ ascii_bytes ", " ++ debug_fields l
  end.
Definition debug_struct (name : string) (l : list (string * list Z)) : list Z :=
  ascii_bytes name ++ ascii_bytes " { " ++ debug_fields l ++ ascii_bytes " }".

Section Show.
Context {F : Type} (o : fops F) (show : F -> list Z).
(** ff_ext/quadratic.rs:171-176 *)
Definition quad_debug (a : quad F) : list Z := debug_struct "QuadExtField" [("c0", show (q0 a)); ("c1", show (q1 a))]%string.
(** ff_ext/cubic.rs:3-8 *)
Definition cubic_debug (a : cubic F) : list Z :=
  debug_struct "CubicExtField" [("c0", show (k0 a)); ("c1", show (k1 a)); ("c2", show (k2 a))]%string.
(** src/derive/curve.rs:669-677 *)
Definition aff_debug (P : aff F) : list Z :=
  if aff_is_identity o P then ascii_bytes "Infinity"
  else ascii_bytes "(" ++ show (ax P) ++ ascii_bytes ", " ++ show (ay P) ++ ascii_bytes ")".
(** src/derive/curve.rs:250-255 *)
Definition proj_debug (name : string) (P : proj F) : list Z :=
  debug_struct name [("x", show (px P)); ("y", show (py P)); ("z", show (pz P))]%string.
(** src/derive/pairing.rs:128-129 *)
Definition gt_debug (name : string) (a : F) : list Z := ascii_bytes name ++ ascii_bytes "(" ++ show a ++ ascii_bytes ")".
End Show.
