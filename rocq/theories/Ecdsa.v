(** The ECDSA example of the test suite (src/tests/curve.rs:462-519), run there on
    secp256k1 and secp256r1.  It is the crate's own account of how field and curve
    functions are meant to be combined.  Scalars are Montgomery limbs; the random values are arguments;
    [None] is the panic of an [unwrap]. *)
From Verif Require Import Base Algebra Word Limbs Bytes Field Inverse Curve.

(** derive/curve.rs:825-827 [coordinates]: pasta_curves' [Coordinates::from_xy], which
    keeps [x] and [y] if [C::from_xy] accepts them. *)
Definition coordinates {F} (o : fops F) (c : cconf F) (p : aff F) : option (F * F) :=
  match from_xy o c (ax p) (ay p) with Some _ => Some (ax p, ay p) | None => None end.
(** derive/curve.rs:269-276 *)
Definition proj_generator {F} (o : fops F) (g : aff F) : proj F := mk_proj (ax g) (ay g) (f1 o).
(** [invert().unwrap()] *)
Definition inv_unwrap (sc : fconf) (a : list Z) : option (list Z) :=
  match fe_invert sc a with Done (Some i) => Some i | _ => None end.

Section Ecdsa.
Context {F : Type} (o : fops F) (c : cconf F) (g : aff F) (sc : fconf).
(** [to_repr] of the base field *)
Context (base_repr : F -> list Z).

(** curve.rs:468-474 *)
Definition mod_n (x : F) : list Z := from_uniform_bytes sc (base_repr x ++ repeat 0 32).
(** curve.rs:480-481 *)
Definition ecdsa_pk (sk : list Z) : aff F := to_affine o (proj_mul o c (proj_generator o g) (to_repr sc sk)).
(** curve.rs:487-501 *)
Definition ecdsa_sign (sk msg_hash k : list Z) : option (list Z * list Z) :=
  match inv_unwrap sc k with
  | None => None
  | Some k_inv =>
      match coordinates o c (to_affine o (proj_mul o c (proj_generator o g) (to_repr sc k))) with
      | None => None
      | Some (x, _) =>
          let r := mod_n x in
          Some (r, fe_mul sc k_inv (fe_add sc msg_hash (fe_mul sc r sk)))
      end
  end.
(** curve.rs:503-516 *)
Definition ecdsa_verify (pk : aff F) (msg_hash r s : list Z) : option bool :=
  match inv_unwrap sc s with
  | None => None
  | Some s_inv =>
      let u_1 := fe_mul sc msg_hash s_inv in
      let u_2 := fe_mul sc r s_inv in
      let v_1 := proj_mul o c (proj_generator o g) (to_repr sc u_1) in
      let v_2 := aff_mul o c pk (to_repr sc u_2) in
      match coordinates o c (to_affine o (proj_add o c v_1 v_2)) with
      | None => None
      | Some (x, _) => Some (fe_eqb r (mod_n x))
      end
  end.
End Ecdsa.
