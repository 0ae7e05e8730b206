(** The [map_to_curve] closures of the hash-to-curve suites.  [inj] embeds the
    integers; [is_odd] and [qnr] ([ct_quadratic_non_residue]) are those of the base
    field. *)
From Verif Require Import Base Algebra Tower Word Field Params TowerParams Curve CurveParams Sqrt2 H2c H2cParams.

Section Suites.
Context {F : Type} (o : fops F) (inj : Z -> F).
Definition fq_sqrt (c : fconf) (x : F) : sq_out F := SqRet (fp_sqrt o inj c x).

Section Prime.
Context (is_odd qnr : F -> bool).
Definition sswu_suite (c : fconf) (s : sswu_consts Z) (iso : F -> F -> F -> proj F) (u : F) : h2c (proj F) :=
  sswu_closure o (fq_sqrt c) is_odd iso (inj (sw_a s)) (inj (sw_b s)) (inj (sw_z s)) u.
(** secp256k1/curve.rs:67-97 *)
Definition secp256k1_map : F -> h2c (proj F) :=
  sswu_suite secp256k1_fp secp256k1_sswu (iso_map_secp256k1 o (map (map inj) (sw_iso secp256k1_sswu))).
(** secp256r1/curve.rs:78-96 *)
Definition secp256r1_map : F -> h2c (proj F) :=
  sswu_suite secp256r1_fp secp256r1_sswu iso_map_secp256r1.
(** bls12381/g1.rs:94-122 *)
Definition bls_g1_map : F -> h2c (proj F) :=
  sswu_suite bls12381_fq bls_g1_sswu (iso_map_g1 o (map (map inj) (sw_iso bls_g1_sswu))).

Definition svdw_suite (c : fconf) (cf : cconf F) (u : F) : h2c (proj F) :=
  svdw_closure o (fq_sqrt c) is_odd qnr cf (inj (two_inv_int c)) (f1 o) u.
(** bn256/curve.rs:241-250 *)
Definition bn256_g1_map : F -> h2c (proj F) := svdw_suite bn256_fq (curve_of_bn256_g1 o inj bn256_g1_consts).
(** grumpkin/curve.rs:84-93 *)
Definition grumpkin_map : F -> h2c (proj F) := svdw_suite bn256_fr (curve_of o inj grumpkin_consts).
(** secq256k1/curve.rs:66-75 *)
Definition secq256k1_map : F -> h2c (proj F) := svdw_suite secp256k1_fq (curve_of o inj secq256k1_consts).
(** pluto_eris/curve.rs:150-160, 232-242 *)
Definition pluto_map : F -> h2c (proj F) := svdw_suite pluto_eris_fp (curve_of o inj pluto_consts).
Definition eris_map : F -> h2c (proj F) := svdw_suite pluto_eris_fq (curve_of o inj eris_consts).
End Prime.

Section Quad.
Context (is_odd qnr : quad F -> bool).
(** bls12381/g2.rs:228-285 *)
Definition bls_g2_map : quad F -> h2c (proj (quad F)) :=
  let s := bls_g2_sswu in
  let o2 := bls_fq2 o in
  sswu_closure o2 (fun x => SqRet (bls_fq2_sqrt o x)) is_odd (iso_map_g2 o2 (map (map (inj2 inj)) (sw_iso s)))
    (inj2 inj (sw_a s)) (inj2 inj (sw_b s)) (inj2 inj (sw_z s)).
(** bn256/curve.rs:253-262; [TWO_INV] of an extension: derive/field/tower.rs:121-124 *)
Definition bn256_g2_map : quad F -> h2c (proj (quad F)) :=
  let o2 := bn256_fq2 o in
  svdw_closure o2 (fun x => SqRet (bn256_fq2_sqrt o x)) is_odd qnr (curve_of o2 (inj2 inj) bn256_g2_consts)
    (inj2 inj (two_inv_int bn256_fq, 0)) (f1 o2).
End Quad.

(** derive/field/tower.rs:87-91 and ff_ext/mod.rs:10-13: [norm().legendre() == -1] *)
Definition quad_qnr (mnr : F -> F) (qnr : F -> bool) (x : quad F) : bool := qnr (quad_norm o mnr x).
End Suites.
