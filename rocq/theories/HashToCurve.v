(** Model of the [hash_to_curve] functions of the ten curves that implement it: [Suite::new],
    [hash_to_field], the maps, the addition and the cofactor clearing put together.  Pluto's
    G2 (pluto_eris/curve.rs:267) is [unimplemented!()].  The functions are written over any base
    field; [is_odd], [qnr] and [fu] ([from_uniform_bytes]) are those of that field, and the
    section [Limbs] supplies the generated ones. *)
From Coq Require Import String Ascii.
From Verif Require Import Base Algebra Tower Word Bytes Field Params TowerParams Curve CurveParams Sqrt2 H2c H2cParams H2cSuites
  Hash Cofactor FieldFacts LimbField Serde Jacobi.
Local Open Scope Z_scope.

(** A byte string literal [b"..."], and [domain_prefix.as_bytes()]. *)
Definition ascii_bytes (s : string) : list Z := map (fun a => Z.of_N (N_of_ascii a)) (list_ascii_of_string s).

Section Suite.
Context {E : Type} (o : fops E) (c : cconf E) (map_to_curve : E -> h2c (proj E)) (clear : proj E -> proj E).
(** hash_to_curve.rs:99-152.  [num_bits] is [C::Base::NUM_BITS] of the [assert!] in [Suite::new];
    [clear] is applied by the caller (bn256/curve.rs:69-75, bls12381/g1.rs:166-171, g2.rs:323-328). *)
Definition hash_with_suite (num_bits : Z) (L : nat) (fu : list Z -> E) (D : digest) (domain prefix msg : list Z) : h2c (proj E) :=
  if (num_bits + 128) / 8 <=? Z.of_nat L then
    h_bind (suite_hash_to_curve o c map_to_curve (hash_to_field D prefix domain fu L msg)) (fun q => HRet (clear q))
  else HPanic.
End Suite.

Section Curves.
Context {F : Type} (o : fops F) (inj : Z -> F).
Section Prime.
Context (is_odd qnr : F -> bool) (fu : list Z -> F) (D : digest) (prefix msg : list Z).
Definition plain_suite (fc : fconf) (c : cconf F) (m : F -> h2c (proj F)) (L : nat) (domain : string) : h2c (proj F) :=
  hash_with_suite o c m (fun q => q) (num_bits fc) L fu D (ascii_bytes domain) prefix msg.
(** secp256k1/curve.rs:62, 67-105 *)
Definition secp256k1_hash : h2c (proj F) :=
  plain_suite secp256k1_fp (curve_of o inj secp256k1_consts) (secp256k1_map o inj is_odd) 48 "secp256k1_XMD:SHA-256_SSWU_RO_".
(** secp256r1/curve.rs:73, 78-104 *)
Definition secp256r1_hash : h2c (proj F) :=
  plain_suite secp256r1_fp (curve_of o inj secp256r1_consts) (secp256r1_map o inj is_odd) 48 "P256_XMD:SHA-256_SSWU_RO_".
(** bn256/curve.rs:48, 241-250 *)
Definition bn256_g1_hash : h2c (proj F) :=
  plain_suite bn256_fq (curve_of_bn256_g1 o inj bn256_g1_consts) (bn256_g1_map o inj is_odd qnr) 48 "BN254G1_XMD:SHA-256_SVDW_RO_".
(** grumpkin/curve.rs:33, 84-94 *)
Definition grumpkin_hash : h2c (proj F) :=
  plain_suite bn256_fr (curve_of o inj grumpkin_consts) (grumpkin_map o inj is_odd qnr) 48 "GRUMPKIN_XMD:SHA-256_SVDW_RO_".
(** secq256k1/curve.rs:45, 66-76 *)
Definition secq256k1_hash : h2c (proj F) :=
  plain_suite secp256k1_fq (curve_of o inj secq256k1_consts) (secq256k1_map o inj is_odd qnr) 48 "secq256k1_XMD:SHA-256_SVDW_RO_".
(** pluto_eris/curve.rs:128, 150-161 and 173, 232-243 *)
Definition pluto_hash : h2c (proj F) :=
  plain_suite pluto_eris_fp (curve_of o inj pluto_consts) (pluto_map o inj is_odd qnr) 72 "pluto_XMD:SHA-256_SVDW_RO_".
Definition eris_hash : h2c (proj F) :=
  plain_suite pluto_eris_fq (curve_of o inj eris_consts) (eris_map o inj is_odd qnr) 72 "eris_XMD:SHA-256_SVDW_RO_".
(** bls12381/g1.rs:29, 94-122, 166-171 *)
Definition bls_g1_hash : h2c (proj F) :=
  let c := curve_of o inj bls_g1_consts in
  hash_with_suite o c (bls_g1_map o inj is_odd) (bls_g1_clear_cofactor o c) (num_bits bls12381_fq) 64 fu D
    (ascii_bytes "BLS12381G1_XMD:SHA-256_SSWU_RO_") prefix msg.
End Prime.
Section Quad.
Context (is_odd qnr : quad F -> bool) (fu : list Z -> quad F) (D : digest) (prefix msg : list Z).
(** bls12381/g2.rs:77, 228-285, 323-328 *)
Definition bls_g2_hash : h2c (proj (quad F)) :=
  let o2 := bls_fq2 o in let c := curve_of o2 (inj2 inj) bls_g2_consts in
  hash_with_suite o2 c (bls_g2_map o inj is_odd)
    (bls_g2_clear_cofactor o2 c (quad_conjugate o) (inj2 inj bls_psi_x) (inj2 inj bls_psi_y) (inj2 inj bls_psi2_x))
    (num_bits bls12381_fq) 128 fu D (ascii_bytes "BLS12381G2_XMD:SHA-256_SSWU_RO_") prefix msg.
(** bn256/curve.rs:63, 69-75, 253-262 *)
Definition bn256_g2_hash : h2c (proj (quad F)) :=
  let o2 := bn256_fq2 o in let c := curve_of o2 (inj2 inj) bn256_g2_consts in
  hash_with_suite o2 c (bn256_g2_map o inj is_odd qnr)
    (bn_g2_clear_cofactor o2 c (quad_conjugate o) (inj2 inj bn256_psi_x) (inj2 inj bn256_psi_y))
    (num_bits bn256_fq) 96 fu D (ascii_bytes "BN254G2_XMD:SHA-256_SVDW_RO_") prefix msg.
End Quad.
End Curves.

(** ** Over the generated limb fields *)
Section Limbs.
Context (fc : fconf) (Hc : odd_conf fc).
(** derive/src/field/mod.rs:478-480, 562-595, and the [Legendre] of the field *)
Definition lf_odd (x : lf fc) : bool := is_odd fc (limbs x).
Definition lf_fu (b : list Z) : lf fc := lf_of (lf0 fc Hc) (from_uniform_bytes fc b).
Definition lf_nonres (x : lf fc) : bool := fe_qnr fc (limbs x).
(** derive/field/tower.rs:147-149 *)
Definition t2_odd (x : quad (lf fc)) : bool := Z.land (hd 0 (t2_to_repr (fp_codec fc Hc) x)) 1 =? 1.
Definition t2_nonres (x : quad (lf fc)) : bool := let o := lf_ops fc Hc in quad_qnr o (mnr_neg o) lf_nonres x.
End Limbs.
