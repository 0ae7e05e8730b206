(** Model of the `CofactorGroup` implementations.  A `CtOption` is an option; the outer
    option of [into_subgroup] is [None] for a panic. *)
From Verif Require Import Base Word Field Params Algebra Tower TowerParams Curve CurveParams PairingParams.
Local Open Scope Z_scope.

(** ** Curves that declare no cofactor: bn256/curve.rs:148-162, grumpkin/curve.rs:68-82,
    secp256k1/curve.rs:19-33, secq256k1/curve.rs:50-64, secp256r1/curve.rs:14-28,
    pluto_eris/curve.rs:102-116, 133-147 *)
Section Trivial.
Context {F : Type}.
Definition plain_clear_cofactor (p : proj F) : proj F := p.
Definition plain_into_subgroup (p : proj F) : option (option (proj F)) := Some (Some p).
Definition plain_is_torsion_free (p : proj F) : bool := true.
End Trivial.

Section Curves.
Context {F : Type} (o : fops F) (c : cconf F).
Notation padd := (proj_add o c). Notation psub := (proj_sub o c). Notation pdbl := (proj_double o c). Notation pneg := (proj_neg o).

(** bls12381/g1.rs:83-92, g2.rs:148-157: the loop over the enumerated digits; [first] is i = 0 *)
Fixpoint mul_by_x_loop (self : proj F) (first : bool) (ds : list Z) (acc : proj F) : proj F :=
  match ds with
  | [] => acc
  | b :: ds' =>
    let acc := if first then acc else pdbl acc in
    let acc := if b =? 1 then padd acc self else acc in
    mul_by_x_loop self false ds' acc
  end.
Definition mul_by_x (self : proj F) : proj F := pneg (mul_by_x_loop self true bls_x (proj_identity o)).

(** *** bls12-381 G1: bls12381/g1.rs:46-60 *)
Definition bls_g1_clear_cofactor (p : proj F) : proj F := psub p (mul_by_x p).
Definition bls_g1_into_subgroup (p : proj F) : option (option (proj F)) := Some (Some p).
Definition bls_g1_is_torsion_free (zeta : F) (p : proj F) : bool :=
  proj_eq o (proj_endo o zeta (pneg (mul_by_x (mul_by_x p)))) p.

(** The map psi of the twists, with the conjugation [cj] and the two coefficients:
    bls12381/g2.rs:159-203, bn256/curve.rs:176-215 *)
Definition psi (cj : F -> F) (ux uy : F) (p : proj F) : proj F :=
  mk_proj (fmul o (cj (px p)) ux) (fmul o (cj (py p)) uy) (cj (pz p)).
(** bls12381/g2.rs:205-228 *)
Definition psi2 (ux : F) (p : proj F) : proj F := mk_proj (fmul o (px p) ux) (fneg o (py p)) (pz p).

(** *** bls12-381 G2: bls12381/g2.rs:107-144 *)
Section BlsG2.
Context (cj : F -> F) (ux uy u2 : F).
Definition bls_g2_clear_cofactor (p : proj F) : proj F :=
  let t1 := mul_by_x p in
  let t2 := psi cj ux uy p in
  psub (psub (psub (padd (psi2 u2 (pdbl p)) (mul_by_x (padd t1 t2))) t1) t2) p.
Definition bls_g2_into_subgroup (p : proj F) : option (option (proj F)) := Some (Some p).
Definition bls_g2_is_torsion_free (p : proj F) : bool := proj_eq o (psi cj ux uy p) (mul_by_x p).
End BlsG2.

(** *** bn256 G2: bn256/curve.rs:164-174 (without the println!), 217-239 *)
Definition exp_by_x (g2 : proj F) : proj F :=
  fold_left (fun acc i => let acc := pdbl acc in if Z.testbit bn_x i then padd acc g2 else acc)
    (rev (map Z.of_nat (seq 0 62))) g2.
Section BnG2.
Context (cj : F -> F) (ux uy : F).
Notation psi := (psi cj ux uy).
Definition bn_g2_clear_cofactor (p : proj F) : proj F :=
  let u0 := exp_by_x p in
  let u1 := psi (padd (pdbl u0) u0) in
  let u2 := psi (psi u0) in
  let u3 := psi (psi (psi p)) in
  padd (padd (padd u0 u1) u2) u3.
Definition bn_g2_into_subgroup (p : proj F) : option (option (proj F)) := None.
Definition bn_g2_is_torsion_free (p : proj F) : bool :=
  let u := exp_by_x p in
  let pu := psi u in
  let ppu := psi pu in
  let pppu := psi ppu in
  proj_is_identity o (psub (padd (padd (padd ppu pu) u) p) (pdbl pppu)).
End BnG2.

(** *** pluto G2 (triton): pluto_eris/curve.rs:178-231; the bytes are big-endian and the first
    bit is skipped *)
Definition bytes_mul (e : list Z) (p : proj F) : proj F :=
  fold_left (fun acc bit => let acc := pdbl acc in select acc (padd acc p) bit)
    (skipn 1 (flat_map byte_bits_be e)) (proj_identity o).
Definition triton_cofactor_bytes : list Z := [
  0x24; 0x00; 0x00; 0x00; 0x00; 0x00; 0x24; 0x00; 0x01; 0x30; 0xe0; 0x00; 0x0d; 0x7f;
  0x70; 0xe4; 0xa8; 0x03; 0xca; 0x76; 0xf4; 0x39; 0x26; 0x6f; 0x44; 0x3f; 0x9a; 0x5d;
  0x3a; 0x8a; 0x6c; 0x7b; 0xe4; 0xa7; 0xd5; 0xfe; 0x91; 0x44; 0x7f; 0xd6; 0xa8; 0xa7;
  0xe9; 0x28; 0xa0; 0x08; 0x67; 0x97; 0x1f; 0xff; 0xfc; 0xd3; 0x00; 0x00; 0x00; 0x01].
Definition triton_order_bytes : list Z := [
  0x24; 0x00; 0x00; 0x00; 0x00; 0x00; 0x24; 0x00; 0x01; 0x30; 0xe0; 0x00; 0x0d; 0x7f;
  0x70; 0xe4; 0xa8; 0x03; 0xca; 0x76; 0xf4; 0x39; 0x26; 0x6f; 0x44; 0x3f; 0x9a; 0x5c;
  0x7a; 0x8a; 0x6c; 0x7b; 0xe4; 0xa7; 0x75; 0xfe; 0x8e; 0x17; 0x7f; 0xd6; 0x9c; 0xa7;
  0xe8; 0x5d; 0x60; 0x05; 0x0a; 0xf4; 0x1f; 0xff; 0xfc; 0xd3; 0x00; 0x00; 0x00; 0x01].
Definition triton_clear_cofactor (p : proj F) : proj F := bytes_mul triton_cofactor_bytes p.
Definition triton_into_subgroup (p : proj F) : option (option (proj F)) := Some (Some (triton_clear_cofactor p)).
Definition triton_is_torsion_free (p : proj F) : bool := proj_is_identity o (bytes_mul triton_order_bytes p).
End Curves.

(** ** The coefficients *)
(** bls12381/g2.rs:161-186: psi_coeff_x, psi_coeff_y; 207-217: psi2_coeff_x *)
Definition bls_psi_src : list (lit * lit) :=
  [(Raw 0, Mont 0x14e56d3f1564853a14e4f04fe2db9068a20d1b8c7e88102450880866309b7e2c2af322533285a5d5890dc9e4867545c3);
   (Mont 0x0bd592fc7d825ec81d794e4fac7cf0b992ad2afd19103e18382844c88b6237324294213d86c181833e2f585da55c9ad1,
    Mont 0x0e2b7eedbbfd87d22da2596696cebc1dd1ca2087da74d4a72f088dd86b4ebef1dc17dec12a927e7c7bcfa7a25aa30fda);
   (Mont 0x18f020655463874103f97d6e83d050d28eb60ebe01bacb9e587042afd3851b955dab22461fcda5d2cd03c9e48671f071, Raw 0)].
Definition bls_psi_x : Z * Z :=
  (0, 0x1a0111ea397fe699ec02408663d4de85aa0d857d89759ad4897d29650fb85f9b409427eb4f49fffd8bfd00000000aaad).
Definition bls_psi_y : Z * Z :=
  (0x135203e60180a68ee2e9c448d77a2cd91c3dedd930b1cf60ef396489f61eb45e304466cf3e67fa0af1ee7b04121bdea2,
   0x6af0e0437ff400b6831e36d6bd17ffe48395dabc2d3435e77f76e17009241c5ee67992f72ec05f4c81084fbede3cc09).
Definition bls_psi2_x : Z * Z :=
  (0x1a0111ea397fe699ec02408663d4de85aa0d857d89759ad4897d29650fb85f9b409427eb4f49fffd8bfd00000000aaac, 0).
(** bn256/curve.rs:177-205 *)
Definition bn256_psi_src : list (lit * lit) :=
  [(Raw 0x2fb347984f7911f74c0bec3cf559b143b78cc310c2c3330c99e39557176f553d,
    Raw 0x16c9e55061ebae204ba4cc8bd75a079432ae2a1d0b7c9dce1665d51c640fcba2);
   (Raw 0x063cf305489af5dcdc5ec698b6e2f9b9dbaae0eda9c95998dc54014671a0135a,
    Raw 0x07c03cbcac41049a0704b5a7ec796f2b21807dc98fa25bd282d37f632623b0e3)].
Definition bn256_psi_x : Z * Z :=
  (0x2fb347984f7911f74c0bec3cf559b143b78cc310c2c3330c99e39557176f553d,
   0x16c9e55061ebae204ba4cc8bd75a079432ae2a1d0b7c9dce1665d51c640fcba2).
Definition bn256_psi_y : Z * Z :=
  (0x063cf305489af5dcdc5ec698b6e2f9b9dbaae0eda9c95998dc54014671a0135a,
   0x07c03cbcac41049a0704b5a7ec796f2b21807dc98fa25bd282d37f632623b0e3).
