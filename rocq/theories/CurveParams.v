(** Curve constants (generated from the Rust literals; see TowerParams.v for the
    two kinds of literals).  CurveInst.v checks the values against [*_src]. *)
From Verif Require Import Base Algebra Word Field Params Tower TowerParams Curve.

(** Arguments of [new_curve_impl!]: base and scalar field, [constant_a],
    [constant_b] and the generator. *)
Record curve_consts (K : Type) := {
  cc_base : fconf; cc_scalar : fconf; cc_a : K; cc_b : K; cc_gx : K; cc_gy : K }.
Arguments cc_base {K}. Arguments cc_scalar {K}. Arguments cc_a {K}. Arguments cc_b {K}.
Arguments cc_gx {K}. Arguments cc_gy {K}.

(** src/bn256/curve.rs: G1_A (line 79), G1_B (line 80), G1_GENERATOR_X (line 77), G1_GENERATOR_Y (line 78) *)
Definition bn256_g1_src : list (lit * lit) := [
  (Raw 0x0, Raw 0x0);
  (Raw 0x3, Raw 0x0);
  (Raw 0x1, Raw 0x0);
  (Raw 0x2, Raw 0x0)].
Definition bn256_g1_consts : curve_consts Z := {|
  cc_base := bn256_fq; cc_scalar := bn256_fr;
  cc_a := 0x0;
  cc_b := 0x3;
  cc_gx := 0x1;
  cc_gy := 0x2 |}.

(** src/grumpkin/curve.rs: G1_A (line 47), G1_B (line 48), G1_GENERATOR_X (line 40), G1_GENERATOR_Y (line 41) *)
Definition grumpkin_src : list (lit * lit) := [
  (Raw 0x0, Raw 0x0);
  (Mont 0x34394632b724eaacc388229877910c0223fa97acb319311dd7056026000005a, Raw 0x0);
  (Raw 0x1, Raw 0x0);
  (Mont 0x14b34cf69dc25d68aa7b8cf435dfafbb23d3446f21c77dc311b2dff1448c41d8, Raw 0x0)].
Definition grumpkin_consts : curve_consts Z := {|
  cc_base := bn256_fr; cc_scalar := bn256_fq;
  cc_a := 0x0;
  cc_b := 0x30644e72e131a029b85045b68181585d2833e84879b9709143e1f593effffff0;
  cc_gx := 0x1;
  cc_gy := 0x2cf135e7506a45d632d270d45f1181294833fc48d823f272c |}.

(** src/bls12381/g1.rs: A (line 80), B (line 81), GENERATOR_X (line 62), GENERATOR_Y (line 71) *)
Definition bls_g1_src : list (lit * lit) := [
  (Raw 0x0, Raw 0x0);
  (Raw 0x4, Raw 0x0);
  (Mont 0x120177419e0bfb75edce6ecc21dbf440f0ae6acdf3d0e747154f95c7143ba1c17817fc679976fff55cb38790fd530c16, Raw 0x0);
  (Mont 0xbbc3efc5008a26a0e1c8c3fad0059c051ac582950405194dd595f13570725ce8c22631a7918fd8ebaac93d50ce72271, Raw 0x0)].
Definition bls_g1_consts : curve_consts Z := {|
  cc_base := bls12381_fq; cc_scalar := bls12381_fr;
  cc_a := 0x0;
  cc_b := 0x4;
  cc_gx := 0x17f1d3a73197d7942695638c4fa9ac0fc3688c4f9774b905a14e3a3f171bac586c55e83ff97a1aeffb3af00adb22c6bb;
  cc_gy := 0x8b3f481e3aaa0f1a09e30ed741d8ae4fcf5e095d5d00af600db18cb2c04b3edd03cc744a2888ae40caa232946c5e7e1 |}.

(** src/secp256k1/curve.rs: SECP_A (line 49), SECP_B (line 50), SECP_GENERATOR_X (line 36), SECP_GENERATOR_Y (line 42) *)
Definition secp256k1_src : list (lit * lit) := [
  (Raw 0x0, Raw 0x0);
  (Raw 0x7, Raw 0x0);
  (Raw 0x79be667ef9dcbbac55a06295ce870b07029bfcdb2dce28d959f2815b16f81798, Raw 0x0);
  (Raw 0x483ada7726a3c4655da4fbfc0e1108a8fd17b448a68554199c47d08ffb10d4b8, Raw 0x0)].
Definition secp256k1_consts : curve_consts Z := {|
  cc_base := secp256k1_fp; cc_scalar := secp256k1_fq;
  cc_a := 0x0;
  cc_b := 0x7;
  cc_gx := 0x79be667ef9dcbbac55a06295ce870b07029bfcdb2dce28d959f2815b16f81798;
  cc_gy := 0x483ada7726a3c4655da4fbfc0e1108a8fd17b448a68554199c47d08ffb10d4b8 |}.

(** src/secq256k1/curve.rs: SECQ_A (line 32), SECQ_B (line 33), SECQ_GENERATOR_X (line 18), SECQ_GENERATOR_Y (line 25) *)
Definition secq256k1_src : list (lit * lit) := [
  (Raw 0x0, Raw 0x0);
  (Raw 0x7, Raw 0x0);
  (Raw 0x76c39f5585cb160eb6b06c87a2ce32e23134e45a097781a6a24288e37702eda6, Raw 0x0);
  (Raw 0x3ffc646c7b2918b5dc2d265a8e82a7f7d18983d26e8dc055a4120ddad952677f, Raw 0x0)].
Definition secq256k1_consts : curve_consts Z := {|
  cc_base := secp256k1_fq; cc_scalar := secp256k1_fp;
  cc_a := 0x0;
  cc_b := 0x7;
  cc_gx := 0x76c39f5585cb160eb6b06c87a2ce32e23134e45a097781a6a24288e37702eda6;
  cc_gy := 0x3ffc646c7b2918b5dc2d265a8e82a7f7d18983d26e8dc055a4120ddad952677f |}.

(** src/secp256r1/curve.rs: SECP_A (line 45), SECP_B (line 51), SECP_GENERATOR_X (line 31), SECP_GENERATOR_Y (line 38) *)
Definition secp256r1_src : list (lit * lit) := [
  (Raw 0xffffffff00000001000000000000000000000000fffffffffffffffffffffffc, Raw 0x0);
  (Raw 0x5ac635d8aa3a93e7b3ebbd55769886bc651d06b0cc53b0f63bce3c3e27d2604b, Raw 0x0);
  (Raw 0x6b17d1f2e12c4247f8bce6e563a440f277037d812deb33a0f4a13945d898c296, Raw 0x0);
  (Raw 0x4fe342e2fe1a7f9b8ee7eb4a7c0f9e162bce33576b315ececbb6406837bf51f5, Raw 0x0)].
Definition secp256r1_consts : curve_consts Z := {|
  cc_base := secp256r1_fp; cc_scalar := secp256r1_fq;
  cc_a := 0xffffffff00000001000000000000000000000000fffffffffffffffffffffffc;
  cc_b := 0x5ac635d8aa3a93e7b3ebbd55769886bc651d06b0cc53b0f63bce3c3e27d2604b;
  cc_gx := 0x6b17d1f2e12c4247f8bce6e563a440f277037d812deb33a0f4a13945d898c296;
  cc_gy := 0x4fe342e2fe1a7f9b8ee7eb4a7c0f9e162bce33576b315ececbb6406837bf51f5 |}.

(** src/pluto_eris/curve.rs: PLUTO_A (line 30), PLUTO_B (line 31), G1_GENERATOR_X (line 19), G1_GENERATOR_Y (line 28) *)
Definition pluto_src : list (lit * lit) := [
  (Raw 0x0, Raw 0x0);
  (Raw 0x39, Raw 0x0);
  (Raw 0x24000000000024000130e0000d7f70e4a803ca76f439266f443f9a5cda8a6c7be4a7a5fe8fadffd6a2a7e8c30006b9459ffffcd2ffffffff, Raw 0x0);
  (Raw 0x7, Raw 0x0)].
Definition pluto_consts : curve_consts Z := {|
  cc_base := pluto_eris_fp; cc_scalar := pluto_eris_fq;
  cc_a := 0x0;
  cc_b := 0x39;
  cc_gx := 0x24000000000024000130e0000d7f70e4a803ca76f439266f443f9a5cda8a6c7be4a7a5fe8fadffd6a2a7e8c30006b9459ffffcd2ffffffff;
  cc_gy := 0x7 |}.

(** src/pluto_eris/curve.rs: ERIS_A (line 44), ERIS_B (line 45), ERIS_GENERATOR_X (line 33), ERIS_GENERATOR_Y (line 42) *)
Definition eris_src : list (lit * lit) := [
  (Raw 0x0, Raw 0x0);
  (Raw 0x39, Raw 0x0);
  (Raw 0x24000000000024000130e0000d7f70e4a803ca76f439266f443f9a5c7a8a6c7be4a775fe8e177fd69ca7e85d60050af41ffffcd2ffffffff, Raw 0x0);
  (Raw 0x7, Raw 0x0)].
Definition eris_consts : curve_consts Z := {|
  cc_base := pluto_eris_fq; cc_scalar := pluto_eris_fp;
  cc_a := 0x0;
  cc_b := 0x39;
  cc_gx := 0x24000000000024000130e0000d7f70e4a803ca76f439266f443f9a5c7a8a6c7be4a775fe8e177fd69ca7e85d60050af41ffffcd2ffffffff;
  cc_gy := 0x7 |}.

(** src/bn256/curve.rs: G2_A (line 82), G2_B (line 87), G2_GENERATOR_X (line 102), G2_GENERATOR_Y (line 117) *)
Definition bn256_g2_src : list (lit * lit) := [
  (Raw 0x0, Raw 0x0);
  (Raw 0x2b149d40ceb8aaae81be18991be06ac3b5b4c5e559dbefa33267e6dc24a138e5, Raw 0x9713b03af0fed4cd2cafadeed8fdf4a74fa084e52d1852e4a2bd0685c315d2);
  (Raw 0x1800deef121f1e76426a00665e5c4479674322d4f75edadd46debd5cd992f6ed, Raw 0x198e9393920d483a7260bfb731fb5d25f1aa493335a9e71297e485b7aef312c2);
  (Raw 0x12c85ea5db8c6deb4aab71808dcb408fe3d1e7690c43d37b4ce6cc0166fa7daa, Raw 0x90689d0585ff075ec9e99ad690c3395bc4b313370b38ef355acdadcd122975b)].
Definition bn256_g2_consts : curve_consts (Z * Z) := {|
  cc_base := bn256_fq; cc_scalar := bn256_fr;
  cc_a := (0x0, 0x0);
  cc_b := (0x2b149d40ceb8aaae81be18991be06ac3b5b4c5e559dbefa33267e6dc24a138e5, 0x9713b03af0fed4cd2cafadeed8fdf4a74fa084e52d1852e4a2bd0685c315d2);
  cc_gx := (0x1800deef121f1e76426a00665e5c4479674322d4f75edadd46debd5cd992f6ed, 0x198e9393920d483a7260bfb731fb5d25f1aa493335a9e71297e485b7aef312c2);
  cc_gy := (0x12c85ea5db8c6deb4aab71808dcb408fe3d1e7690c43d37b4ce6cc0166fa7daa, 0x90689d0585ff075ec9e99ad690c3395bc4b313370b38ef355acdadcd122975b) |}.

(** src/bls12381/g2.rs: G2_A (line 65), G2_B (line 60), G2_GENERATOR_X (line 22), G2_GENERATOR_Y (line 41) *)
Definition bls_g2_src : list (lit * lit) := [
  (Raw 0x0, Raw 0x0);
  (Raw 0x4, Raw 0x4);
  (Mont 0x58191924350bcd76f67b7631863366b9894999d1a3caee9a1a893b53e2ae580b3f5fb2687b4961af5f28fa202940a10, Mont 0x11922a097360edf3c2b6ed0ef21585471b1ab6cc8541b3673bb17e18e2867806aaa0c59dbccd60c3a5a9c0759e23f606);
  (Mont 0x83fd8e7e80dae507d3a975f0ef25a2bbefb5e96e0d495fe7e6856caa0a635a597cfa1f5e369c5a4c730af860494c4a, Mont 0xb2bc2a163de1bf2e7175850a43ccaed79495c4ec93da33a86adac6a3be4eba018aa270a2b1461dcadc0fc92df64b05d)].
Definition bls_g2_consts : curve_consts (Z * Z) := {|
  cc_base := bls12381_fq; cc_scalar := bls12381_fr;
  cc_a := (0x0, 0x0);
  cc_b := (0x4, 0x4);
  cc_gx := (0x24aa2b2f08f0a91260805272dc51051c6e47ad4fa403b02b4510b647ae3d1770bac0326a805bbefd48056c8c121bdb8, 0x13e02b6052719f607dacd3a088274f65596bd0d09920b61ab5da61bbdc7f5049334cf11213945d57e5ac7d055d042b7e);
  cc_gy := (0xce5d527727d6e118cc9cdc6da2e351aadfd9baa8cbdd3a76d429a695160d12c923ac9cc3baca289e193548608b82801, 0x606c4a02ea734cc32acd2b02bc28b99cb3e287e85a763af267492ab572e99ab3f370d275cec1da1aaa9075ff05f79be) |}.

(** src/pluto_eris/curve.rs: TRITON_A (line 94), TRITON_B (line 97), G2_GENERATOR_X (line 47), G2_GENERATOR_Y (line 70) *)
Definition triton_src : list (lit * lit) := [
  (Raw 0x0, Raw 0x0);
  (Raw 0x3, Raw 0x1);
  (Raw 0x13576c81faf3a13fd815d0e9bd54b845ee935948b84498b27ca972bfb93722e223c9e276a4ebe7559cfc86dd865f07d64f2b5fe6556f9066, Raw 0x142164cb875db0465e5092f9380f44f555243d011699b7393029f2d201554727aeb383298fdf5847b9b3dff01bbe8d63fe7c781a8fd7bf21);
  (Raw 0x2239f7408ead478c58e88d4df1e7418c42fdbb92e64ba85aa4dc17d7dace3f32eb471c004db774bfe78574aca67b3898cd1b78ad106ab9fe, Raw 0x1260b04d51136590dbb53dfd7caf450aeca714555bbe4f079ca65d97eb28fc9fc697b4e10bbcd9e0539ef82a731fb88ed49e3c080e6d945d)].
Definition triton_consts : curve_consts (Z * Z) := {|
  cc_base := pluto_eris_fp; cc_scalar := pluto_eris_fq;
  cc_a := (0x0, 0x0);
  cc_b := (0x3, 0x1);
  cc_gx := (0x13576c81faf3a13fd815d0e9bd54b845ee935948b84498b27ca972bfb93722e223c9e276a4ebe7559cfc86dd865f07d64f2b5fe6556f9066, 0x142164cb875db0465e5092f9380f44f555243d011699b7393029f2d201554727aeb383298fdf5847b9b3dff01bbe8d63fe7c781a8fd7bf21);
  cc_gy := (0x2239f7408ead478c58e88d4df1e7418c42fdbb92e64ba85aa4dc17d7dace3f32eb471c004db774bfe78574aca67b3898cd1b78ad106ab9fe, 0x1260b04d51136590dbb53dfd7caf450aeca714555bbe4f079ca65d97eb28fc9fc697b4e10bbcd9e0539ef82a731fb88ed49e3c080e6d945d) |}.

Definition prime_curves : list (curve_consts Z) :=
  [bn256_g1_consts; grumpkin_consts; bls_g1_consts; secp256k1_consts; secq256k1_consts;
   secp256r1_consts; pluto_consts; eris_consts].

(** The curves over a base field [o]; [emb] maps constants to field elements. *)
Section Instances.
Context {F : Type} (o : fops F) {K : Type} (emb : K -> F).
(** [mul_by_3b] (curve.rs:286-292) is specialised for bn256 G1. *)
Definition curve_of (cc : curve_consts K) : cconf F :=
  {| ca := emb (cc_a cc); cb := emb (cc_b cc); mul3b := mul3b_const o (emb (cc_b cc)) |}.
Definition curve_of_bn256_g1 (cc : curve_consts K) : cconf F :=
  {| ca := emb (cc_a cc); cb := emb (cc_b cc); mul3b := mul3b_bn256_g1 o |}.
(** curve.rs:269-276, 295-301 *)
Definition gen_aff (cc : curve_consts K) : aff F := mk_aff (emb (cc_gx cc)) (emb (cc_gy cc)).
Definition gen_proj (cc : curve_consts K) : proj F := mk_proj (emb (cc_gx cc)) (emb (cc_gy cc)) (f1 o).
End Instances.
