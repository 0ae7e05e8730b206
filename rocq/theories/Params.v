(** The ten [impl_field!] invocations of the crate. *)
From Verif Require Import Base Word Limbs Bytes Field.

(** src/bn256/fq.rs:7-15 (bn256 Fq) *)
Definition bn256_fq : fconf := {|
  modulus := 0x30644e72e131a029b85045b68181585d97816a916871ca8d3c208c16d87cfd47;
  mul_gen := 0x3;
  zeta := 0x30644e72e131a0295e6dd9e7e0acccb0c28f069fbb966e3de4bd44e5607cfd48;
  big_endian := false |}.

(** src/bn256/fr.rs:6-14 (bn256 Fr) *)
Definition bn256_fr : fconf := {|
  modulus := 0x30644e72e131a029b85045b68181585d2833e84879b9709143e1f593f0000001;
  mul_gen := 0x7;
  zeta := 0x30644e72e131a029048b6e193fd84104cc37a73fec2bc5e9b8ca0b2d36636f23;
  big_endian := false |}.

(** src/bls12381/fq.rs:6-14 (bls12381 Fq) *)
Definition bls12381_fq : fconf := {|
  modulus := 0x1a0111ea397fe69a4b1ba7b6434bacd764774b84f38512bf6730d2a0f6b0f6241eabfffeb153ffffb9feffffffffaaab;
  mul_gen := 0x2;
  zeta := 0x1a0111ea397fe699ec02408663d4de85aa0d857d89759ad4897d29650fb85f9b409427eb4f49fffd8bfd00000000aaac;
  big_endian := true |}.

(** src/bls12381/fr.rs:6-14 (bls12381 Fr) *)
Definition bls12381_fr : fconf := {|
  modulus := 0x73eda753299d7d483339d80809a1d80553bda402fffe5bfeffffffff00000001;
  mul_gen := 0x7;
  zeta := 0xac45a4010001a40200000000ffffffff;
  big_endian := false |}.

(** src/secp256k1/fp.rs:6-14 (secp256k1 Fp) *)
Definition secp256k1_fp : fconf := {|
  modulus := 0xfffffffffffffffffffffffffffffffffffffffffffffffffffffffefffffc2f;
  mul_gen := 0x3;
  zeta := 0x7ae96a2b657c07106e64479eac3434e99cf0497512f58995c1396c28719501ee;
  big_endian := false |}.

(** src/secp256k1/fq.rs:6-14 (secp256k1 Fq) *)
Definition secp256k1_fq : fconf := {|
  modulus := 0xfffffffffffffffffffffffffffffffebaaedce6af48a03bbfd25e8cd0364141;
  mul_gen := 0x7;
  zeta := 0x5363ad4cc05c30e0a5261c028812645a122e22ea20816678df02967c1b23bd72;
  big_endian := false |}.

(** src/secp256r1/fp.rs:6-14 (secp256r1 Fp) *)
Definition secp256r1_fp : fconf := {|
  modulus := 0xffffffff00000001000000000000000000000000ffffffffffffffffffffffff;
  mul_gen := 0x6;
  zeta := 0x4d6ea8928adb86cf62388a8e0ef623312e68c59bdef3e53fd964598eb819acce;
  big_endian := false |}.

(** src/secp256r1/fq.rs:6-14 (secp256r1 Fq) *)
Definition secp256r1_fq : fconf := {|
  modulus := 0xffffffff00000000ffffffffffffffffbce6faada7179e84f3b9cac2fc632551;
  mul_gen := 0x7;
  zeta := 0x52891d43d946a0354e786d0777fd6aef9405335ce9c83e1d7cbf87ff12884e21;
  big_endian := false |}.

(** src/pluto_eris/fp.rs:7-15 (pluto_eris Fp) *)
Definition pluto_eris_fp : fconf := {|
  modulus := 0x24000000000024000130e0000d7f70e4a803ca76f439266f443f9a5cda8a6c7be4a7a5fe8fadffd6a2a7e8c30006b9459ffffcd300000001;
  mul_gen := 0xa;
  zeta := 0x480000000000360001c950000d7ee0e4a803c956d01c903d720dc8ad8b38dffaf50c100004c37ffffffe;
  big_endian := false |}.

(** src/pluto_eris/fq.rs:6-14 (pluto_eris Fq) *)
Definition pluto_eris_fq : fconf := {|
  modulus := 0x24000000000024000130e0000d7f70e4a803ca76f439266f443f9a5c7a8a6c7be4a775fe8e177fd69ca7e85d60050af41ffffcd300000001;
  mul_gen := 0x7;
  zeta := 0x9000000000006c000392a0001afee1c9500792ae3039253e641ba35817a29ffaf50be000032cfffffffe;
  big_endian := false |}.

Definition all_fields : list fconf :=
  [bn256_fq; bn256_fr; bls12381_fq; bls12381_fr; secp256k1_fp; secp256k1_fq; secp256r1_fp; secp256r1_fq; pluto_eris_fp; pluto_eris_fq].
