(** C52: the model of [hash_to_curve] reproduces test vectors of the crate, with SHA-256.  The
    functions of HashToCurve.v are generic in the base field; here they run over integers
    modulo p in BigZ, whose arithmetic is that of the bz_ops of the checks. *)
From Coq Require Import String.
From Verif Require Import Base Algebra Tower Field Params TowerParams Curve CurveParams Sqrt2 H2c H2cSuites Hash Sha256 HashToCurve PrimeField Word Compute LimbField SpecField Cofactor FieldFacts Pow ConstFacts Props_Field2.
From Bignums Require Import BigZ.
Local Open Scope Z_scope.
Fixpoint bpow (m x : bigZ) (e : positive) : bigZ :=
  match e with
  | xH => x
  | xO e => let y := bpow m x e in BigZ.modulo (BigZ.square y) m
  | xI e => let y := bpow m x e in BigZ.modulo (BigZ.mul x (BigZ.modulo (BigZ.square y) m)) m
  end.
Definition be_ops (p : Z) : fops bigZ :=
  let m := BigZ.of_Z p in let o := bz_ops m in
  {| f0 := f0 o; f1 := f1 o; fadd := fadd o; fsub := fsub o; fmul := fmul o; fneg := fneg o; fsqr := fsqr o; fdbl := fdbl o;
     finv := fun a => if BigZ.eqb 0%bigZ a then None else Some (bpow m a (Z.to_pos (p - 2)));
     feqb := feqb o; fis0 := fis0 o |}.
Definition binj p (z : Z) := BigZ.of_Z (z mod p).
Definition bodd (x : bigZ) := Z.odd (BigZ.to_Z x).
Definition bfu p (l : list Z) := binj p (le_int l).
Definition bqnr p (x : bigZ) : bool := BigZ.eqb (bpow (BigZ.of_Z p) x (Z.to_pos ((p - 1) / 2))) (BigZ.of_Z (p - 1)).
Definition aff_of p (h : h2c (proj bigZ)) : option (Z * Z) :=
  match h with HRet q => let i := bpow (BigZ.of_Z p) (pz q) (Z.to_pos (p - 2)) in
     Some (BigZ.to_Z (fmul (be_ops p) (px q) i), BigZ.to_Z (fmul (be_ops p) (py q) i)) | _ => None end.
Definition pre := ascii_bytes "QUUX-V01-CS02-with-".
Definition z2 (x : quad bigZ) := (BigZ.to_Z (q0 x), BigZ.to_Z (q1 x)).
Definition aff2_of (o : fops (quad bigZ)) (h : h2c (proj (quad bigZ))) : option ((Z * Z) * (Z * Z)) :=
  match h with HRet q => match finv o (pz q) with Some i => Some (z2 (fmul o (px q) i), z2 (fmul o (py q) i)) | None => None end | _ => None end.
Definition bodd2 (x : quad bigZ) := bodd (q0 x).
Definition bfu2 p (half : nat) (l : list Z) : quad bigZ := mk_quad (bfu p (skipn half l)) (bfu p (firstn half l)).

(** A field of 2-adicity one has the root of unity -1. *)
Lemma root_int_minus_one c : In c all_fields -> two_adicity c = 1 -> root_of_unity_int c = modulus c - 1.
Proof.
  intros Hc Hs. pose proof (root_half c (field_odd c Hc) (generator_half c Hc)) as E.
  pose proof (root_bound c (field_odd c Hc) (generator_half c Hc)) as B.
  rewrite Hs, Z.pow_1_r, Z.mod_small in E by (clear - B; lia). exact E.
Qed.
Lemma two_inv_int_half c : In c all_fields -> two_inv_int c = (modulus c + 1) / 2.
Proof.
  intros Hc. pose proof (two_inverse c (field_odd c Hc) (field_prime c Hc)) as E.
  destruct (field_odd c Hc) as [_ Ho]. pose proof (p_gt1 c (field_odd c Hc)) as P1.
  assert (B : 0 <= two_inv_int c < modulus c)
    by (unfold two_inv_int, mod_inv; rewrite modpow_spec by lia; apply Z.mod_pos_bound; lia).
  revert E Ho P1 B. generalize (modulus c) (two_inv_int c). clear. intros p h E Ho P1 B.
  apply Z.odd_spec in Ho. destruct Ho as (k & ->).
  replace ((2 * k + 1 + 1) / 2) with (k + 1) by (replace (2 * k + 1 + 1) with ((k + 1) * 2) by ring; symmetry; apply Z.div_mul; lia).
  destruct (Z_lt_ge_dec (2 * h) (2 * k + 1)) as [L | L].
  - rewrite Z.mod_small in E by lia. lia.
  - replace (2 * h) with ((2 * h - (2 * k + 1)) + 1 * (2 * k + 1)) in E by ring.
    rewrite Z_mod_plus_full, Z.mod_small in E by lia. lia.
Qed.
Lemma secp256k1_fp_root_int : root_of_unity_int secp256k1_fp = 0xfffffffffffffffffffffffffffffffffffffffffffffffffffffffefffffc2e.
Proof. rewrite (root_int_minus_one secp256k1_fp); [vm_compute; reflexivity|cbn; tauto|vm_compute; reflexivity]. Qed.
Lemma secp256r1_fp_root_int : root_of_unity_int secp256r1_fp = 0xffffffff00000001000000000000000000000000fffffffffffffffffffffffe.
Proof. rewrite (root_int_minus_one secp256r1_fp); [vm_compute; reflexivity|cbn; tauto|vm_compute; reflexivity]. Qed.
Lemma bls12381_fq_root_int : root_of_unity_int bls12381_fq = 0x1a0111ea397fe69a4b1ba7b6434bacd764774b84f38512bf6730d2a0f6b0f6241eabfffeb153ffffb9feffffffffaaaa.
Proof. rewrite (root_int_minus_one bls12381_fq); [vm_compute; reflexivity|cbn; tauto|vm_compute; reflexivity]. Qed.
(** RFC 9380, appendix J (secp256k1/curve.rs:256-259, secp256r1/curve.rs:140-145,
    bls12381/g1.rs:205-210, bls12381/g2.rs:388-395) *)
Example C52_vector_secp256k1 : let p := modulus secp256k1_fp in
  aff_of p (secp256k1_hash (be_ops p) (binj p) bodd (bfu p) sha256_digest pre (ascii_bytes "abc")) =
  Some (0x3377e01eab42db296b512293120c6cee72b6ecf9f9205760bd9ff11fb3cb2c4b,
        0x7f95890f33efebd1044d382a01b1bee0900fb6116f94688d487c6c7b9c8371f6).
Proof.
  cbv beta delta [secp256k1_hash secp256k1_map sswu_suite fq_sqrt fp_sqrt]. rewrite secp256k1_fp_root_int.
  vm_compute. reflexivity. Qed.
Example C52_vector_secp256r1 : let p := modulus secp256r1_fp in
  aff_of p (secp256r1_hash (be_ops p) (binj p) bodd (bfu p) sha256_digest pre (ascii_bytes "abc")) =
  Some (0x0bb8b87485551aa43ed54f009230450b492fead5f1cc91658775dac4a3388a0f,
        0x5c41b3d0731a27a7b14bc0bf0ccded2d8751f83493404c84a88e71ffd424212e).
Proof.
  cbv beta delta [secp256r1_hash secp256r1_map sswu_suite fq_sqrt fp_sqrt]. rewrite secp256r1_fp_root_int.
  vm_compute. reflexivity. Qed.
Example C52_vector_bls_g1 : let p := modulus bls12381_fq in
  aff_of p (bls_g1_hash (be_ops p) (binj p) bodd (bfu p) sha256_digest pre (ascii_bytes "abc")) =
  Some (0x03567bc5ef9c690c2ab2ecdf6a96ef1c139cc0b2f284dca0a9a7943388a49a3aee664ba5379a7655d3c68900be2f6903,
        0x0b9c15f3fe6e5cf4211f346271d7b01c8f3b28be689c8429c85b67af215533311f0b8dfaaa154fa6b88176c229f2885d).
Proof.
  cbv beta delta [bls_g1_hash bls_g1_map sswu_suite fq_sqrt fp_sqrt]. rewrite bls12381_fq_root_int.
  vm_compute. reflexivity. Qed.
Example C52_vector_bls_g2 : let p := modulus bls12381_fq in
  aff2_of (bls_fq2 (be_ops p)) (bls_g2_hash (be_ops p) (binj p) bodd2 (bfu2 p 64) sha256_digest pre (ascii_bytes "abc")) =
  Some ((0x02c2d18e033b960562aae3cab37a27ce00d80ccd5ba4b7fe0e7a210245129dbec7780ccc7954725f4168aff2787776e6,
         0x139cddbccdc5e91b9623efd38c49f81a6f83f175e80b06fc374de9eb4b41dfe4ca3a230ed250fbe3a2acf73a41177fd8),
        (0x1787327b68159716a37440985269cf584bcb1e621d3a7202be6ea05c4cfe244aeb197642555a0645fb87bf7466b2ba48,
         0x00aa65dae3c8d732d10ecd2c50f8a1baf3001578f71c694e03866e9f3d49ac1e1ce70dd94a733534f106d4cec0eddd16)).
Proof. vm_compute. reflexivity. Qed.
