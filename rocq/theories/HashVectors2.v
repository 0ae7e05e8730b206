(** C52: the model of [expand_message] reproduces all twenty vectors of the crate's test
    (hash_to_curve.rs:386-586), and the model of [hash_to_curve] reproduces vectors of the two
    groups of bn256 (bn256/curve.rs:311-416). *)
From Coq Require Import String.
From Verif Require Import Base Algebra Tower Field Params TowerParams Curve CurveParams Sqrt2 H2c H2cSuites Hash Sha256 Sha512 HashToCurve PrimeField Word Compute LimbField SpecField Cofactor HashVectors.
From Bignums Require Import BigZ.
Local Open Scope Z_scope.

Definition expander_prefix := ascii_bytes "QUUX-V01-CS02-with-expander-".
(** the messages b"q128_qq..." and b"a512_aa..." of the tests *)
Definition q128 : list Z := ascii_bytes "q128_" ++ repeat 113 128.
Definition a512 : list Z := ascii_bytes "a512_" ++ repeat 97 512.
Definition expand_check (D : digest) (domain : string) (v : list Z * nat * Z) : bool :=
  let '(msg, n, e) := v in
  match expand_message D expander_prefix (ascii_bytes domain) msg n with
  | Some out => if list_eq_dec Z.eq_dec out (be_bytes n e) then true else false
  | None => false
  end.
Definition expand_sha256 : list (list Z * nat * Z) :=
  [
   (ascii_bytes "", 32%nat, 0x68a985b87eb6b46952128911f2a4412bbc302a9d759667f87f7a21d803f07235);
   (ascii_bytes "abc", 32%nat, 0xd8ccab23b5985ccea865c6c97b6e5b8350e794e603b4b97902f53a8a0d605615);
   (ascii_bytes "abcdef0123456789", 32%nat, 0xeff31487c770a893cfb36f912fbfcbff40d5661771ca4b2cb4eafe524333f5c1);
   (q128, 32%nat, 0xb23a1d2b4d97b2ef7785562a7e8bac7eed54ed6e97e29aa51bfe3f12ddad1ff9);
   (a512, 32%nat, 0x4623227bcc01293b8c130bf771da8c298dede7383243dc0993d2d94823958c4c);
   (ascii_bytes "", 128%nat, 0xaf84c27ccfd45d41914fdff5df25293e221afc53d8ad2ac06d5e3e29485dadbee0d121587713a3e0dd4d5e69e93eb7cd4f5df4cd103e188cf60cb02edc3edf18eda8576c412b18ffb658e3dd6ec849469b979d444cf7b26911a08e63cf31f9dcc541708d3491184472c2c29bb749d4286b004ceb5ee6b9a7fa5b646c993f0ced);
   (ascii_bytes "abc", 128%nat, 0xabba86a6129e366fc877aab32fc4ffc70120d8996c88aee2fe4b32d6c7b6437a647e6c3163d40b76a73cf6a5674ef1d890f95b664ee0afa5359a5c4e07985635bbecbac65d747d3d2da7ec2b8221b17b0ca9dc8a1ac1c07ea6a1e60583e2cb00058e77b7b72a298425cd1b941ad4ec65e8afc50303a22c0f99b0509b4c895f40);
   (ascii_bytes "abcdef0123456789", 128%nat, 0xef904a29bffc4cf9ee82832451c946ac3c8f8058ae97d8d629831a74c6572bd9ebd0df635cd1f208e2038e760c4994984ce73f0d55ea9f22af83ba4734569d4bc95e18350f740c07eef653cbb9f87910d833751825f0ebefa1abe5420bb52be14cf489b37fe1a72f7de2d10be453b2c9d9eb20c7e3f6edc5a60629178d9478df);
   (q128, 128%nat, 0x80be107d0884f0d881bb460322f0443d38bd222db8bd0b0a5312a6fedb49c1bbd88fd75d8b9a09486c60123dfa1d73c1cc3169761b17476d3c6b7cbbd727acd0e2c942f4dd96ae3da5de368d26b32286e32de7e5a8cb2949f866a0b80c58116b29fa7fabb3ea7d520ee603e0c25bcaf0b9a5e92ec6a1fe4e0391d1cdbce8c68a);
   (a512, 128%nat, 0x546aff5444b5b79aa6148bd81728704c32decb73a3ba76e9e75885cad9def1d06d6792f8a7d12794e90efed817d96920d728896a4510864370c207f99bd4a608ea121700ef01ed879745ee3e4ceef777eda6d9e5e38b90c86ea6fb0b36504ba4a45d22e86f6db5dd43d98a294bebb9125d5b794e9d2a81181066eb954966a487)
  ].
Example C52_expand_sha256 : forallb (expand_check sha256_digest "SHA256-128") expand_sha256 = true.
Proof. vm_compute. reflexivity. Qed.
Definition expand_sha512 : list (list Z * nat * Z) :=
  [
   (ascii_bytes "", 32%nat, 0x6b9a7312411d92f921c6f68ca0b6380730a1a4d982c507211a90964c394179ba);
   (ascii_bytes "abc", 32%nat, 0x0da749f12fbe5483eb066a5f595055679b976e93abe9be6f0f6318bce7aca8dc);
   (ascii_bytes "abcdef0123456789", 32%nat, 0x087e45a86e2939ee8b91100af1583c4938e0f5fc6c9db4b107b83346bc967f58);
   (q128, 32%nat, 0x7336234ee9983902440f6bc35b348352013becd88938d2afec44311caf8356b3);
   (a512, 32%nat, 0x57b5f7e766d5be68a6bfe1768e3c2b7f1228b3e4b3134956dd73a59b954c66f4);
   (ascii_bytes "", 128%nat, 0x41b037d1734a5f8df225dd8c7de38f851efdb45c372887be655212d07251b921b052b62eaed99b46f72f2ef4cc96bfaf254ebbbec091e1a3b9e4fb5e5b619d2e0c5414800a1d882b62bb5cd1778f098b8eb6cb399d5d9d18f5d5842cf5d13d7eb00a7cff859b605da678b318bd0e65ebff70bec88c753b159a805d2c89c55961);
   (ascii_bytes "abc", 128%nat, 0x7f1dddd13c08b543f2e2037b14cefb255b44c83cc397c1786d975653e36a6b11bdd7732d8b38adb4a0edc26a0cef4bb45217135456e58fbca1703cd6032cb1347ee720b87972d63fbf232587043ed2901bce7f22610c0419751c065922b488431851041310ad659e4b23520e1772ab29dcdeb2002222a363f0c2b1c972b3efe1);
   (ascii_bytes "abcdef0123456789", 128%nat, 0x3f721f208e6199fe903545abc26c837ce59ac6fa45733f1baaf0222f8b7acb0424814fcb5eecf6c1d38f06e9d0a6ccfbf85ae612ab8735dfdf9ce84c372a77c8f9e1c1e952c3a61b7567dd0693016af51d2745822663d0c2367e3f4f0bed827feecc2aaf98c949b5ed0d35c3f1023d64ad1407924288d366ea159f46287e61ac);
   (q128, 128%nat, 0xb799b045a58c8d2b4334cf54b78260b45eec544f9f2fb5bd12fb603eaee70db7317bf807c406e26373922b7b8920fa29142703dd52bdf280084fb7ef69da78afdf80b3586395b433dc66cde048a258e476a561e9deba7060af40adf30c64249ca7ddea79806ee5beb9a1422949471d267b21bc88e688e4014087a0b592b695ed);
   (a512, 128%nat, 0x05b0bfef265dcee87654372777b7c44177e2ae4c13a27f103340d9cd11c86cb2426ffcad5bd964080c2aee97f03be1ca18e30a1f14e27bc11ebbd650f305269cc9fb1db08bf90bfc79b42a952b46daf810359e7bc36452684784a64952c343c52e5124cd1f71d474d5197fefc571a92929c9084ffe1112cf5eea5192ebff330b)
  ].
Example C52_expand_sha512 : forallb (expand_check sha512_digest "SHA512-256") expand_sha512 = true.
Proof. vm_compute. reflexivity. Qed.

(** The quadratic residue test over Fp2 = Fp[i]: that of the norm. *)
Definition bqnr2 p (x : quad bigZ) : bool :=
  let o := be_ops p in bqnr p (fadd o (fsqr o (q0 x)) (fsqr o (q1 x))).
Lemma bn256_fq_root_int : root_of_unity_int bn256_fq = 0x30644e72e131a029b85045b68181585d97816a916871ca8d3c208c16d87cfd46.
Proof. rewrite (root_int_minus_one bn256_fq); [vm_compute; reflexivity|cbn; tauto|vm_compute; reflexivity]. Qed.
Lemma bn256_fq_two_inv_int : two_inv_int bn256_fq = 0x183227397098d014dc2822db40c0ac2ecbc0b548b438e5469e10460b6c3e7ea4.
Proof. rewrite (two_inv_int_half bn256_fq); [vm_compute; reflexivity|cbn; tauto]. Qed.
Example C52_vector_bn256_g1 : let p := modulus bn256_fq in
  aff_of p (bn256_g1_hash (be_ops p) (binj p) bodd (bqnr p) (bfu p) sha256_digest pre (ascii_bytes "abc")) =
  Some (0x23f717bee89b1003957139f193e6be7da1df5f1374b26a4643b0378b5baf53d1,
        0x04142f826b71ee574452dbc47e05bc3e1a647478403a7ba38b7b93948f4e151d).
Proof.
  cbv beta delta [bn256_g1_hash bn256_g1_map svdw_suite fq_sqrt fp_sqrt]. rewrite bn256_fq_root_int, bn256_fq_two_inv_int.
  vm_compute. reflexivity. Qed.
Example C52_vector_bn256_g2 : let p := modulus bn256_fq in
  aff2_of (bn256_fq2 (be_ops p)) (bn256_g2_hash (be_ops p) (binj p) bodd2 (bqnr2 p) (bfu2 p 48) sha256_digest pre (ascii_bytes "abc")) =
  Some ((0x16c88b54eec9af86a41569608cd0f60aab43464e52ce7e6e298bf584b94fccd2,
         0x0b5db3ca7e8ef5edf3a33dfc3242357fbccead98099c3eb564b3d9d13cba4efd),
        (0x1c42ba524cb74db8e2c680449746c028f7bea923f245e69f89256af2d6c5f3ac,
         0x22d02d2da7f288545ff8789e789902245ab08c6b1d253561eec789ec2c1bd630)).
Proof.
  cbv beta delta [bn256_g2_hash bn256_g2_map]. rewrite bn256_fq_two_inv_int.
  vm_compute. reflexivity. Qed.
