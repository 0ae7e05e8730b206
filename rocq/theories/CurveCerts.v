(** Certificates for [no_root_check] (generated): inverses of X^q - X modulo
    X^3 + a X + b.  Only used inside proofs. *)
From Verif Require Import Base CurveCheck.

Definition bn256_g1_noroot : tri Z := mk_tri
  0x0
  0x0
  0x30644e72e131a029ae538f115330d7117fd84304c70415a0dd15842dcb27a7f2.
Definition grumpkin_noroot : tri Z := mk_tri
  0x0
  0x0
  0x2ab2dbcec6b35115bd38edfd52dd3e739a23d5b84078b04ab1a3c5080c5c4d7a.
Definition bls_g1_noroot : tri Z := mk_tri
  0x0
  0x0
  0x680447a8e5ff9a68ada21543e33af59b43fad0b495ffab19ca7e68dea6cdba84a7e58a8b97ed5551554eaaaaaaaaaab.
Definition secp256k1_noroot : tri Z := mk_tri
  0x0
  0x0
  0x676072c51d36ab00c84deb078e4ba0feef17a1f9626d375046274e4ab01347c8.
Definition secq256k1_noroot : tri Z := mk_tri
  0x0
  0x0
  0x515cc6fc585d223e720a6030a42fe2d6b74447f89a67614b1cf0aaa2eec73d7e.
Definition secp256r1_noroot : tri Z := mk_tri
  0xa969487079f1744798bf0de6fded091b66e9d328eb0645fe5d979d1339b7f47f
  0xa4a08891884100c13323460107a8d28eede4387fa3e6e9bfebec9f6d72d0b5cc
  0x4cde11cf86cb876cd59cf0115813c55af0ecd3cda667d98bb9a347a56aa74a6d.
Definition pluto_noroot : tri Z := mk_tri
  0x0
  0x0
  0x1e50d79435e52bca1bf3435e5c356cf67289eddd6fa963beb0358f8ad14d7bc6ab45d35d457073ce46c74d0ed5eaaf6a9bca184d06bca1b0.
Definition eris_noroot : tri Z := mk_tri
  0x0
  0x0
  0x20d79435e50d9a1af39cde50e3e48a13f797ab3b1d0bb740b81617e417a4072d9cd6a141b74df648dd4dcf5a38b8476fdb823bf61f7047dd.
Definition bn256_g2_noroot : tri (Z * Z) := mk_tri
  (0x0, 0x0)
  (0x0, 0x0)
  (0x30644e72e131a0295e6dd9e7e0acccb0c28f069fbb966e3de4bd44e5607cfd4a, 0x30644e72e131a029ae538f115330d7117fd84304c70415a0dd15842dcb27a7f2).
Definition bls_g2_noroot : tri (Z * Z) := mk_tri
  (0x0, 0x0)
  (0x0, 0x0)
  (0x1040ab3263eff0206afae48540bfae188c5b7c481e7286b881ec5c97708ee8e634952c53b5696aaa67a9f55555552aab, 0x9c066b7d58ff679e020c331028bfebed81bcf3cd5128c06e544760986220d3dea16d3aafbea955552550aaaaaaa8000).
Definition triton_noroot : tri (Z * Z) := mk_tri
  (0x0, 0x0)
  (0x0, 0x0)
  (0x149249249249392492f75b6dbe91fc82a926bcd646453aa96392100743cd256ba353b6dca58c637ba2233385c6dee9165c9247ab1b6db6dc, 0x524924924924e4924bdd6db6fa47c20aa49af358f514e974ae48371dce9c25ac0714fb5f8b5dec9002c3c69bdb7f00fc12491b7f6db6db7).
