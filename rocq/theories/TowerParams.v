(** Constants of the three pairing towers (generated from the Rust literals).

    A Rust literal [Fq([..])] holds Montgomery limbs, [Fq::from_raw([..])] the
    plain value.  The literal lists are kept as [*_src]; the lists of plain
    values are used by the model, and TowerInst.v checks that they agree. *)
From Verif Require Import Base Algebra Word Field Params Tower.

Inductive lit := Mont (z : Z) | Raw (z : Z).
(** Meaning of a literal for a modulus [p] of [n] limbs. *)
Definition lit_denotes (p : Z) (n : nat) (l : lit) (v : Z) : bool :=
  match l with
  | Mont z => (z =? (v * 2 ^ (64 * Z.of_nat n)) mod p) && (v =? v mod p)
  | Raw z => (v =? z mod p)
  end.
Definition lits_denote (p : Z) (n : nat) (ls : list (lit * lit)) (vs : list (Z * Z)) : bool :=
  (length ls =? length vs)%nat
  && forallb (fun lv => lit_denotes p n (fst (fst lv)) (fst (snd lv))
                        && lit_denotes p n (snd (fst lv)) (snd (snd lv))) (combine ls vs).

(** [t_beta]: u^2; [t_xi]: v^3; the tables FROBENIUS_COEFF_FQ6_C1, _C2, FQ12_C1. *)
Record tower_conf := {
  t_field : fconf; t_beta : Z; t_xi : Z * Z;
  t_c6_1 : list (Z * Z); t_c6_2 : list (Z * Z); t_c12 : list (Z * Z) }.

(** src/bn256/fq6.rs:46-124 *)
Definition bn256_c6_1_src : list (lit * lit) := [
  (Mont 0xe0a77c19a07df2f666ea36f7879462c0a78eb28f5c70b3dd35d438dc58f0d9d, Mont 0x0);
  (Mont 0x1956bcd8118214ec7a007127242e0991347f91c8a9aa6454b5773b104563ab30, Mont 0x26694fbb4e82ebc3b6e713cdfae0ca3aaa1c7b6d89f891416e849f1ea0aa4757);
  (Mont 0x2682e617020217e06001b4b8b615564a7dce557cdb5e56b93350c88e13e80b9c, Mont 0x0);
  (Mont 0x20273e77e3439f8219eeaf64e248c7f4b311782a4aa662b2c9af22f716ad6bad, Mont 0xa46036d4417cc5569e6188b446c84673933d5817ba76b4cacc02860f7ce93ac);
  (Mont 0x2c3b3f0d26594943aa303344d4741444a6bb947cffbe332371930c11d782e155, Mont 0x0);
  (Mont 0x274aa195cd9d8be4dcb16ae0fc8bdf354771cb2fdc92ce12f91aba2654e8e3b1, Mont 0x301949bd2fc8883a4fd35f13c3b562194bb28433cb43988c5cfc50ae18811f8b)].
Definition bn256_c6_1 : list (Z * Z) := [
  (0x1, 0x0);
  (0x2fb347984f7911f74c0bec3cf559b143b78cc310c2c3330c99e39557176f553d, 0x16c9e55061ebae204ba4cc8bd75a079432ae2a1d0b7c9dce1665d51c640fcba2);
  (0x30644e72e131a0295e6dd9e7e0acccb0c28f069fbb966e3de4bd44e5607cfd48, 0x0);
  (0x856e078b755ef0abaff1c77959f25ac805ffd3d5d6942d37b746ee87bdcfb6d, 0x4f1de41b3d1766fa9f30e6dec26094f0fdf31bf98ff2631380cab2baaa586de);
  (0x59e26bcea0d48bacd4f263f1acdb5c4f5763473177fffffe, 0x0);
  (0x28be74d4bb943f51699582b87809d9caf71614d4b0b71f3a62e913ee1dada9e4, 0x14a88ae0cb747b99c2b86abcbe01477a54f40eb4c3f6068dedae0bcec9c7aac7)].

(** src/bn256/fq6.rs:126-202 *)
Definition bn256_c6_2_src : list (lit * lit) := [
  (Mont 0xe0a77c19a07df2f666ea36f7879462c0a78eb28f5c70b3dd35d438dc58f0d9d, Mont 0x0);
  (Mont 0x15df9cddbb9fd3ec9c941f314b3e2399a5bb2bd3273411fb7361d77f843abe92, Mont 0x24830a9d3171f0fd37bc870a0c7dd2b962cb29a5a4445b605dddfd154bd8c949);
  (Mont 0x2c3b3f0d26594943aa303344d4741444a6bb947cffbe332371930c11d782e155, Mont 0x0);
  (Mont 0x6b03d4d3476ec58d858f5d00e9bd47abfd62df528fdeadf448a93a57b6762df, Mont 0x170c812b84dda0b2b533eee05adeaef1a1a54e7a56f4299f2b19daf4bcc936d1);
  (Mont 0x2682e617020217e06001b4b8b615564a7dce557cdb5e56b93350c88e13e80b9c, Mont 0x0);
  (Mont 0x13d47447f11adfe4436330b527a7604931f010c9183fcdb2843420f1d8dadbd6, Mont 0x2539111d0c13aea383b015829ba62f102a925d02d5ab101aef494023a857fa74)].
Definition bn256_c6_2 : list (Z * Z) := [
  (0x1, 0x0);
  (0x5b54f5e64eea80180f3c0b75a181e84d33365f7be94ec72848a1f55921ea762, 0x2c145edbe7fd8aee9f3a80b03b0b1c923685d2ea1bdec763c13b4711cd2b8126);
  (0x59e26bcea0d48bacd4f263f1acdb5c4f5763473177fffffe, 0x0);
  (0xbc58c6611c08dab19bee0f7b5b2444ee633094575b06bcb0e1a92bc3ccbf066, 0x23d5e999e1910a12feb0f6ef0cd21d04a44a9e08737f96e55fe3ed9d730c239f);
  (0x30644e72e131a0295e6dd9e7e0acccb0c28f069fbb966e3de4bd44e5607cfd48, 0x0);
  (0x1ee972ae6a826a7d1d9da40771b6f589de1afb54342c724fa97bda050992657f, 0x10de546ff8d4ab51d2b513cdbb25772454326430418536d15721e37e70c255c9)].

(** src/bn256/fq12.rs:42-194 *)
Definition bn256_c12_src : list (lit * lit) := [
  (Mont 0xe0a77c19a07df2f666ea36f7879462c0a78eb28f5c70b3dd35d438dc58f0d9d, Mont 0x0);
  (Mont 0x2f34d751a1f3a7c11bded5ef08a2087ca6b1d7387afb78aaf9ba69633144907, Mont 0x10a75716b3899551dc2ff3a253dfc926d00f02a4565de15ba222ae234c492d72);
  (Mont 0x4290f65bad856e60e201271ad0d4418f0c5d61468b39769ca8d800500fa1bf2, Mont 0x0);
  (Mont 0x8116d8983a20d23659da72fca1009b50af7129ed4c96d9f365316184e46d97d, Mont 0x26684515eff054a69b2220928caf0ae03d9f02878a73bf7fb1df4af7c39c1939);
  (Mont 0x2682e617020217e06001b4b8b615564a7dce557cdb5e56b93350c88e13e80b9c, Mont 0x0);
  (Mont 0x51e20146982d2a753dfb9d0d985e92d408bf52b4d19b61486b76f821b329076, Mont 0x15c0edff3c66bf54bef22cf038cf41b96d8fffe33415de240fbc9cd47752ebc7);
  (Mont 0x2259d6b14729c0fa51e1a247090812318d087f6872aabf4f68c3488912edefaa, Mont 0x0);
  (Mont 0x2d7100fdc71265ada692585790f737d5cd164d1de0c213028c84e580a568b440, Mont 0x1fbcf75c2da80ad7dc2052142da18f36c77267ed1213e93199fdddf38c33cfd5);
  (Mont 0x2c3b3f0d26594943aa303344d4741444a6bb947cffbe332371930c11d782e155, Mont 0x0);
  (Mont 0x2852e0e95d8f930652b29e86b7714ea88c8a57f293a85cee05cd75fe8a3623ca, Mont 0x9fc095cf1414b831d2e2523f4d24d7d59e26809ddfe0b0d8a41411f14e0e40e);
  (Mont 0x9e1685bdf2f8849584e90fdcb6c021319b315148d1373d408cfc388c494f1ab, Mont 0x0);
  (Mont 0x2b462e5e77aecd8264708be5a7fb6f3056f575661b581478b5691c94bd4a6cd1, Mont 0x1aa36073a4cae0d4f95e18c648b216a429f16aae345bec692c63ef42612a1180)].
Definition bn256_c12 : list (Z * Z) := [
  (0x1, 0x0);
  (0x1284b71c2865a7dfe8b99fdd76e68b605c521e08292f2176d60b35dadcc9e470, 0x246996f3b4fae7e6a6327cfe12150b8e747992778eeec7e5ca5cf05f80f362ac);
  (0x30644e72e131a0295e6dd9e7e0acccb0c28f069fbb966e3de4bd44e5607cfd49, 0x0);
  (0x19dc81cfcc82e4bbefe9608cd0acaa90894cb38dbe55d24ae86f7d391ed4a67f, 0xabf8b60be77d7306cbeee33576139d7f03a5e397d439ec7694aa2bf4c0c101);
  (0x30644e72e131a0295e6dd9e7e0acccb0c28f069fbb966e3de4bd44e5607cfd48, 0x0);
  (0x757cab3a41d3cdc072fc0af59c61f302cfa95859526b0d41264475e420ac20f, 0xca6b035381e35b618e9b79ba4e2606ca20b7dfd71573c93e85845e34c4a5b9c);
  (0x30644e72e131a029b85045b68181585d97816a916871ca8d3c208c16d87cfd46, 0x0);
  (0x1ddf9756b8cbf849cf96a5d90a9accfd3b2f4c893f42a9166615563bfbb318d7, 0xbfab77f2c36b843121dc8b86f6c4ccf2307d819d98302a771c39bb757899a9b);
  (0x59e26bcea0d48bacd4f263f1acdb5c4f5763473177fffffe, 0x0);
  (0x1687cca314aebb6dc866e529b0d4adcd0e34b703aa1bf84253b10eddb9a856c8, 0x2fb855bcd54a22b6b18456d34c0b44c0187dc4add09d90a0c58be1eae3bc3c46);
  (0x59e26bcea0d48bacd4f263f1acdb5c4f5763473177ffffff, 0x0);
  (0x290c83bf3d14634db120850727bb392d6a86d50bd34b19b929bc44b896723b38, 0x23bd9e3da9136a739f668e1adc9ef7f0f575ec93f71a8df953c846338c32a1ab)].

(** src/bn256/fq.rs:28-32 (beta = -1), src/bn256/fq2.rs:44 (xi) *)
Definition bn256_tower : tower_conf := {|
  t_field := bn256_fq; t_beta := -1; t_xi := (9, 1);
  t_c6_1 := bn256_c6_1; t_c6_2 := bn256_c6_2; t_c12 := bn256_c12 |}.

(** src/bls12381/fq6.rs:42-157 *)
Definition bls12381_c6_1_src : list (lit * lit) := [
  (Mont 0x15f65ec3fa80e4935c071a97a256ec6d77ce5853705257455f48985753c758baebf4000bc40c0002760900000002fffd, Mont 0x0);
  (Mont 0x0, Mont 0x18f020655463874103f97d6e83d050d28eb60ebe01bacb9e587042afd3851b955dab22461fcda5d2cd03c9e48671f071);
  (Mont 0x51ba4ab241b61603636b76660701c6ec26a2ff874fd029b16a8ca3ac61577f7f3b8ddab7ece5a2a30f1361b798a64e8, Mont 0x0);
  (Mont 0x0, Mont 0x15f65ec3fa80e4935c071a97a256ec6d77ce5853705257455f48985753c758baebf4000bc40c0002760900000002fffd);
  (Mont 0x18f020655463874103f97d6e83d050d28eb60ebe01bacb9e587042afd3851b955dab22461fcda5d2cd03c9e48671f071, Mont 0x0);
  (Mont 0x0, Mont 0x51ba4ab241b61603636b76660701c6ec26a2ff874fd029b16a8ca3ac61577f7f3b8ddab7ece5a2a30f1361b798a64e8)].
Definition bls12381_c6_1 : list (Z * Z) := [
  (0x1, 0x0);
  (0x0, 0x1a0111ea397fe699ec02408663d4de85aa0d857d89759ad4897d29650fb85f9b409427eb4f49fffd8bfd00000000aaac);
  (0x5f19672fdf76ce51ba69c6076a0f77eaddb3a93be6f89688de17d813620a00022e01fffffffefffe, 0x0);
  (0x0, 0x1);
  (0x1a0111ea397fe699ec02408663d4de85aa0d857d89759ad4897d29650fb85f9b409427eb4f49fffd8bfd00000000aaac, 0x0);
  (0x0, 0x5f19672fdf76ce51ba69c6076a0f77eaddb3a93be6f89688de17d813620a00022e01fffffffefffe)].

(** src/bls12381/fq6.rs:160-275 *)
Definition bls12381_c6_2_src : list (lit * lit) := [
  (Mont 0x15f65ec3fa80e4935c071a97a256ec6d77ce5853705257455f48985753c758baebf4000bc40c0002760900000002fffd, Mont 0x0);
  (Mont 0x14e56d3f1564853a14e4f04fe2db9068a20d1b8c7e88102450880866309b7e2c2af322533285a5d5890dc9e4867545c3, Mont 0x0);
  (Mont 0x18f020655463874103f97d6e83d050d28eb60ebe01bacb9e587042afd3851b955dab22461fcda5d2cd03c9e48671f071, Mont 0x0);
  (Mont 0x40ab3263eff0206ef148d1ea0f4c069eca8f3318332bb7a07e83a49a2e99d6932b7fff2ed47fffd43f5fffffffcaaae, Mont 0x0);
  (Mont 0x51ba4ab241b61603636b76660701c6ec26a2ff874fd029b16a8ca3ac61577f7f3b8ddab7ece5a2a30f1361b798a64e8, Mont 0x0);
  (Mont 0x110f184e51c5f5947222a47bf7b5c04d5c13cc6f1ca47210ec08ff1232bda8ec100ddb891865a2cecfb361b798dba3a, Mont 0x0)].
Definition bls12381_c6_2 : list (Z * Z) := [
  (0x1, 0x0);
  (0x1a0111ea397fe699ec02408663d4de85aa0d857d89759ad4897d29650fb85f9b409427eb4f49fffd8bfd00000000aaad, 0x0);
  (0x1a0111ea397fe699ec02408663d4de85aa0d857d89759ad4897d29650fb85f9b409427eb4f49fffd8bfd00000000aaac, 0x0);
  (0x1a0111ea397fe69a4b1ba7b6434bacd764774b84f38512bf6730d2a0f6b0f6241eabfffeb153ffffb9feffffffffaaaa, 0x0);
  (0x5f19672fdf76ce51ba69c6076a0f77eaddb3a93be6f89688de17d813620a00022e01fffffffefffe, 0x0);
  (0x5f19672fdf76ce51ba69c6076a0f77eaddb3a93be6f89688de17d813620a00022e01fffffffeffff, 0x0)].

(** src/bls12381/fq12.rs:37-267 *)
Definition bls12381_c12_src : list (lit * lit) := [
  (Mont 0x15f65ec3fa80e4935c071a97a256ec6d77ce5853705257455f48985753c758baebf4000bc40c0002760900000002fffd, Mont 0x0);
  (Mont 0x8f2220fb0fb66eb1ce393ea5daace4da35baecab2dc29ee97e83cccd117228fc6695f92b50a831307089552b319d465, Mont 0x110eefda88847faf2e3813cbe5a0de89c11b9cba40a8e8d0cf4895d42599d3945842a06bfc497cecb2f66aad4ce5d646);
  (Mont 0x110f184e51c5f5947222a47bf7b5c04d5c13cc6f1ca47210ec08ff1232bda8ec100ddb891865a2cecfb361b798dba3a, Mont 0x0);
  (Mont 0xbd592fc7d825ec81d794e4fac7cf0b992ad2afd19103e18382844c88b6237324294213d86c181833e2f585da55c9ad1, Mont 0xe2b7eedbbfd87d22da2596696cebc1dd1ca2087da74d4a72f088dd86b4ebef1dc17dec12a927e7c7bcfa7a25aa30fda);
  (Mont 0x51ba4ab241b61603636b76660701c6ec26a2ff874fd029b16a8ca3ac61577f7f3b8ddab7ece5a2a30f1361b798a64e8, Mont 0x0);
  (Mont 0x2e370eccc86f7dd0095ba654ed2226bef517c3266341429a04007fbba4b14a27c2ac1aad1b6fe703726c30af242c66c, Mont 0x171da0fd6cf8eebd4a85ed50f4798a6b7525cf528d50fe95c6f0caa53c65e181a2813e53df9d018f82d83cf50dbce43f);
  (Mont 0x40ab3263eff0206ef148d1ea0f4c069eca8f3318332bb7a07e83a49a2e99d6932b7fff2ed47fffd43f5fffffffcaaae, Mont 0x0);
  (Mont 0x110eefda88847faf2e3813cbe5a0de89c11b9cba40a8e8d0cf4895d42599d3945842a06bfc497cecb2f66aad4ce5d646, Mont 0x8f2220fb0fb66eb1ce393ea5daace4da35baecab2dc29ee97e83cccd117228fc6695f92b50a831307089552b319d465);
  (Mont 0x18f020655463874103f97d6e83d050d28eb60ebe01bacb9e587042afd3851b955dab22461fcda5d2cd03c9e48671f071, Mont 0x0);
  (Mont 0xe2b7eedbbfd87d22da2596696cebc1dd1ca2087da74d4a72f088dd86b4ebef1dc17dec12a927e7c7bcfa7a25aa30fda, Mont 0xbd592fc7d825ec81d794e4fac7cf0b992ad2afd19103e18382844c88b6237324294213d86c181833e2f585da55c9ad1);
  (Mont 0x14e56d3f1564853a14e4f04fe2db9068a20d1b8c7e88102450880866309b7e2c2af322533285a5d5890dc9e4867545c3, Mont 0x0);
  (Mont 0x171da0fd6cf8eebd4a85ed50f4798a6b7525cf528d50fe95c6f0caa53c65e181a2813e53df9d018f82d83cf50dbce43f, Mont 0x2e370eccc86f7dd0095ba654ed2226bef517c3266341429a04007fbba4b14a27c2ac1aad1b6fe703726c30af242c66c)].
Definition bls12381_c12 : list (Z * Z) := [
  (0x1, 0x0);
  (0x1904d3bf02bb0667c231beb4202c0d1f0fd603fd3cbd5f4f7b2443d784bab9c4f67ea53d63e7813d8d0775ed92235fb8, 0xfc3e2b36c4e03288e9e902231f9fb854a14787b6c7b36fec0c8ec971f63c5f282d5ac14d6c7ec22cf78a126ddc4af3);
  (0x5f19672fdf76ce51ba69c6076a0f77eaddb3a93be6f89688de17d813620a00022e01fffffffeffff, 0x0);
  (0x135203e60180a68ee2e9c448d77a2cd91c3dedd930b1cf60ef396489f61eb45e304466cf3e67fa0af1ee7b04121bdea2, 0x6af0e0437ff400b6831e36d6bd17ffe48395dabc2d3435e77f76e17009241c5ee67992f72ec05f4c81084fbede3cc09);
  (0x5f19672fdf76ce51ba69c6076a0f77eaddb3a93be6f89688de17d813620a00022e01fffffffefffe, 0x0);
  (0x144e4211384586c16bd3ad4afa99cc9170df3560e77982d0db45f3536814f0bd5871c1908bd478cd1ee605167ff82995, 0x5b2cfd9013a5fd8df47fa6b48b1e045f39816240c0b8fee8beadf4d8e9c0566c63a3e6e257f87329b18fae980078116);
  (0x1a0111ea397fe69a4b1ba7b6434bacd764774b84f38512bf6730d2a0f6b0f6241eabfffeb153ffffb9feffffffffaaaa, 0x0);
  (0xfc3e2b36c4e03288e9e902231f9fb854a14787b6c7b36fec0c8ec971f63c5f282d5ac14d6c7ec22cf78a126ddc4af3, 0x1904d3bf02bb0667c231beb4202c0d1f0fd603fd3cbd5f4f7b2443d784bab9c4f67ea53d63e7813d8d0775ed92235fb8);
  (0x1a0111ea397fe699ec02408663d4de85aa0d857d89759ad4897d29650fb85f9b409427eb4f49fffd8bfd00000000aaac, 0x0);
  (0x6af0e0437ff400b6831e36d6bd17ffe48395dabc2d3435e77f76e17009241c5ee67992f72ec05f4c81084fbede3cc09, 0x135203e60180a68ee2e9c448d77a2cd91c3dedd930b1cf60ef396489f61eb45e304466cf3e67fa0af1ee7b04121bdea2);
  (0x1a0111ea397fe699ec02408663d4de85aa0d857d89759ad4897d29650fb85f9b409427eb4f49fffd8bfd00000000aaad, 0x0);
  (0x5b2cfd9013a5fd8df47fa6b48b1e045f39816240c0b8fee8beadf4d8e9c0566c63a3e6e257f87329b18fae980078116, 0x144e4211384586c16bd3ad4afa99cc9170df3560e77982d0db45f3536814f0bd5871c1908bd478cd1ee605167ff82995)].

(** src/bls12381/fq.rs:29-33 (beta = -1), src/bls12381/fq2.rs:48 (xi) *)
Definition bls12381_tower : tower_conf := {|
  t_field := bls12381_fq; t_beta := -1; t_xi := (1, 1);
  t_c6_1 := bls12381_c6_1; t_c6_2 := bls12381_c6_2; t_c12 := bls12381_c12 |}.

(** src/pluto_eris/fp6.rs:46-146 *)
Definition pluto_c6_1_src : list (lit * lit) := [
  (Raw 0x1, Raw 0x0);
  (Raw 0x120de97f024c55bc3bc0d351f4c70da1e3886170077a50986f93678bc921dcd5041bc4bb14cc42dc52e787634eccc335a001825382850d03, Raw 0x2096f3f804d973afd82becc2ef081b76132461908eadbe3da1a7f5502b7091965efa1ddf4658080413be1b7cd3c9ea0e2772fea378a9b322);
  (Raw 0x480000000000360001c950000d7ee0e4a803c956d01c903d720dc8ad8b38dffaf50c100004c37ffffffe, Raw 0x0);
  (Raw 0x1f9cd069c59f50a72511749de232911d833b798e78bd98c02913e38315a71c287cd52ae30d09b78a8b43b17b4c3ea938a04518fa783eb497, Raw 0x23affd628747cbaec26943f93dc9eab63f4af36699fe6d74c0aa2122aa7cb689e8faacb3479a973a4a728fcb77b150ee77240d4066e42ac5);
  (Raw 0x24000000000024000130e0000d7f28e4a803ca76be3924a5f43f8cddf9a5c4781b50d5e1ff708dc8d9fa5d8a200bc4398ffff80f80000002, Raw 0x0);
  (Raw 0x165546173814a19ca18f781044054309e943b9ef683a6385efd7e9aad64bdffa485e5c5efd860546672498a76502061cffb95e58053c3e68, Raw 0x3b90ea573df08a167cc8f43ee2cdb9cfd983ff6bfc6212c262d1e46df2790d7815a816a9169606ee71f263db492378ea168edc22072221b)].
Definition pluto_c6_1 : list (Z * Z) := [
  (0x1, 0x0);
  (0x120de97f024c55bc3bc0d351f4c70da1e3886170077a50986f93678bc921dcd5041bc4bb14cc42dc52e787634eccc335a001825382850d03, 0x2096f3f804d973afd82becc2ef081b76132461908eadbe3da1a7f5502b7091965efa1ddf4658080413be1b7cd3c9ea0e2772fea378a9b322);
  (0x480000000000360001c950000d7ee0e4a803c956d01c903d720dc8ad8b38dffaf50c100004c37ffffffe, 0x0);
  (0x1f9cd069c59f50a72511749de232911d833b798e78bd98c02913e38315a71c287cd52ae30d09b78a8b43b17b4c3ea938a04518fa783eb497, 0x23affd628747cbaec26943f93dc9eab63f4af36699fe6d74c0aa2122aa7cb689e8faacb3479a973a4a728fcb77b150ee77240d4066e42ac5);
  (0x24000000000024000130e0000d7f28e4a803ca76be3924a5f43f8cddf9a5c4781b50d5e1ff708dc8d9fa5d8a200bc4398ffff80f80000002, 0x0);
  (0x165546173814a19ca18f781044054309e943b9ef683a6385efd7e9aad64bdffa485e5c5efd860546672498a76502061cffb95e58053c3e68, 0x3b90ea573df08a167cc8f43ee2cdb9cfd983ff6bfc6212c262d1e46df2790d7815a816a9169606ee71f263db492378ea168edc22072221b)].

(** src/pluto_eris/fp6.rs:149-249 *)
Definition pluto_c6_2_src : list (lit * lit) := [
  (Raw 0x1, Raw 0x0);
  (Raw 0x93733692ce3cdcfc34610bac6bd22c4dc590efb038c82998c9549048e7b424cc00e17ffb4a61950d0ec132a7b38f09db0a818e422737f7c, Raw 0x12cb19daadc92882ba3593aa6f3e6bf426f29bd46039e3036f61d0bd35f39ebecdac3209d9df546061c90b4940d9031c240ce398421dc7dc);
  (Raw 0x24000000000024000130e0000d7f28e4a803ca76be3924a5f43f8cddf9a5c4781b50d5e1ff708dc8d9fa5d8a200bc4398ffff80f80000002, Raw 0x0);
  (Raw 0x85cc83a7eeba2ef5f7dd2f9f1405312b2ce0cbc85b8561e1657aaf1e85b82299aa5ace8b26b78d88f57e1c7a87f75556885980d6c8d2186, Raw 0xda3357ee4e6a9836af75e8ec0dbd23e7abc03d404620899ee0ea8b684b9400d58d5ebe487e523680bbe8a0dd9ea1d312bca2a953ab51c9b);
  (Raw 0x480000000000360001c950000d7ee0e4a803c956d01c903d720dc8ad8b38dffaf50c100004c37ffffffe, Raw 0x0);
  (Raw 0x126c045c5430b340de6cfc4b5581fb0d18dcaebf6af44db7a152a66663b3a80589f3e116289c6dad4263f3d0dc4e535286d24be170ff5eff, Raw 0x391b0a66d5051f9dc03edc6dd6532b206552ace8f9d3ad1e6cf20e91fdd8dafbe2588102de9880e3520536be54398f85028eea5832d1b8a)].
Definition pluto_c6_2 : list (Z * Z) := [
  (0x1, 0x0);
  (0x93733692ce3cdcfc34610bac6bd22c4dc590efb038c82998c9549048e7b424cc00e17ffb4a61950d0ec132a7b38f09db0a818e422737f7c, 0x12cb19daadc92882ba3593aa6f3e6bf426f29bd46039e3036f61d0bd35f39ebecdac3209d9df546061c90b4940d9031c240ce398421dc7dc);
  (0x24000000000024000130e0000d7f28e4a803ca76be3924a5f43f8cddf9a5c4781b50d5e1ff708dc8d9fa5d8a200bc4398ffff80f80000002, 0x0);
  (0x85cc83a7eeba2ef5f7dd2f9f1405312b2ce0cbc85b8561e1657aaf1e85b82299aa5ace8b26b78d88f57e1c7a87f75556885980d6c8d2186, 0xda3357ee4e6a9836af75e8ec0dbd23e7abc03d404620899ee0ea8b684b9400d58d5ebe487e523680bbe8a0dd9ea1d312bca2a953ab51c9b);
  (0x480000000000360001c950000d7ee0e4a803c956d01c903d720dc8ad8b38dffaf50c100004c37ffffffe, 0x0);
  (0x126c045c5430b340de6cfc4b5581fb0d18dcaebf6af44db7a152a66663b3a80589f3e116289c6dad4263f3d0dc4e535286d24be170ff5eff, 0x391b0a66d5051f9dc03edc6dd6532b206552ace8f9d3ad1e6cf20e91fdd8dafbe2588102de9880e3520536be54398f85028eea5832d1b8a)].

(** src/pluto_eris/fp12.rs:42-253 *)
Definition pluto_c12_src : list (lit * lit) := [
  (Raw 0x1, Raw 0x0);
  (Raw 0x3c3ad3da8b99cb1df0709dc343113ccd9892dedd51f30695d89c647b90de8f41df055384b9e6cfd4e70648622c750f32ee965dfef2303d3, Raw 0x149fd9ed2c7affe7aaa3b912182da22dccb29838628f04b6f333d052540294889f03876b2ddb143559f9373f4cf44e6afa0be24ad758a5ff);
  (Raw 0x480000000000360001c950000d7ee0e4a803c956d01c903d720dc8ad8b38dffaf50c100004c37fffffff, Raw 0x0);
  (Raw 0x1baee9e044d94d205764b80089c40010af5ca1e56a2a81e6a5d8739325984fc889d390efef216fe4f4af912a897f60a128a3be71be4995ca, Raw 0x20d4c11700e832829b26f1795339413be65e47a7716bc8bc07cd6b44b03ef1130b3c35a77291b29d6f45d28e4ef1ecb9678f4479a1151232);
  (Raw 0x480000000000360001c950000d7ee0e4a803c956d01c903d720dc8ad8b38dffaf50c100004c37ffffffe, Raw 0x0);
  (Raw 0x17eb3ca29c1fb06e785dae245592ec43d5d373f7950b517d484ead4b6c8a66d46be33bb7a38302e7a63f2ca466b80fadf9ba5891cf2691f7, Raw 0xc34e729d46d329af08338673b0b9f0e19abaf6f0edcc40514999af25c3c5c8a6c38ae3c44b69e68154c9b4f01fd9e4e6d83622ec9bc6c33);
  (Raw 0x24000000000024000130e0000d7f70e4a803ca76f439266f443f9a5cda8a6c7be4a7a5fe8fadffd6a2a7e8c30006b9459ffffcd300000000, Raw 0x0);
  (Raw 0x203c52c25746874e2229d623d94e5d17ce7a9c891f19f605e6b5d415217c8387c6b750c6440f92d95437843cdd3f6852711696f310dcfc2e, Raw 0xf602612d3852418568d26edf551ceb6db51323e91aa21b8510bca0a8687d7f345a41e9361d2eba148aeb183b3126adaa5f41a8828a75a02);
  (Raw 0x24000000000024000130e0000d7f28e4a803ca76be3924a5f43f8cddf9a5c4781b50d5e1ff708dc8d9fa5d8a200bc4398ffff80f80000002, Raw 0x0);
  (Raw 0x851161fbb26d6dfa9cc27ff83bb70d3f8a728918a0ea4889e6726c9b4f21cb35ad4150ea08c8ff1adf85798768758a4775c3e6141b66a37, Raw 0x32b3ee8ff17f17d6609ee86ba462fa8c1a582cf82cd5db33c722f182a4b7b68d96b70571d1c4d3933621634b114cc8c3870b8595eeaedcf);
  (Raw 0x24000000000024000130e0000d7f28e4a803ca76be3924a5f43f8cddf9a5c4781b50d5e1ff708dc8d9fa5d8a200bc4398ffff80f80000003, Raw 0x0);
  (Raw 0xc14c35d63e0739188d331dbb7ec84a0d230567f5f2dd4f1fbf0ed116e0005a778c46a46ec2afceefc68bc1e994ea997a645a44130d96e0a, Raw 0x17cb18d62b92f16510ada798d273d1d68e581b07e55c626a2fa5ff6a7e4e0ff1786ef7c24af7616e8d5b4d73fe091af7327c9aa4364393ce)].
Definition pluto_c12 : list (Z * Z) := [
  (0x1, 0x0);
  (0x3c3ad3da8b99cb1df0709dc343113ccd9892dedd51f30695d89c647b90de8f41df055384b9e6cfd4e70648622c750f32ee965dfef2303d3, 0x149fd9ed2c7affe7aaa3b912182da22dccb29838628f04b6f333d052540294889f03876b2ddb143559f9373f4cf44e6afa0be24ad758a5ff);
  (0x480000000000360001c950000d7ee0e4a803c956d01c903d720dc8ad8b38dffaf50c100004c37fffffff, 0x0);
  (0x1baee9e044d94d205764b80089c40010af5ca1e56a2a81e6a5d8739325984fc889d390efef216fe4f4af912a897f60a128a3be71be4995ca, 0x20d4c11700e832829b26f1795339413be65e47a7716bc8bc07cd6b44b03ef1130b3c35a77291b29d6f45d28e4ef1ecb9678f4479a1151232);
  (0x480000000000360001c950000d7ee0e4a803c956d01c903d720dc8ad8b38dffaf50c100004c37ffffffe, 0x0);
  (0x17eb3ca29c1fb06e785dae245592ec43d5d373f7950b517d484ead4b6c8a66d46be33bb7a38302e7a63f2ca466b80fadf9ba5891cf2691f7, 0xc34e729d46d329af08338673b0b9f0e19abaf6f0edcc40514999af25c3c5c8a6c38ae3c44b69e68154c9b4f01fd9e4e6d83622ec9bc6c33);
  (0x24000000000024000130e0000d7f70e4a803ca76f439266f443f9a5cda8a6c7be4a7a5fe8fadffd6a2a7e8c30006b9459ffffcd300000000, 0x0);
  (0x203c52c25746874e2229d623d94e5d17ce7a9c891f19f605e6b5d415217c8387c6b750c6440f92d95437843cdd3f6852711696f310dcfc2e, 0xf602612d3852418568d26edf551ceb6db51323e91aa21b8510bca0a8687d7f345a41e9361d2eba148aeb183b3126adaa5f41a8828a75a02);
  (0x24000000000024000130e0000d7f28e4a803ca76be3924a5f43f8cddf9a5c4781b50d5e1ff708dc8d9fa5d8a200bc4398ffff80f80000002, 0x0);
  (0x851161fbb26d6dfa9cc27ff83bb70d3f8a728918a0ea4889e6726c9b4f21cb35ad4150ea08c8ff1adf85798768758a4775c3e6141b66a37, 0x32b3ee8ff17f17d6609ee86ba462fa8c1a582cf82cd5db33c722f182a4b7b68d96b70571d1c4d3933621634b114cc8c3870b8595eeaedcf);
  (0x24000000000024000130e0000d7f28e4a803ca76be3924a5f43f8cddf9a5c4781b50d5e1ff708dc8d9fa5d8a200bc4398ffff80f80000003, 0x0);
  (0xc14c35d63e0739188d331dbb7ec84a0d230567f5f2dd4f1fbf0ed116e0005a778c46a46ec2afceefc68bc1e994ea997a645a44130d96e0a, 0x17cb18d62b92f16510ada798d273d1d68e581b07e55c626a2fa5ff6a7e4e0ff1786ef7c24af7616e8d5b4d73fe091af7327c9aa4364393ce)].

(** src/pluto_eris/fp.rs:27-35 (beta = -5), src/pluto_eris/fp2.rs:51-71 (xi) *)
Definition pluto_tower : tower_conf := {|
  t_field := pluto_eris_fp; t_beta := -5; t_xi := (0xcdb6db6db6dc3b6dbda9924971b3a9ace4a7f2a7bcb449573cd928ee056022c3f6072240ebe2483833bf7b35b701d98ddb6da4b5b6db6e8, 0x7b6db6db6db756db71cc2492776bcc3489319197d79f5f3457b57ef5366ce1a8c6d1148d5a5491bb523fb0536dcde8eeb6db62d36db6db3);
  t_c6_1 := pluto_c6_1; t_c6_2 := pluto_c6_2; t_c12 := pluto_c12 |}.

(** ** The towers over a base field [o] with reduction map [inj] *)
Section Instances.
Context {F : Type} (o : fops F) (inj : Z -> F).
Definition inj2 (c : Z * Z) : quad F := mk_quad (inj (fst c)) (inj (snd c)).
Definition tower_frob6 (t : tower_conf) (o2 : fops (quad F)) :=
  fq6_frobenius o2 (fq2_frobenius o) (map inj2 (t_c6_1 t)) (map inj2 (t_c6_2 t)).
Definition tower_frob12 (t : tower_conf) (o2 : fops (quad F)) :=
  fq12_frobenius o2 (fq2_frobenius o) (map inj2 (t_c6_1 t)) (map inj2 (t_c6_2 t)) (map inj2 (t_c12 t)).

(** bn256: src/bn256/fq2.rs, fq6.rs, fq12.rs *)
Definition bn256_fq2 := fq2_ops o.
Definition bn256_fq6 := fq6_ops bn256_fq2 (bn256_fq2_mnr o).
Definition bn256_fq12 := fq12_ops bn256_fq2 (bn256_fq2_mnr o).
(** bls12-381: src/bls12381/fq2.rs, fq6.rs, fq12.rs *)
Definition bls_fq2 := fq2_ops o.
Definition bls_fq6 := fq6_ops bls_fq2 (bls_fq2_mnr o).
Definition bls_fq12 := fq12_ops bls_fq2 (bls_fq2_mnr o).
(** pluto: src/pluto_eris/fp2.rs, fp6.rs, fp12.rs *)
Definition pluto_fp2 := fp2_ops o.
Definition pluto_mnr := default_mnr pluto_fp2 (inj2 (t_xi pluto_tower)).
Definition pluto_fp6 := fq6_ops pluto_fp2 pluto_mnr.
Definition pluto_fp12 := fq12_ops pluto_fp2 pluto_mnr.
End Instances.
