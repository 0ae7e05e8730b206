(** Constants of the hash-to-curve suites (generated from the Rust literals; see
    TowerParams.v for the two kinds of literals).  H2cInst.v checks the values
    against [*_src]. *)
From Verif Require Import Base Algebra Word Field Params Tower TowerParams.

(** [SSWU_Z], the coefficients of the isogenous curve and the coefficient arrays
    of the isogeny. *)
Record sswu_consts (K : Type) := { sw_z : K; sw_a : K; sw_b : K; sw_iso : list (list K) }.
Arguments sw_z {K}. Arguments sw_a {K}. Arguments sw_b {K}. Arguments sw_iso {K}.

(** src/secp256k1/curve.rs: SSWU_Z (line 70), ISO_SECP_A (line 81), ISO_SECP_B (line 88), K (line 111) *)
Definition secp256k1_sswu_src : list (lit * lit) := [
  (Raw 0xfffffffffffffffffffffffffffffffffffffffffffffffffffffffefffffc24, Raw 0x0);
  (Raw 0x3f8731abdd661adca08a5558f0f5d272e953d363cb6f0e5d405447c01a444533, Raw 0x0);
  (Raw 0x6eb, Raw 0x0);
  (Raw 0x0, Raw 0x0);
  (Raw 0x0, Raw 0x0);
  (Raw 0x0, Raw 0x0);
  (Raw 0x0, Raw 0x0);
  (Raw 0x8e38e38e38e38e38e38e38e38e38e38e38e38e38e38e38e38e38e38daaaaa8c7, Raw 0x0);
  (Raw 0x7d3d4c80bc321d5b9f315cea7fd44c5d595d2fc0bf63b92dfff1044f17c6581, Raw 0x0);
  (Raw 0x534c328d23f234e6e2a413deca25caece4506144037c40314ecbd0b53d9dd262, Raw 0x0);
  (Raw 0x8e38e38e38e38e38e38e38e38e38e38e38e38e38e38e38e38e38e38daaaaa88c, Raw 0x0);
  (Raw 0xd35771193d94918a9ca34ccbb7b640dd86cd409542f8487d9fe6b745781eb49b, Raw 0x0);
  (Raw 0xedadc6f64383dc1df7c4b2d51b54225406d36b641f5e41bbc52a56612a8c6d14, Raw 0x0);
  (Raw 0x0, Raw 0x0);
  (Raw 0x0, Raw 0x0);
  (Raw 0x4bda12f684bda12f684bda12f684bda12f684bda12f684bda12f684b8e38e23c, Raw 0x0);
  (Raw 0xc75e0c32d5cb7c0fa9d0a54b12a0a6d5647ab046d686da6fdffc90fc201d71a3, Raw 0x0);
  (Raw 0x29a6194691f91a73715209ef6512e576722830a201be2018a765e85a9ecee931, Raw 0x0);
  (Raw 0x2f684bda12f684bda12f684bda12f684bda12f684bda12f684bda12f38e38d84, Raw 0x0);
  (Raw 0xfffffffffffffffffffffffffffffffffffffffffffffffffffffffefffff93b, Raw 0x0);
  (Raw 0x7a06534bb8bdb49fd5e9e6632722c2989467c1bfc8e8d978dfb425d2685c2573, Raw 0x0);
  (Raw 0x6484aa716545ca2cf3a70c3fa8fe337e0a3d21162f0d6299a7bf8192bfd2a76f, Raw 0x0);
  (Raw 0x0, Raw 0x0)].
Definition secp256k1_sswu : sswu_consts Z := {|
  sw_z := 0xfffffffffffffffffffffffffffffffffffffffffffffffffffffffefffffc24;
  sw_a := 0x3f8731abdd661adca08a5558f0f5d272e953d363cb6f0e5d405447c01a444533;
  sw_b := 0x6eb;
  sw_iso := [[0x0;
     0x0;
     0x0;
     0x0];
    [0x8e38e38e38e38e38e38e38e38e38e38e38e38e38e38e38e38e38e38daaaaa8c7;
     0x7d3d4c80bc321d5b9f315cea7fd44c5d595d2fc0bf63b92dfff1044f17c6581;
     0x534c328d23f234e6e2a413deca25caece4506144037c40314ecbd0b53d9dd262;
     0x8e38e38e38e38e38e38e38e38e38e38e38e38e38e38e38e38e38e38daaaaa88c];
    [0xd35771193d94918a9ca34ccbb7b640dd86cd409542f8487d9fe6b745781eb49b;
     0xedadc6f64383dc1df7c4b2d51b54225406d36b641f5e41bbc52a56612a8c6d14;
     0x0;
     0x0];
    [0x4bda12f684bda12f684bda12f684bda12f684bda12f684bda12f684b8e38e23c;
     0xc75e0c32d5cb7c0fa9d0a54b12a0a6d5647ab046d686da6fdffc90fc201d71a3;
     0x29a6194691f91a73715209ef6512e576722830a201be2018a765e85a9ecee931;
     0x2f684bda12f684bda12f684bda12f684bda12f684bda12f684bda12f38e38d84];
    [0xfffffffffffffffffffffffffffffffffffffffffffffffffffffffefffff93b;
     0x7a06534bb8bdb49fd5e9e6632722c2989467c1bfc8e8d978dfb425d2685c2573;
     0x6484aa716545ca2cf3a70c3fa8fe337e0a3d21162f0d6299a7bf8192bfd2a76f;
     0x0]] |}.

(** src/secp256r1/curve.rs: SSWU_Z (line 82), SECP_A (line 45), SECP_B (line 51) *)
Definition secp256r1_sswu_src : list (lit * lit) := [
  (Raw 0xffffffff00000001000000000000000000000000fffffffffffffffffffffff5, Raw 0x0);
  (Raw 0xffffffff00000001000000000000000000000000fffffffffffffffffffffffc, Raw 0x0);
  (Raw 0x5ac635d8aa3a93e7b3ebbd55769886bc651d06b0cc53b0f63bce3c3e27d2604b, Raw 0x0)].
Definition secp256r1_sswu : sswu_consts Z := {|
  sw_z := 0xffffffff00000001000000000000000000000000fffffffffffffffffffffff5;
  sw_a := 0xffffffff00000001000000000000000000000000fffffffffffffffffffffffc;
  sw_b := 0x5ac635d8aa3a93e7b3ebbd55769886bc651d06b0cc53b0f63bce3c3e27d2604b;
  sw_iso := [] |}.

(** src/bls12381/g1.rs: SSWU_Z (line 95), ISO_A (line 97), ISO_B (line 106), ISO11_XNUM (line 239), ISO11_XDEN (line 339), ISO11_YNUM (line 431), ISO11_YDEN (line 563) *)
Definition bls_g1_sswu_src : list (lit * lit) := [
  (Raw 0xb, Raw 0x0);
  (Mont 0x155455c3e5071d8528376eda6bfc183527e11c91b5f24e7cb85ce591b7bd31e286464c2d1e8416c32f65aa0e9af5aa51, Raw 0x0);
  (Mont 0x6824061418a386bca72b5e45a52d888873e27c3a221e5718c476013de99c5c49aa93eb35b742d6ffb996971fe22a1e0, Raw 0x0);
  (Raw 0x913be200a20bef4d15b58d2ffc0005423dcea34f2ffb3043f2885f1467f19ae19fa219793fee28c4d18b6f3af00131c, Raw 0x0);
  (Raw 0x7097bc5998784ad11b22deed20d827b8637ef1e4d6623ad1597e193f4cd233a3c79e43cc7d966aa898985385cdbbd8b, Raw 0x0);
  (Raw 0x784151ed7605524df6e99707d2a00795b5491c05102f0e75ba2ef314ed8b5a6fc7169c026e568c6a542583a480b664b, Raw 0x0);
  (Raw 0xe93d431ea011aeb65dadd7828505289049dfee82aefbd6026f5577994e34c3dab9be52fbda43021494e212870f72741, Raw 0x0);
  (Raw 0x9f20ead8e532bf6169139d319ea7a8f104c24211be4805c0f1a8953b325f4647ada1c8a41bfb18590ee774bd6a74d45, Raw 0x0);
  (Raw 0x18f4bfcbb4368929b0282d480e56489f2e0a94ccf77ec0db143245631883f4bda5482c9aa1ccd7bd6ddd93e2f43626b7, Raw 0x0);
  (Raw 0x1277ffc72f25e8feffd89869a572b297d0df5c98e1f9d70f2c390d3d2da5df637a43ff6958ce4fe923c5f0c953402dfd, Raw 0x0);
  (Raw 0x8b76279f621d028bba074f260e400f1e2a57f6505880d6512da3054b18b641085f894a88030fd8179f4f0490f06a8a6, Raw 0x0);
  (Raw 0x9e699dd9adfa5ac05a69cdcef55feeee21585b9a30f86cb7888bff6e6b33bb48456ba9a1f186475e67245ba78d5b00b, Raw 0x0);
  (Raw 0x98c4bf7de8b63750443915f50fd41798ad456574e9db24fe256bb67b3b3cd8d0a0db4ae6b1a10b20de5c357bff57107, Raw 0x0);
  (Raw 0x54fdf4bbf1d821c4a51d8667f0fe1cfe4efd1ad3f767ceb1dafdeda137a489efe6e37d442537375e6b0617e7dd929c7, Raw 0x0);
  (Raw 0x18ae6a856f40715db14f01aadb30be2f464170142a1009ebe969d6833764ab478abf91faa257b3d572db2a50658d767b, Raw 0x0);
  (Raw 0x165aa6c93ad115f9c0b3ac929599016b43fc37b908b133ec14d568c3ed6c544a6a9740fefda13a0b962a077fdb0f945, Raw 0x0);
  (Raw 0x83383d6ed81f1ceed4530924cec2045116dda1c5070ae933b294ab13755f0ff92cfca0a9465176a23279a3ba506c1d9, Raw 0x0);
  (Raw 0xf29c13c660523e2ff364f36e54b6812a0fba72732b3fafd17da9ffd8738c1424a2b54ccd37733f09885c2a6449fecfc, Raw 0x0);
  (Raw 0x12025184f407440c1c2c7844bc417be443a92bd69c15c2dfc9d325849ade5150d487228f2f3204fbe349cc118278f041, Raw 0x0);
  (Raw 0x13b93c63edf6c0157408904f0f186bb2ccda066072436a42fbf995e71270da491444ef325140201f587f65ae6acb057b, Raw 0x0);
  (Raw 0x6cc402dd594bbebaeedd424d780f38830f94df6f83a3dc20beb232927f7fb264a4c64423ecaddb4fb918622cd141920, Raw 0x0);
  (Raw 0xc6f7f7237b466066933a38d5b594c81df70a9a1f757c6e464f436e888c62cb932a92465435719b3d41f761151b23f8f, Raw 0x0);
  (Raw 0x17916987aa14a122bc6be2d8dad57c2389bc62d61c7baf238e9071dab950c12422c9850bf9cf80f0693c08747876c8f7, Raw 0x0);
  (Raw 0xc102cbac531bb34bbc2ee18e1c227f432c6aa9af394361cc7f7f62962f5cd819965243a7571dfa71be3ff439c1316fd, Raw 0x0);
  (Raw 0x12a6dcd7f0f4e0e816178f5bbf698711ca2b066c2a87492f5b8c95fc14353fc361f86372b99192c0997614c97bacbf07, Raw 0x0);
  (Raw 0x15f65ec3fa80e4935c071a97a256ec6d77ce5853705257455f48985753c758baebf4000bc40c0002760900000002fffd, Raw 0x0);
  (Raw 0xd300744d42a03107d7b18a682692693cc31a30a0b6cd3dfce028fea04bd73731d4d9e57b958a7672b567ff3e2837267, Raw 0x0);
  (Raw 0xa8dadd9c2414555706326a6957dd5a414e03832052b49c85df0608b8f97608afe7f53cc4874f87899c2555fa542493f, Raw 0x0);
  (Raw 0x13f70bf38bbf290583d0c7532f8c1fde0000bd1de7ba50f0cf05a27c8456088d357e33e36e261e7d13d942922a5cf63a, Raw 0x0);
  (Raw 0xbb6cde49d8ba257b3468f4550192bf7afe19ff6f97e6d533983ceb4f6360b6d28a359a65e5417075c57fd95bfafbdbb, Raw 0x0);
  (Raw 0x386213c651b888d64eace4cb09821916ddf84a095713d5f6bef32ce94b8a800314b4ce372cacefd590b62c7ff8a513f, Raw 0x0);
  (Raw 0x1fddf5aed881793cf5b1f022e1c9107aa6ec095283ee4a7f9ad9cc95423d2e9a14ac0f5da148982a5310a31111bbcdd, Raw 0x0);
  (Raw 0x7eb1b29c1dfde1fba12961be86e9efb05b2d36c769a89b0c2fcebe7cb877dbde25c2d8183473a1965a572b0d7a7d950, Raw 0x0);
  (Raw 0xad52ba3e6695a79f4fa918082e44d64a47da89439f5340f8569467e68af51b5364e92907679509193e09572f7c4cd24, Raw 0x0);
  (Raw 0x149c9c326a5e7393a90ed5adf1ed5537fa86d2a3a9a734823d587e5640536e66d03f51a3516bb233911429844e0d5f54, Raw 0x0);
  (Raw 0x1862bd62c291dacb8100e1652b3cdc62649ef8f11a4fae469a558ebde836ebeddc9af5fa0a274a17462bbeb03c12921a, Raw 0x0);
  (Raw 0x12c7e1c3b28962e5bb1d0d53af3ff6bf14665bdd8846e19d6a643d5a6879fa2c0194160fa9b9ac4f05c9b8ca89f12c26, Raw 0x0);
  (Raw 0x2419f98165871a4389547f2334a53910dfbd15dc41a594d1f07db10ea1a4df4fedc77ec1a9201c4b55ebf900b8a3e17, Raw 0x0);
  (Raw 0xd2d7b829ce324d28346fe421f96bb1301458ef0159ebbef7c763e17763a06528e563e9d1ea6d0f5b416af000745fc20, Raw 0x0);
  (Raw 0x46959cfcfd0bf49724b136c4cf2d9faf563e63704f7092f8f66b3ea59514fa46f2a2619951d823a93096bb538d64615, Raw 0x0);
  (Raw 0x1017290919210e5f07f897e267a33f1ba06731f1d2bbe1ee41064965946d9b5991e9079c2c02d58fea748d4b6e405346, Raw 0x0);
  (Raw 0x106d87d1b51d13b9c4b92d15db8acca854759078e5be683807afe37afff55002eecc53161264562a872aa6c17d985097, Raw 0x0);
  (Raw 0xa8b981ee47691f152f45700b70d5c69723e71dcc5fc1323ddfa71a0889d5b7e18ef5f8a10634d60eb6c359d47e52b1c, Raw 0x0);
  (Raw 0xfadeff77b6bfe3e6a33dca5235607763e50dffea3c62658f25f4cc5e35c65da6f5f037395dbd911616a3c4f5535b9fb, Raw 0x0);
  (Raw 0x1c2a7a256fe9c4104fe8bb2b8d81af4b6634a652ee5884d115dbe7ad10c2a3724a2c159a3d367422be9b66df470059c, Raw 0x0);
  (Raw 0x11037cd58b3dbfbd59b0c17f7631448ac8e0bbd6fe11080624482e6b8c2f4e5f898b367476c9073ff27bf8ef3b75a386, Raw 0x0);
  (Raw 0x44393bb632d94fbb1cce69b6aa9ad9a3cae528fbee9a2a4d30d4fe3ba86fdb11dbf6f1c5fcdb70031c7912ea267eec6, Raw 0x0);
  (Raw 0x96c3a09773272d40e49df01d942a628104fc1aafb0919cc71b1a4d2f119981d9824c289dd72bb55c66ef6efeeb5c7e8, Raw 0x0);
  (Raw 0xc81d4645f4cb6edd466a75599ce728ec4b76271ea6506b3fb1fa3721569734c32dca50a885728f09abc11eb5fadeff4, Raw 0x0);
  (Raw 0xd3378023e4c7406f08d33680a2374659e9efb24aa6424c6cb353efe9b33e4ffda64e495b1e879304199f10e5b8be45b, Raw 0x0);
  (Raw 0xef3c33371e2fdb5564c2935a96bfa9303bfd9cca75cbdeb5be603899e907687c341b4aa9fac34977eb4ae92ec74d3a5, Raw 0x0);
  (Raw 0xd22d5a40cec7cff6cb95e0fa776aeadd0fda172174ed023773a8ca5196b1380e5d5bd5cb9357a307ee91fd449f6ac2e, Raw 0x0);
  (Raw 0x467ffaef23fc49efce95ebdeb5b490a178419613d90d8f87549d8bd057894aedc9d55a83017897bf727e09285fd8519, Raw 0x0);
  (Raw 0x116aefa749127bff828e0f1e772a53cd6e20829e5c230c455461c75a23ede3b579bc930deac01c03c1769e6a7c385f1b, Raw 0x0);
  (Raw 0x189e5fe4470cd73cb9000209d5bd08d3fc009d4996dc5153a0ecf39ef026f602bbf18d053a6a3154101c10bf2744c10a, Raw 0x0);
  (Raw 0x13dddbc4799d81d698738983c2107ff3b0a1ba04228520cc57b2b625b6d4ca21e47d5a981d081b557ebd546ca1575ed2, Raw 0x0);
  (Raw 0xef9c24eccaf5e0efb95832e7d78742efd04e3dfc608646755ba77a9a2f76493039e952cbdb05c2109319f2e39834935, Raw 0x0);
  (Raw 0x15f65ec3fa80e4935c071a97a256ec6d77ce5853705257455f48985753c758baebf4000bc40c0002760900000002fffd, Raw 0x0)].
Definition bls_g1_sswu : sswu_consts Z := {|
  sw_z := 0xb;
  sw_a := 0x144698a3b8e9433d693a02c96d4982b0ea985383ee66a8d8e8981aefd881ac98936f8da0e0f97f5cf428082d584c1d;
  sw_b := 0x12e2908d11688030018b12e8753eee3b2016c1f0f24f4070a0b9c14fcef35ef55a23215a316ceaa5d1cc48e98e172be0;
  sw_iso := [[0x913be200a20bef4d15b58d2ffc0005423dcea34f2ffb3043f2885f1467f19ae19fa219793fee28c4d18b6f3af00131c;
     0x7097bc5998784ad11b22deed20d827b8637ef1e4d6623ad1597e193f4cd233a3c79e43cc7d966aa898985385cdbbd8b;
     0x784151ed7605524df6e99707d2a00795b5491c05102f0e75ba2ef314ed8b5a6fc7169c026e568c6a542583a480b664b;
     0xe93d431ea011aeb65dadd7828505289049dfee82aefbd6026f5577994e34c3dab9be52fbda43021494e212870f72741;
     0x9f20ead8e532bf6169139d319ea7a8f104c24211be4805c0f1a8953b325f4647ada1c8a41bfb18590ee774bd6a74d45;
     0x18f4bfcbb4368929b0282d480e56489f2e0a94ccf77ec0db143245631883f4bda5482c9aa1ccd7bd6ddd93e2f43626b7;
     0x1277ffc72f25e8feffd89869a572b297d0df5c98e1f9d70f2c390d3d2da5df637a43ff6958ce4fe923c5f0c953402dfd;
     0x8b76279f621d028bba074f260e400f1e2a57f6505880d6512da3054b18b641085f894a88030fd8179f4f0490f06a8a6;
     0x9e699dd9adfa5ac05a69cdcef55feeee21585b9a30f86cb7888bff6e6b33bb48456ba9a1f186475e67245ba78d5b00b;
     0x98c4bf7de8b63750443915f50fd41798ad456574e9db24fe256bb67b3b3cd8d0a0db4ae6b1a10b20de5c357bff57107;
     0x54fdf4bbf1d821c4a51d8667f0fe1cfe4efd1ad3f767ceb1dafdeda137a489efe6e37d442537375e6b0617e7dd929c7;
     0x18ae6a856f40715db14f01aadb30be2f464170142a1009ebe969d6833764ab478abf91faa257b3d572db2a50658d767b];
    [0x165aa6c93ad115f9c0b3ac929599016b43fc37b908b133ec14d568c3ed6c544a6a9740fefda13a0b962a077fdb0f945;
     0x83383d6ed81f1ceed4530924cec2045116dda1c5070ae933b294ab13755f0ff92cfca0a9465176a23279a3ba506c1d9;
     0xf29c13c660523e2ff364f36e54b6812a0fba72732b3fafd17da9ffd8738c1424a2b54ccd37733f09885c2a6449fecfc;
     0x12025184f407440c1c2c7844bc417be443a92bd69c15c2dfc9d325849ade5150d487228f2f3204fbe349cc118278f041;
     0x13b93c63edf6c0157408904f0f186bb2ccda066072436a42fbf995e71270da491444ef325140201f587f65ae6acb057b;
     0x6cc402dd594bbebaeedd424d780f38830f94df6f83a3dc20beb232927f7fb264a4c64423ecaddb4fb918622cd141920;
     0xc6f7f7237b466066933a38d5b594c81df70a9a1f757c6e464f436e888c62cb932a92465435719b3d41f761151b23f8f;
     0x17916987aa14a122bc6be2d8dad57c2389bc62d61c7baf238e9071dab950c12422c9850bf9cf80f0693c08747876c8f7;
     0xc102cbac531bb34bbc2ee18e1c227f432c6aa9af394361cc7f7f62962f5cd819965243a7571dfa71be3ff439c1316fd;
     0x12a6dcd7f0f4e0e816178f5bbf698711ca2b066c2a87492f5b8c95fc14353fc361f86372b99192c0997614c97bacbf07;
     0x15f65ec3fa80e4935c071a97a256ec6d77ce5853705257455f48985753c758baebf4000bc40c0002760900000002fffd];
    [0xd300744d42a03107d7b18a682692693cc31a30a0b6cd3dfce028fea04bd73731d4d9e57b958a7672b567ff3e2837267;
     0xa8dadd9c2414555706326a6957dd5a414e03832052b49c85df0608b8f97608afe7f53cc4874f87899c2555fa542493f;
     0x13f70bf38bbf290583d0c7532f8c1fde0000bd1de7ba50f0cf05a27c8456088d357e33e36e261e7d13d942922a5cf63a;
     0xbb6cde49d8ba257b3468f4550192bf7afe19ff6f97e6d533983ceb4f6360b6d28a359a65e5417075c57fd95bfafbdbb;
     0x386213c651b888d64eace4cb09821916ddf84a095713d5f6bef32ce94b8a800314b4ce372cacefd590b62c7ff8a513f;
     0x1fddf5aed881793cf5b1f022e1c9107aa6ec095283ee4a7f9ad9cc95423d2e9a14ac0f5da148982a5310a31111bbcdd;
     0x7eb1b29c1dfde1fba12961be86e9efb05b2d36c769a89b0c2fcebe7cb877dbde25c2d8183473a1965a572b0d7a7d950;
     0xad52ba3e6695a79f4fa918082e44d64a47da89439f5340f8569467e68af51b5364e92907679509193e09572f7c4cd24;
     0x149c9c326a5e7393a90ed5adf1ed5537fa86d2a3a9a734823d587e5640536e66d03f51a3516bb233911429844e0d5f54;
     0x1862bd62c291dacb8100e1652b3cdc62649ef8f11a4fae469a558ebde836ebeddc9af5fa0a274a17462bbeb03c12921a;
     0x12c7e1c3b28962e5bb1d0d53af3ff6bf14665bdd8846e19d6a643d5a6879fa2c0194160fa9b9ac4f05c9b8ca89f12c26;
     0x2419f98165871a4389547f2334a53910dfbd15dc41a594d1f07db10ea1a4df4fedc77ec1a9201c4b55ebf900b8a3e17;
     0xd2d7b829ce324d28346fe421f96bb1301458ef0159ebbef7c763e17763a06528e563e9d1ea6d0f5b416af000745fc20;
     0x46959cfcfd0bf49724b136c4cf2d9faf563e63704f7092f8f66b3ea59514fa46f2a2619951d823a93096bb538d64615;
     0x1017290919210e5f07f897e267a33f1ba06731f1d2bbe1ee41064965946d9b5991e9079c2c02d58fea748d4b6e405346;
     0x106d87d1b51d13b9c4b92d15db8acca854759078e5be683807afe37afff55002eecc53161264562a872aa6c17d985097];
    [0xa8b981ee47691f152f45700b70d5c69723e71dcc5fc1323ddfa71a0889d5b7e18ef5f8a10634d60eb6c359d47e52b1c;
     0xfadeff77b6bfe3e6a33dca5235607763e50dffea3c62658f25f4cc5e35c65da6f5f037395dbd911616a3c4f5535b9fb;
     0x1c2a7a256fe9c4104fe8bb2b8d81af4b6634a652ee5884d115dbe7ad10c2a3724a2c159a3d367422be9b66df470059c;
     0x11037cd58b3dbfbd59b0c17f7631448ac8e0bbd6fe11080624482e6b8c2f4e5f898b367476c9073ff27bf8ef3b75a386;
     0x44393bb632d94fbb1cce69b6aa9ad9a3cae528fbee9a2a4d30d4fe3ba86fdb11dbf6f1c5fcdb70031c7912ea267eec6;
     0x96c3a09773272d40e49df01d942a628104fc1aafb0919cc71b1a4d2f119981d9824c289dd72bb55c66ef6efeeb5c7e8;
     0xc81d4645f4cb6edd466a75599ce728ec4b76271ea6506b3fb1fa3721569734c32dca50a885728f09abc11eb5fadeff4;
     0xd3378023e4c7406f08d33680a2374659e9efb24aa6424c6cb353efe9b33e4ffda64e495b1e879304199f10e5b8be45b;
     0xef3c33371e2fdb5564c2935a96bfa9303bfd9cca75cbdeb5be603899e907687c341b4aa9fac34977eb4ae92ec74d3a5;
     0xd22d5a40cec7cff6cb95e0fa776aeadd0fda172174ed023773a8ca5196b1380e5d5bd5cb9357a307ee91fd449f6ac2e;
     0x467ffaef23fc49efce95ebdeb5b490a178419613d90d8f87549d8bd057894aedc9d55a83017897bf727e09285fd8519;
     0x116aefa749127bff828e0f1e772a53cd6e20829e5c230c455461c75a23ede3b579bc930deac01c03c1769e6a7c385f1b;
     0x189e5fe4470cd73cb9000209d5bd08d3fc009d4996dc5153a0ecf39ef026f602bbf18d053a6a3154101c10bf2744c10a;
     0x13dddbc4799d81d698738983c2107ff3b0a1ba04228520cc57b2b625b6d4ca21e47d5a981d081b557ebd546ca1575ed2;
     0xef9c24eccaf5e0efb95832e7d78742efd04e3dfc608646755ba77a9a2f76493039e952cbdb05c2109319f2e39834935;
     0x15f65ec3fa80e4935c071a97a256ec6d77ce5853705257455f48985753c758baebf4000bc40c0002760900000002fffd]] |}.

(** src/bls12381/g2.rs: SSWU_Z (line 229), ISO_A (line 248), ISO_B (line 260), ISO3_XNUM (line 433), ISO3_XDEN (line 495), ISO3_YNUM (line 529), ISO3_YDEN (line 591) *)
Definition bls_g2_sswu_src : list (lit * lit) := [
  (Mont 0x815664c7dfe040dde291a3d41e980d3d951e663066576f40fd0749345d33ad2656fffe5da8ffffa87ebfffffff9555c, Mont 0x40ab3263eff0206ef148d1ea0f4c069eca8f3318332bb7a07e83a49a2e99d6932b7fff2ed47fffd43f5fffffffcaaae);
  (Raw 0x0, Mont 0x1220b4e979ea546702d6985717c744ab0b51375126310601e7889edbe340f6bd01080c0fdef80285e53a000003135242);
  (Mont 0x125cdb5e74dc4fd13dd3a569412c0a3475bf3c53a79473ba6e1b94403db5a66e6ec832df71380aa422ea00000cf89db2, Mont 0x125cdb5e74dc4fd13dd3a569412c0a3475bf3c53a79473ba6e1b94403db5a66e6ec832df71380aa422ea00000cf89db2);
  (Mont 0x13808f550920ea41c54516acc8d037f6048103ea9e6cd0627c80cd2af3fd71a206dd57071206393e47f671c71ce05e62, Mont 0x13808f550920ea41c54516acc8d037f6048103ea9e6cd0627c80cd2af3fd71a206dd57071206393e47f671c71ce05e62);
  (Raw 0x0, Mont 0xac73310a7fd5abd2836cda7028cabc521c28884088749456a6b4619b26ef918873fffdd236aaaa35fe55555554c71d0);
  (Mont 0x149d7861e581393bb70040e2c20556f4d3960742ef416e1cb1fb2f941d797997db0c00101f9eaaae0a0c5555555971c3, Mont 0x563998853fead5e941b66d3814655e290e144420443a4a2b535a30cd9377c8c439fffee91b55551aff2aaaaaaa638e8);
  (Mont 0x198e1a74328002d2696eb479f885d059d86485d4c87f6fb1d817050a8f41abc3190955557a84e38e40aac71c71c725ed, Raw 0x0);
  (Raw 0x0, Mont 0x4f69db13f39a95203977bc86095b0893e6427366f8cec18ca3757cb3819b208f25bfc611da3ff3e1f3affffff13ab97);
  (Mont 0x381be097f0bb4e16140b1fcfb1e54b7b10330b7c0a95bc66f7ee9ce4a6e8b59dcb8009a43480020447600000027552e, Mont 0x167f53e0ba7431b8e9daf5b9482d581fb3741acd32dbb6f8f7b1e8d2ac426aca41f3ff646e0bffdf7588ffffffd8557d);
  (Raw 0x1, Raw 0x0);
  (Mont 0x8c8055e31c5d5c30fd2e39eada3eba957cb23ecfae804e1184a88ff379652fdb530e4f43b66d0e296d8f684bdfc77be, Mont 0x8c8055e31c5d5c30fd2e39eada3eba957cb23ecfae804e1184a88ff379652fdb530e4f43b66d0e296d8f684bdfc77be);
  (Raw 0x0, Mont 0xc7d13420b09807f02c3b2b2d2938e86a27aa27b1d1a18d59d82f98e5f205aee4d6d55d28b7638fdbf0a71c71c91b406);
  (Mont 0x2b1ccc429ff56af4a0db369c0a32af14870a2210221d2515a9ad1866c9bbe4621cffff748daaaa8d7f9555555531c74, Mont 0x174f45260f808feb010df44c82a881e61c06a963f163406e0c96011a8a1537ddfcdc000768795556e205aaaaaaac8e37);
  (Mont 0x117c5e6e28aa905427f6c0e2f07467641c55c9935b5a982ec9d3d0f2c6f0678dc0fe38e23327b425a470bda12f67f35c, Raw 0x0);
  (Mont 0x3c6a03d41da1151ca713efc0036766011e19fc1a9c875d5561b3c2259e936118f7bea480083fb750162fffffa765adf, Mont 0x3c6a03d41da1151ca713efc0036766011e19fc1a9c875d5561b3c2259e936118f7bea480083fb750162fffffa765adf);
  (Raw 0x0, Mont 0xee3d913bdacfbf60ac6735921c1119bbb2c75a34ea6c44a5ea60761a84d161ad713f52358ebfdba5db0fffffd3b02c5);
  (Mont 0x5429d0e3e918f5211e10afb78ad7f138984c913a0fe09a9a73e5eb56fa5d106cb1400e764ec003066b10000003affc5, Mont 0x14be74dbfaee5748393a9cbaca9e2dc3daf2827152870915bff273eb870b251d5397ff174c67ffcf534dffffffc4aae6);
  (Raw 0x1, Raw 0x0)].
Definition bls_g2_sswu : sswu_consts (Z * Z) := {|
  sw_z := (0x1a0111ea397fe69a4b1ba7b6434bacd764774b84f38512bf6730d2a0f6b0f6241eabfffeb153ffffb9feffffffffaaa9, 0x1a0111ea397fe69a4b1ba7b6434bacd764774b84f38512bf6730d2a0f6b0f6241eabfffeb153ffffb9feffffffffaaaa);
  sw_a := (0x0, 0xf0);
  sw_b := (0x3f4, 0x3f4);
  sw_iso := [[(0x5c759507e8e333ebb5b7a9a47d7ed8532c52d39fd3a042a88b58423c50ae15d5c2638e343d9c71c6238aaaaaaaa97d6, 0x5c759507e8e333ebb5b7a9a47d7ed8532c52d39fd3a042a88b58423c50ae15d5c2638e343d9c71c6238aaaaaaaa97d6);
     (0x0, 0x11560bf17baa99bc32126fced787c88f984f87adf7ae0c7f9a208c6b4f20a4181472aaa9cb8d555526a9ffffffffc71a);
     (0x11560bf17baa99bc32126fced787c88f984f87adf7ae0c7f9a208c6b4f20a4181472aaa9cb8d555526a9ffffffffc71e, 0x8ab05f8bdd54cde190937e76bc3e447cc27c3d6fbd7063fcd104635a790520c0a395554e5c6aaaa9354ffffffffe38d);
     (0x171d6541fa38ccfaed6dea691f5fb614cb14b4e7f4e810aa22d6108f142b85757098e38d0f671c7188e2aaaaaaaa5ed1, 0x0)];
    [(0x0, 0x1a0111ea397fe69a4b1ba7b6434bacd764774b84f38512bf6730d2a0f6b0f6241eabfffeb153ffffb9feffffffffaa63);
     (0xc, 0x1a0111ea397fe69a4b1ba7b6434bacd764774b84f38512bf6730d2a0f6b0f6241eabfffeb153ffffb9feffffffffaa9f);
     (0x1, 0x0)];
    [(0x1530477c7ab4113b59a4c18b076d11930f7da5d4a07f649bf54439d87d27e500fc8c25ebf8c92f6812cfc71c71c6d706, 0x1530477c7ab4113b59a4c18b076d11930f7da5d4a07f649bf54439d87d27e500fc8c25ebf8c92f6812cfc71c71c6d706);
     (0x0, 0x5c759507e8e333ebb5b7a9a47d7ed8532c52d39fd3a042a88b58423c50ae15d5c2638e343d9c71c6238aaaaaaaa97be);
     (0x11560bf17baa99bc32126fced787c88f984f87adf7ae0c7f9a208c6b4f20a4181472aaa9cb8d555526a9ffffffffc71c, 0x8ab05f8bdd54cde190937e76bc3e447cc27c3d6fbd7063fcd104635a790520c0a395554e5c6aaaa9354ffffffffe38f);
     (0x124c9ad43b6cf79bfbf7043de3811ad0761b0f37a1e26286b0e977c69aa274524e79097a56dc4bd9e1b371c71c718b10, 0x0)];
    [(0x1a0111ea397fe69a4b1ba7b6434bacd764774b84f38512bf6730d2a0f6b0f6241eabfffeb153ffffb9feffffffffa8fb, 0x1a0111ea397fe69a4b1ba7b6434bacd764774b84f38512bf6730d2a0f6b0f6241eabfffeb153ffffb9feffffffffa8fb);
     (0x0, 0x1a0111ea397fe69a4b1ba7b6434bacd764774b84f38512bf6730d2a0f6b0f6241eabfffeb153ffffb9feffffffffa9d3);
     (0x12, 0x1a0111ea397fe69a4b1ba7b6434bacd764774b84f38512bf6730d2a0f6b0f6241eabfffeb153ffffb9feffffffffaa99);
     (0x1, 0x0)]] |}.
