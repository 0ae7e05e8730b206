(** Points of prime order on the curves with a cofactor and points used in showing relations
    between them (generated; checked where they are used). *)
From Verif Require Import Base.

Definition g1_t3 : Z * Z :=
  (0x0,
   0x1a0111ea397fe69a4b1ba7b6434bacd764774b84f38512bf6730d2a0f6b0f6241eabfffeb153ffffb9feffffffffaaa9).
Definition g1_t11 : Z * Z :=
  (0x806c66c21c002e50a427bdb97098a94b9b245c0c9f818aaf1015e5ca8e4593b47c81cd2254db766c87d284fa609efff,
   0x18277292c77b46577775049e1ee8f0cda60d5a3ed028e2789b3193119c2640f780e6670eb63d813aafc97782bb28c8da).
Definition g1_t52437899 : Z * Z :=
  (0x992a741c0cfdcb0c656d45c25eb6f2d28fda3f51a0c8d5fe8d905ec81c43809e7e11e8cbb7a1d1d0e57b7d210bb815e,
   0x15584117cdfdff91d38429d69b88700b92854d95a558c15eb3ebfe5513f01924712869df30c7883a352a8a1b030237ce).
Definition g1_t10177 : Z * Z :=
  (0x1a00ba0cbc43edec0b0d429260abf069f80b85e2d018bab51e55255d4ca8469b1ede483221d199f686bce560dcb1c2ae,
   0x5bac6b7e4892373367990fe5d09cb10dddd57452cd7b87af3505a7c56c1c9f40f23d0457c7ec6bacc63f4ede5016a62).
Definition g1_u10177 : Z * Z :=
  (0xc06050d5b3c7a310a599c347784e2ef1f6fd182db2c0eceb1ff40795955faa92ec37831573748038dcfa1cbecb4dd14,
   0xd16845fc0635e13093c63a2450cc430f6f78042eda905b6e5d9ad7a62384ffa58bda07ad00bec7a7d601922d6a9a7c7).
Definition g1_s10177 : positive := 5403. Definition g1_v10177 : positive := 4773.
Definition g1_t859267 : Z * Z :=
  (0x1981b033f1d90dc798445c4784a8ea3abdb46625b1802c6bcd4f5e137926d21362eabc7b2bb680ce9955b2bb8ee600ff,
   0x161b4e2f484af87d3a9cc7e5b763bb55d0f0985c92a7eac887c1512b55912627789711a2c469530136c3936d64c7e30a).
Definition g1_u859267 : Z * Z :=
  (0xda76343225a9a83f67bf615b9d060fe65385d1fc2e14df1f8a9ab0c0216079d8a3bc61975a8d973fc9c8a9b83c93a1,
   0x156a60bd03dfe800d9e4932ce3928ec645ddd4158c487f029b4df2068db5b76dbaa9eb43dd1a07f822be1dd8a02102a5).
Definition g1_s859267 : positive := 119571. Definition g1_v859267 : positive := 739695.
Definition g2_w : (Z * Z) * (Z * Z) :=
  ((0x899fe01e36094a7754cf61ba0394c2d37c9d689ac05c9e17c7a4405579228423ed00122c794d831803e95a95771db6b, 0xbde49b680bd38c740418368bd1a218fc04c518471bb5f256178c09fb4e24983afe8e3ab0f083e2b7d2e28c2c138da7f),
   (0x169fe8bb93e6ffde9315787355953eea28c3a47aecbe97ca9b1fbe9842858aa0356ec44a32cf067b785681a83c511f0d, 0x13f221e4bde8061ebf12a9424a51f7805159d508adb31828fa0ff47defa167c04ccc9d1f9cd8c5db4f1316ca29f0166)).
Definition g2_w1 : (Z * Z) * (Z * Z) :=
  ((0x50d249da210f77bb5c8c5dcd026bce8bea0fe6ffd760f5277d7713aa25b630303edd664b5d74f585929ef6a0b436148, 0x107c2dc34461589dfe2cdafda27bd5c18b79296f72e756e15df4d2ca092343e602642b94418cb1010ce9ca8c90675454),
   (0x113a0beddc071984897c46ae0da6180c663260b170b2cd0977146e94dbc671cb96cca4b31ab36fa88a1faa65e0412b95, 0x1463a9ffa008bd0c7c4f6d2561560a766b47b5fccfdace400c6afafb24f8a3f4f259cd286bf7fef6a53e5093eaad0c45)).
Definition g2_w2 : (Z * Z) * (Z * Z) :=
  ((0x7e22fc16100c3f688dfe4e20242899453af52e5c6e18cffe17a8ec4b1911ba3c3942a7179f7d8cf8cab34e338f578e9, 0x132fecd15ad3a54ec0a2ea2a5658483062cbf8707f3fc2ec7d8f833be42a0fa372b0f2b85823112c95fac6a74a0a3174),
   (0x361292ea598e6bbb8062f42edb66ded3bb3a70a06c67af4cc111408b42b6b83e93d3bb47e84f98441a87e57c3ae8b9e, 0x18c1efcbeda166385f2a7d221ea68d5f5f61ae3468a9e13cd78fd35917b6dfa819df362cb78673a2050dce935d60a945)).
Definition g2_wa : (Z * Z) * (Z * Z) :=
  ((0x180f27c8e0f3a580e6c7c9b6887031963782ad496855db45e0a23a56303f5b3f0d7fd0ebe1fae05a336dfbbe3bbdfc9f, 0x14e7b660fff356300cb3c662d01f0808b8aa2411e601347b7a9b598ec7c19d792e232a0501b991fc089f6512598cb64d),
   (0xd53efdfc0e57ee0833d8b1d78bc5e22afa2a1178190bd9c08c60ce5934d111d13647cb5e399a91f39cf5c58cb2c0662, 0x9ecd0cc105594b6d2ba6b3bf520359272f924af227378faa0fbf93e3e8e47c424f0d721aa51264c5f181259be9ac6f8)).
Definition g2_wd : (Z * Z) * (Z * Z) :=
  ((0x517c628ec1223d34d93205c2733a67e400f22d57e178a89ab7742a205e6f0daaaa539718bb9bacaed029cc6e8fcf25d, 0x1648c95fd1fd6bc3c81fddddc306c4ab109585d49db7afc2e2e0f5e7669e8f4f1eb73dd37a44410ed7a292722c4b7323),
   (0x16405442172f72b55bc4fc696db065368921e0559714491865764d0a5af93908cd7db7667ac6a497933208bbefb71d2e, 0x10b912b0da56d05c08251df1ab7abe138a7fb77dcb1e859709d8b4495d9fec568641ffdcb41bd5228b4c79150baaa79c)).
Definition g2_we : (Z * Z) * (Z * Z) :=
  ((0x71466c61ed1f26c4833e68634332a8e33737afd6c4cc5d45e1d58e57913e5086bd83ca99a0fd9a5150294884ee52838, 0xd24781fe7e7d53ea8c358d64f9b9d405a6dc368d89510516fc126e8fbcc0c96c2d133addf17b6bda00ae22070f6c4bd),
   (0x9ceba8afa0118d3547874977c84994ffa8a8c80fe0ba52f10bf7bcd309bb51404368bb8e300f5e7a420845526d343b8, 0xb69ebb2c17bfee970941e24b21372e83696419c85eb38aa71fef617339daa5a4636586dabc10c91ca4597aeb3f98582)).
Definition g2_t448 : (Z * Z) * (Z * Z) :=
  ((0xcd3d4cf5ee82c5834b012e7ac67725e30c38d3f174d9778c9c34f44f2ae6ab85758505799266bbc069e6e25359f0bae, 0x192542937236fa0c64a7441a9f8c8ad5f680c52aff78ba4d60ced5b79f350780c9b2c28a2e695c44fd0b0912ff8432a9),
   (0xe0e15049dff943fa0faa0171b53222e206408643c4860ac6f845364d70c4cea72dd6f52f4668a4261d7f05a78551488, 0x6d80677c0f13dd3ba5767982d842a008d03ce40c73336cbc1d45383d8534143743cde611be3d1182308d109d7256b73)).
Definition g2_t2713 : (Z * Z) * (Z * Z) :=
  ((0x187a6936b850628b68f2e2ef1542794a291cadccf9991e2e4240bfa7ca49e50744402344069e4c737cff84cf2895a396, 0xdb0afbe711f0c2379a09a88223bb272b04809cc9570291f0cc0f771f057214662c1a319e5dae6d268195b51615e127e),
   (0xd69450591428bb06683c34d5ce614f659af1ed487610569434c9d7a5059272c13e11004358f3150c995272bd955e621, 0xa4785cd623249f33fdb76fa3fd94e1c7deae1cde910bb4c1d680836b534c6346125dfd50e7d8fd8ba7f24a8149c8fae)).
Definition g2_f2713 : (Z * Z) * (Z * Z) :=
  ((0x59fbfe7f5ae43faa0b1a9c1a6b39c77d064c570bb9d414b8dafb456a5eb0efeee3c6ca2bacc66a739895824b865cb30, 0x14a7adb9eaa654ba9f75cbf8df5cdfb3f548d4e38f795aaca9263353c9aea86745f7660bec80b4f953a2f36556e61a0c),
   (0x82d0ac6c80a58f83000d775458d373ee9974a2c244f1e62e31c5843e6d72c21b648536653b3a24d9040798a14c8eec9, 0x1209738bc90a65e1ce7ea4c8c8ec45e057813ecaa4508279b0098b73b832711d516dd67a22edae2c35855da706e5714)).
Definition g2_s2713 : positive := 2017.
Definition g2_t11953 : (Z * Z) * (Z * Z) :=
  ((0xa4541d76ccec76113a01fcdea092edaafbb4f054f68edd469a9f6b76262b90cd5d449e49815eeff17e9a7cc1d91d415, 0x9acbf438e4071c8128f8ad5eee4df77f0aa8ee1c84c6a5e2e130e98d8c6bd3fcb680da5eab1b49908ad9350ccdd03aa),
   (0x18289583f4c5f7911a828ea3cc8e615f426da092d971651bddd1fb5ac65fd17b6fb98253be0e5c8ba0048a96881b9877, 0x133b5b46eb96a0e4e658cb73826ca2136a25ccb5038dcaffbe376e0ad4e205b2e555a2c4edd8910de8e21dd1709f74ce)).
Definition g2_f11953 : (Z * Z) * (Z * Z) :=
  ((0x1792f0c9f451fad49e192c2fdf6792bb3a2f7f1056fa0775d67d007f954930c258b2cf77f151316732aa4dc76cb9d639, 0x19d3aafc43fbe4e7a6c342b0096eb12b7f54c593569f6b8805786909ef1be92cf81284070b2937ca08f1d9eb19bed63c),
   (0xc1fae18fe21d332a58fd590b52c3b711ac8a8e80ba7908e9a65084d872a6c70a8784f9a48cf5a372f823d1fa4d5f5, 0x1903e05c71cafeeea79b89ef2342004ba257f3a1ed72f7f6f01a628e4a836471654adb77c5d90440552dfba4d0afecd6)).
Definition g2_s11953 : positive := 3605.
Definition g2_t262069 : (Z * Z) * (Z * Z) :=
  ((0x153c447bb3597b417234f9144ff7bc7c9a53fbacc0fbd37ce477008625ae59e39fa9be584eb70d00afeb578992b11c25, 0xac3338de4602c26c265ff2df2c83acd4e5ed291b5428193b3c3c9f48a4d4fd1c39f20db308aba9f93ffed36ebe67f63),
   (0x130f0e5e310c25b7c1838ab33117abf7480b9b90f9527212a56cb4f14bafbbc84f45a3ed3ab1064fa97b211f53015c9, 0x8c1d9b730fbb8e20e2b9b9e139d474c68adb5580316f8d6cc8ce36f3eba3b8c7ab96c9defa622c41fd43412bab1c9dc)).
Definition g2_f262069 : (Z * Z) * (Z * Z) :=
  ((0x4f01edf4ec11fa87350baa2c2074095c51bb13b34dfb7e83b893265c7d36c13d0d17bbb0e728ace7bc0a077529cfeb1, 0xd7cd9cc5db76b7f8119f196ae465016ad7725ceae703d2e01083282b9681c0b54a07469c7933e85654d09a6c7671277),
   (0x16762fd370583f6d54999c5558ebeb5428f33dde8a0c5de1d9b70e28d45037cd9e51af74ea6dced7ca1ef7b3e65bcf82, 0xea192afe9971b127682932ea0389974e33ef3b53eefeffc3e721dd96f89dbce85650c9a9562b69ffbe70451fcec4821)).
Definition g2_s262069 : positive := 88066.
Definition g2_t13 : (Z * Z) * (Z * Z) :=
  ((0x132fd2a503aad25a2c12cfba968208420e4a749b71dcb48b6515af61a89d5dcdc1daa58556d93de6425b5dc0351589dc, 0xff113772534c26a8378a6bb6158bf58832f3ae67c3859016b02f7c1102f63c37e2822ad624249273048e65941967f4a),
   (0x978b9d0052b314f7bb6728f5cdc90cbf423dc475b438ce7c2641d77d6789e6776977c21998601cabd8107b09df94de6, 0xf0eead2eb956009d867800ae975d1e0d41d978b05c9bbfcfd6e2cb9bb1ae0573acb5f63f7a624c6eb27f0ef18fea21d)).
Definition g2_tf13 : (Z * Z) * (Z * Z) :=
  ((0x1958bfad4004e58404c951d0a30d03062a3199906ca04ded8c4c5cd1b70b31108d4bfb972efbff15fa5833ae61c5783b, 0x1da9f329bcdf5f59c5ab88527f36a1b2d834ab61da0ed6160f13b42133029af0c79ac66fa4947f8b8f7cbd9922bd9b4),
   (0x14bd2b73c694919079bbf4978dfb8b7e2efe11be4d5bcbc705ab32538d163bcfe7b832eef3e91985115c6ea2db0dfcce, 0xfd9a411e8b66e6fa740e4627ee271c03746c01b4bf5a167cf7a65dd97311af344d7381922585fe528b4cd8b6cd61fb3)).
Definition g2_ts13 : positive := 7.
Definition g2_u13 : (Z * Z) * (Z * Z) :=
  ((0x52f9993c69f5a8ddd0c9c4141a84436304aaf0140778ed8f9c27a5dd26c7e5944432965fb680501b17ddee023b5e301, 0xfbbc6adc1ee8e0669c32bf7ec0b18ea2c8e2aa6dd83bf0c748caf8aa481c03e3e696babeffe4b9a722089ad58036503),
   (0x186da343084ae579b454c64874e83c0d62feb08cba84cd5aca3c8098aca0c7d6e12e7aeb2f2fa7108f601dc6a8c016ad, 0x195942da05c513ffa3efb576a9cf295241adc3f8099bc2b85e4b30862abc25096080b4eaa33477b6048f73e813947f0d)).
Definition g2_uf13 : (Z * Z) * (Z * Z) :=
  ((0xcf8145ba956c8c3ef89134bf689bad435e9632916907ba1f1cc6d3a66f36fdbef8d788a2108a72a88e477cfd96de773, 0xfa5d80363bc7c260dc63b0c9c5ba3995a5b27b6cd04238bc31f7c3f8d8235aa899bf24854e31b1c212ac64eafa07180),
   (0x3dc669a70e29eb89e0800495730e7130ec8ec5c0805bf8a4115a1652c1a7c80588ba70fccd5c33692b33c25fa0bdadf, 0x108d60842a9c8c6648d3df7ac795d22805946aba80e653ebd726967372b3cad322a3861a88e6d4742bd490b5dea8adeb)).
Definition g2_us13 : positive := 11.
Definition g2_t23 : (Z * Z) * (Z * Z) :=
  ((0xf8c8576749f6ef99687722be49c46ef60c4cad47bdd52f46911d6999fb40b3ed4954b2bc02f40e4bf94b36270b33dc3, 0x13aa0b4879311ad3f08faf86172bc2c8d745556e5850d92e75ad5ec3209ed783fa5d62ab4ff707126e148ba293b705a6),
   (0x3a722e86a2d88dfa23e3feb1806d93012e256287856991e6d5c36591efd1fc6475bfb12b25160fa30863ae4ff04f5fc, 0xba2b792c0d2da5193098a91dbef3f10682ad109d86205bec3909dcf48bfb60bf5e70846deebae01969d3f05420e3163)).
Definition g2_u23 : (Z * Z) * (Z * Z) :=
  ((0x2d0a99d99a42cac87abef326e9636f99d0036042c660efd98561fc17042ff6a9ad720430c73269e7c8ca187c407822, 0x178c1525b03abc7fdc88557733c3d57e4b037f6bed2ee6468035b0ea87d14f67a8b147aaf6b7b301e590f631b87ace5a),
   (0x11f47ad81e8f8ed6357f3d2795736fa655e3a24830cf51a17fba3794371f61c0ff8e6b7d5d10ab3858d3c6a1c1fb86d, 0x15cb0a12e2ef9bfb26b16b6f318c5dbcda0dab5cc54216d08812335f3cf5ad2410d251c67179c4d4e97add1aefda178a)).
Definition g2_v23 : (Z * Z) * (Z * Z) :=
  ((0x7ff8faf3b9b4d864600e34b4f278e8eea3eb497715193521723da50e81d4428d41bfc7f3688721d25fc42cf47c79097, 0x684113b99e90e912306b72353094d7e2701f976ddfa9a80cb08d5d9ed164e96cdfc0f5792242b5733b33e75e8891d27),
   (0x1659ef01cf525dbaa8dd67cb2b44d3a75194f55c7b2e79a0f9d49c47d7b3d65dd75004ebff029f058978c51b00fab4af, 0xe5e5a5778ad0c48b8121d24675c6dc6fc4c7a7b1b230d00a3a034d1adf1401828c4f7b7d26851fe2361c0fabdf17948)).
Definition g2_a23 : (Z * Z) * (Z * Z) :=
  ((0xf8c8576749f6ef99687722be49c46ef60c4cad47bdd52f46911d6999fb40b3ed4954b2bc02f40e4bf94b36270b33dc3, 0x13aa0b4879311ad3f08faf86172bc2c8d745556e5850d92e75ad5ec3209ed783fa5d62ab4ff707126e148ba293b705a6),
   (0x1659ef01cf525dbaa8dd67cb2b44d3a75194f55c7b2e79a0f9d49c47d7b3d65dd75004ebff029f058978c51b00fab4af, 0xe5e5a5778ad0c48b8121d24675c6dc6fc4c7a7b1b230d00a3a034d1adf1401828c4f7b7d26851fe2361c0fabdf17948)).
Definition g2_b23 : (Z * Z) * (Z * Z) :=
  ((0x23f0253bc60850fd5d60231405b5f628a0af9e81b7bcbcfb10e2886996a3ed59803d13c969b7441a11dd7da44d30430, 0x18d9cd6514237c4c75118150b5ef35ce8acdcfadca7786a01539d894cec05c2dee5b3a10fb1e9fe2ddcef0bbe4c76ca0),
   (0x9831ccb9532c0e788945a5cbd2cf9d25388bd1fed79ebe2372794bfc590512514afcf6e1d68e7657b0c506eb5dea437, 0xa0aa78c1594625e59fd4faa4d87a3ed35780c6a796ac5c09db01b41bc3beee8c17d8869ed71bbff53146eccfa422c8c)).
Definition g2_ka23 : positive := 22. Definition g2_kb23 : positive := 16.
Definition bn_w : (Z * Z) * (Z * Z) :=
  ((0x155274f1c8711fb4cb34b0b98c14b2b893a8a4cdcf67fd5f92cb4b7f0654e499, 0x18afcf19e16ddc3a55aae3e02b5a01ecc45f01ac70433ff9a38ee0508a232147),
   (0x1ec8c89b1a68d27e3d714843e6a1e96b4273221705e68b2c33e86b6b0503e2ca, 0xb6c11f148d14042a9785071b8d0f2dcc72071dd8c10937cd68ece8a2d9f78b1)).
Definition bn_w1 : (Z * Z) * (Z * Z) :=
  ((0x267aa419ec7d1c5d01e6b3bec30f109c745e82f850c72a05894a6f57d02b0c29, 0x202a4e884ce95ced9eba51ea676ebf442f29435df416556a02e4d079c44e152b),
   (0x177f94bfea32f4f5e82118f3301c943efe45a9ec4c4fee35eeb5a4995476ecd9, 0x29c9523d07b3673a6ad0b0d6402b30f9b04f26208aadb13ea2587abe2964eb42)).
Definition bn_w2 : (Z * Z) * (Z * Z) :=
  ((0x122c7e1eccd939250272e9e352d1b0efb73a274176e746d45ec10aff7f262431, 0x152302a738d2315ee1109b0bf816ef28ee4ad0c8cdbff09f340405bb50d96aed),
   (0x119b85d7c6c8cdab7adefd729adf6ef2550e487a628b3f61083820abd3791a7d, 0x24f83c8198605fe70ed7f544c8b06580d060f8b3dc6137106591bd8caadd8496)).
Definition bn_w3 : (Z * Z) * (Z * Z) :=
  ((0x20c2173bbfeeb089d4a1a9f872de23cbcfc33287d72c0b746cf601e0345946f1, 0x291270e80bb74b775571f0330a1bfe7b335ef43d70dafbee06678dac0dd61258),
   (0x18e4b9b2f6feab33d02f2cc35164c41e993bc0a51c21dc574d6ae77d8406106e, 0x69afc35d97e38ef4d7f94e041562763e7324470ddc4194e99c81158af181205)).
Definition bn_wa : (Z * Z) * (Z * Z) :=
  ((0x15bbb357a39b7df4ae2a68f4634dadadc064ce77a1c090c83ab93d1a3c8225d3, 0x191e5d31d88ae8df26a851bcd50cacc878308ef277e6714dc32994bfba13db13),
   (0xb0a29510b9c04bea8cfe8b53d5c1cb836e228a11713c0fe2fa89883b618054e, 0x250e754f20e0ac356d1f96a9e56165476b77fff4d36908df2914c213a5bb451a)).
Definition bn_wa1 : (Z * Z) * (Z * Z) :=
  ((0xcb48154ff81175141119849eb0898a9a7a9d6ba54c65e0a4672f65309ff75a6, 0x103f5e9df7d01abab34dd254df520f4c351ec326258a9f44fc9b2d045fea8696),
   (0x8301435c8e943f36179b22464a511e625b2d322ab2ba1313ee623e90c0dbc42, 0x29370c0d2fb8fd0bb38540460d3194eb83afb5701ce356a5f6ade9bc8cfd965b)).
Definition bn_wa2 : (Z * Z) * (Z * Z) :=
  ((0x9e37e187109106ae8424724a4b6b984727d8d2428a410b6f0607b1f9733f183, 0x2c254f1e180ce5e8f5fd557e39bc4c2c8c0409da03e8a239f75659f1056a4684),
   (0x255a2521d5959b6b0f805d0144253ba5609f41f0515e098f0c77f3932264f7f9, 0xb55d923c050f3f44b30af0c9c1ff3162c096a9c9508c1ae130bca0332c1b82d)).
Definition bn_ws : (Z * Z) * (Z * Z) :=
  ((0x11b69dc4444ced43fcdb3711706b7d2c231fd3b0394819b43fee0d374403d50, 0xe2117a7b2b65b26eb6ac645d04b68edaf1977a42e7948aaf1035f9dd7ba18d4),
   (0x89a7145eb1fb1789248c35a36cf9d3fda2551157254e20dd57d3cbd06342c0b, 0x20405b0d05230fc8df130662d2bdb9218b8f90c8704def2d3d012a352ac39aeb)).
Definition bn_wb : (Z * Z) * (Z * Z) :=
  ((0x1b5096ffa26625f3be3b737cc540197eb53fac0f4b9f08193c4e81a24b41279e, 0x1c5b35b142761437822efb7273aa93da817082fed4b6e78e128229b2996751b1),
   (0x2546497b45bcba0b721c1d52de55bbcc64a613585b5762a5803187c025d4a37a, 0x2561b2a3ebbc91426cb619b37724eb24407a85edbd2644605bb82911fef46aee)).
Definition bn_wn : (Z * Z) * (Z * Z) :=
  ((0x20c2173bbfeeb089d4a1a9f872de23cbcfc33287d72c0b746cf601e0345946f1, 0x291270e80bb74b775571f0330a1bfe7b335ef43d70dafbee06678dac0dd61258),
   (0x177f94bfea32f4f5e82118f3301c943efe45a9ec4c4fee35eeb5a4995476ecd9, 0x29c9523d07b3673a6ad0b0d6402b30f9b04f26208aadb13ea2587abe2964eb42)).
Definition bn_t177 : (Z * Z) * (Z * Z) :=
  ((0x23e284acbd087d3b67144627b77fbb77acee725255834ef595539552b579fea2, 0x1d5c82dd5071fe1413bb1e856d6da733cca1f0aff522ebde652a3d026ce20ad7),
   (0x4bac4a141b2e7bbb7ab113d366f95f394e34d743f19ffbad0f71f90510a1c77, 0xfe530d7ae668984fb3946c2eb2027614190b219c75e8e0403d0652d634a7f74)).
Definition bn_t10069 : (Z * Z) * (Z * Z) :=
  ((0x2e30fee3b175d519d0eea8476c64ca4e4ff3f4f0e6525cdff4b7c6d2e29fe679, 0x215fcf7bbf58ebcd32cf8ed30a7ee2908d869287c02b81f5a398589ad0ecd9a3),
   (0x1d1c94372495d59f77142bd916a087bb63decb7212ec86dd7411bb1fc5266166, 0x2dc4c041e45d67c2efac3a07a3d0d769e56965dae895188ab9ca2e7d85595fd2)).
Definition bn_f10069 : (Z * Z) * (Z * Z) :=
  ((0xe3553cfba2edb06dc39915addbf9a21eba16fb71674896d474f10f16c4b198c, 0x7f309c883e5d090456aa1a8b7c556e662f01af9886ccb54e3cb936fc8aaf194),
   (0x1c5152fd63670f706d41212758fafcd1d456e98a6435e4cc4a9ef26d1410343e, 0xdd95021aacbfe557d36fa6ae92be3cd966e6cd6eb153ee3b7c3c83f491977e3)).
Definition bn_s10069 : positive := 5166.
Definition bn_t5864401 : (Z * Z) * (Z * Z) :=
  ((0x2ce5a36b84beb0aa05b6c35948e222dcca44809ec568c5585705a4133bc6c2f3, 0x3a03f48693ab12ed16ec26a2b702b8ebd287000d5f4a892bddaaa82134deeb),
   (0x197f7bad2a9ebdbd3769cf57a21d2800e6ffe05ea7d1f3d6c5c878737629bf2, 0xc715d511d5839b491986602f5cb124c08d4f60bebfd4ad909789b4e4a987ea4)).
Definition bn_f5864401 : (Z * Z) * (Z * Z) :=
  ((0x15208ed0bf144f95001241a11f5c0365d42555330f86d5a87ec731fc7be8860d, 0x21e0bbbd744b5c15ebefb8da53d996939716304481727b220904925d14fa1160),
   (0x4bc83f995509299a14ffe8b27dfe71b147060d3fbe0c010481107cbcda4b932, 0x2cba5990e465ec307e661bb5a69c19b85a37f920097609e8ae96382db21a5cff)).
Definition bn_s5864401 : positive := 5415174.
Definition bn_t1875725156269 : (Z * Z) * (Z * Z) :=
  ((0x1311a213e866af410b13516f102c79d9622c690069dd55790114a69d3c3e51c9, 0x17116fe9c4e6e17c99926d3649c1bca80cf13f187eb0dfa5c2de7ae8a8003db5),
   (0x6003a0103171444cf2a978fcc9cff2e147617ed3343e03d76909b9a669c2ca, 0x21779d2bd578f80e78983cb84e612e44ed6f0b84107a1e0c08eab0dc00f79367)).
Definition bn_f1875725156269 : (Z * Z) * (Z * Z) :=
  ((0xfec65f55094728a4072d47229ec4c710df6bdf49910006ed96335ed8dd25604, 0x91a24977f9112f0ff78731c29a9a0abb12079f70328b3f5efa0181b30faed41),
   (0x2939935d4eb4cdb6cc5b01fe30034e597952345c3b0350c84079c4927ebf7e49, 0x1c46519baadaba34bca4455eb2f3e12fe3d6642095cd2df056e9ee8eff69995e)).
Definition bn_s1875725156269 : positive := 1368874307508.
Definition tr_t169 : (Z * Z) * (Z * Z) :=
  ((0xd827c1c4bd6679ddb3a1f005f69cb4eb4333a4d6b095992b8ed849f2fd2543b76372b5ee0e1b8d94b9ab3402df3422fdf87e0f420fdb44a, 0x172f17ff1e3f450213be8cf5278f270ce390a5385a037c3c6e4d6e99c9a47b2fc1dee244fb937f8a672a4559df5b34a7b473d1b7ec557d5a),
   (0x16d5dacc0accf4d650a47bf85153a42d62984fb500437354563eb890223f8f55ff1400131bd06c1c5bd0fce69106ea24e9d8b52341198c0f, 0x20dc6ec2e13898e9d49a38f69d4d37a7c24a5c3933dba6670c0a45fd66630e079bb1f60f897c2ce825383f51d858be75fbce1e8827de4af2)).
Definition tr_u169 : (Z * Z) * (Z * Z) :=
  ((0xaa61c8f5295eb618cdcff0ffcaa083602a83926d563606302eb6d43f4b3b9cab1d9fb6f0337b0d650f93467e7c6c127ea2328fe787c845, 0xf4c787a0c47ec85c440e7e974524bef9aeac20c8f50cdfa4cb29ead532dc60340fc6ff74e396d9eafc03aa44e9231184b0c73624b6252d7),
   (0x1d2cb44d8af64ac2577dad17c0cbd0c667fd442cac4147d1480469797450ae928f2a67b7f4d38d96c05bfcbfec7abe7292c121f54256845e, 0x16811b530a2a253a19befef8bb582af5e49fd2eede0fd52c5039c8a6c155961e0789f1dc815b711c7cb68e763f1c82419ba65dbdad4bab6)).
Definition tr_t73 : (Z * Z) * (Z * Z) :=
  ((0x2a8a8c35be0a50d7efb10635355666990efd65caa2b49154b4fe0674d1889470b4b50ffd546039213a2a4a79c8299864a1cc3e9ab5add17, 0x1ade5d6020c2cc075319f8847e198a2f6f25c93e550a7474b82ceb8817b93dea9f46bfce63113c7833d44d5bb0042ff25b85cb40667fdf72),
   (0xe4a67ddd8d7c8ff3fc4b83f18877be6c5474a4f2c10a55de79e5dc8f775afd5bb873e04b32673d5e1a067d3d4972388357b819d42e61073, 0x14e5cf736e10cc12ef9a2ab55b08dd0511980af3b0d65a78e366a9a0d3a37e72d387f875b04e6564ee7a49d70de920ff125c61b14cf323cc)).
Definition tr_t143653 : (Z * Z) * (Z * Z) :=
  ((0x1a65f37e600cf0838a978586007b33e9dea15b5574d14e21197fc7bce29caf0b396fef2315c9fa1797b537648aa0a4aa01855ee242313eed, 0x118d4e7bd477c7bc7a6f3a165a3e43255c057491effe6e8fea514037b0b2fcd1fe28dfb88630bcaaa9ea4dbe958540de374c12b51e7dfa26),
   (0xe3a2392ef49bea37cf899e064a33699face9f86acd67dafd7809f068f69eaf84cf6baba8a98759a36362ccbf278ce42feed8d96cf1a24b7, 0xc19f7c15b173732518c26f30ed0462bf3dbaa3e8d06c4f80d2494fe5538ae6ace5af87fe4634054a57a8aab0f589f6ca179c4cbc1424c34)).
Definition tr_t1426393 : (Z * Z) * (Z * Z) :=
  ((0x10f0bbdecb544882f7e9bd5c1e765f557dd3d01336d760ec8ab145b1d04919ed12c9c3cb3e485c3df933d7cd762b11be6b0880b50a93b509, 0x1b19537c0a25c3b39e252400cc4c00d4bf5bf098515c09d5a2b2981523964ec8cbbeacc4f861e5b76a757e888c56abd56a144e3133097759),
   (0x80d2d32dbb38a517504001a4bd86b75c1ddb5b8a4e07b9699024cc16bab4db1ed9180550b573ecd374361cb8f7b72598bff6142c627a95, 0x21959505093ed219a18ec8582c8c8a1babf3836228630b6797e576dfad8c3e0e32355c6bcc89f9cc8e7417143cffb76d11edc371ea5b09c9)).
Definition tr_t79562281 : (Z * Z) * (Z * Z) :=
  ((0x47721dfa055fbe1d47e0c91a6d657fd33e2f586c6c887c5bbf4272bb94673c9db5112480151f6b5ab6ad24a29fea6e70de54ada42a6315b, 0x1a21fad659dfff8ba720c84ed0e1f8b28cc77be538f31b674ae8e195238e900c0346128ffb2617bbdf070c0d50f0ce87ebdf3f02c92aee7a),
   (0xa668fee6cb1adad7160eaaa07e87c36c3e51a88186c50cf86256df81c37ceb034f049cbe95096e57d7d467683f63b52757bda445e20b635, 0x24faeb8060cfe5ef9df18010567825b81bcfe7c8af4a36c14ec5a4ccb48218fa13b6813b6b7ae1531f93fa892455e4b3b628594551e9f27)).
Definition tr_tbig : (Z * Z) * (Z * Z) :=
  ((0x9ff57bee6e25e29d2a1571e31070cffa0e718d1661d73c838eb76d0a69df509a5092f77e8319ef17b0137eca58e7098598770ff5884b68d, 0x1a88d39892e6003b14abf03ec7d2155c022883c259e4c41daba06b273543b37fa063d1b37a3c13314bfd04f75423f36f496e4af1eac8bb2),
   (0x2040ac749acb99da4324eea4fbd9d845d1d8c2dc2be136e117c584682dbff3b64b401657818e097cd998ffad8f3ef8711c886f01c6b667dd, 0x2222aa514c8cf58fc4bda8e98960291898341837a7e4a1b9093502e8c8c4499ef3d913d4505df8bf3b4b01f7d30c8d3625e8d97daca862cf)).
Definition g2_ga : (Z * Z) * (Z * Z) :=
  ((0x358a1395b2b76aae08ff63b3a9557205e7f60c75cf3a14f52157de7258b898b5e82e7fef0df0f456bffef027c139f57, 0xaec30199e426d76cbf5bbf7369f05149d04190ebbe04b0fef5f13f00084d6f7488189422d16e5f414c9ace58c6e7b70),
   (0x764fc9ac809ca2cc3b7deb335a0ae118469d1622267ec03988ce35a97cb6205af13b492a89297884241066fe624482, 0x5cfb9777ffb1000376bec85367fc535c3fbe6c4f62a2769856b5f6e1951c2c4667a99bf6fc2e07ac9838093df6671ac)).
Definition g2_gf : (Z * Z) * (Z * Z) :=
  ((0x149ee6d25a1c8648c86f8673946935a6c41c801f2eb23fd9171fd41f31b7ec5c4a85f5b285f02508d928c716f9c1bc67, 0x6e63a1561fa8259ba6f6e15257a5cd4ab79697e45abf5042aa7cf28b80aa054b18d535b71cf70dafd2b694040d19479),
   (0xa31b0b89b2e027b5d9201054438f7fcf510fff2b163b21a46acf330708fa11d8a37a86a347b6e882852cf7b9a5760e5, 0x53fadb2c53bf0ed7ffcf6d688029bedda2d66476494fbf7f937367aacdd0189046e74945b6e77e02b5e13023c210f7c)).
Definition bn_wc : (Z * Z) * (Z * Z) :=
  ((0x2651bd5af5bbb3d71f65d1826bbe805957ee30e5e718fd2dad60d0c5316adaa, 0x2c7360e2d12a2426e5aa298fadde2db6bf9b6ba85e60766d0a3dc9af86ae7aa1),
   (0x65d374f5acd7ed51831b81cea3a7ee1d846fb1ab8237027aa0d52f9d5267c42, 0x246af620f411f26b53627d36ae03f2efeab6149cd22c7bc66af29593d72503b5)).
