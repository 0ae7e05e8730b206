(** The hash-to-curve suites of the crate: evaluated checks of their constants. *)
From Verif Require Import Base Algebra Pow Tower TowerFacts FiniteField Word Field Params PrimeField Compute ConstFacts
  TowerParams TowerInst SpecCurve SpecCurveFacts Curve CurveFacts CurveParams CurveCheck CurveInst CrateCurves
  Sqrt2 Sqrt2Facts Props_Sqrt2 Props_Field2 SpecH2c H2c H2cParams H2cFacts IsoFacts.
From Bignums Require Import BigZ.
Local Open Scope Z_scope.

(** The literals of the source denote the values used. *)
Definition sw1 (s : sswu_consts Z) : list (Z * Z) :=
  map (fun x => (x, 0)) (sw_z s :: sw_a s :: sw_b s :: concat (sw_iso s)).
Definition sw2 (s : sswu_consts (Z * Z)) : list (Z * Z) := sw_z s :: sw_a s :: sw_b s :: concat (sw_iso s).
Lemma sswu_literals :
  lits_denote (modulus secp256k1_fp) 4 secp256k1_sswu_src (sw1 secp256k1_sswu) = true
  /\ lits_denote (modulus secp256r1_fp) 4 secp256r1_sswu_src (sw1 secp256r1_sswu) = true
  /\ lits_denote (modulus bls12381_fq) 6 bls_g1_sswu_src (sw1 bls_g1_sswu) = true
  /\ lits_denote (modulus bls12381_fq) 6 bls_g2_sswu_src (sw2 bls_g2_sswu) = true.
Proof. vm_compute. repeat split. Qed.

(** ** Checks *)
Section Checks.
Context {B : Type} (ob : fops B).
Infix "+" := (fadd ob). Infix "*" := (fmul ob).
(** [1/a], [b/(z a)] and a root of [g(b/(z a))] *)
Definition sswu_check (q : Z) (z a b : B) (cert : B * B * B) : bool :=
  let '(ainv, x0, r0) := cert in
  feqb ob (a * ainv) (f1 ob) && feqb ob (fpowz ob z ((q - 1) / 2)) (fneg ob (f1 ob))
  && feqb ob (x0 * (z * a)) b && feqb ob (r0 * r0) (curve_rhs ob a b x0).
(** [1/T], a root of [-g(z) T], [-z/2] and a root of [g(-z/2)] or of [g(z)] *)
Definition svdw_check (z a b : B) (cert : B * B * B * B) : bool :=
  let '(tinv, c3, h, e) := cert in
  let one := f1 ob in
  let T := (one + one + one) * (z * z) + (one + one + one + one) * a in
  feqb ob (T * tinv) one && feqb ob (c3 * c3) (fneg ob (curve_rhs ob a b z) * T)
  && feqb ob (h + h) (fneg ob z) && (feqb ob (e * e) (curve_rhs ob a b h) || feqb ob (e * e) (curve_rhs ob a b z)).
End Checks.

Section ChecksOk.
Context {B F : Type} (ob : fops B) (o : fops F) (phi : B -> F).
Context (Hf : fhom ob o phi) (H : field_laws o).
Hypothesis Heq : forall x y, feqb ob x y = true -> phi x = phi y.
Context (q : Z) (HF : finite_field o q) (H2 : fadd o (f1 o) (f1 o) <> f0 o).
Notation "0" := (f0 o). Notation "1" := (f1 o).
Infix "+" := (fadd o). Infix "-" := (fsub o). Infix "*" := (fmul o).
Notation "- x" := (fneg o x).
Add Field FHi : (field_thy o H).
Ltac hom := repeat rewrite ?(fh_0 _ _ _ Hf), ?(fh_1 _ _ _ Hf), ?(fh_add _ _ _ Hf),
  ?(fh_sub _ _ _ Hf), ?(fh_mul _ _ _ Hf), ?(fh_neg _ _ _ Hf).

Lemma phi_rhs a b x : phi (curve_rhs ob a b x) = curve_rhs o (phi a) (phi b) (phi x).
Proof. unfold curve_rhs. hom. reflexivity. Qed.

Ltac hom_in E := repeat first [rewrite phi_rhs in E | rewrite (fh_0 _ _ _ Hf) in E | rewrite (fh_1 _ _ _ Hf) in E
  | rewrite (fh_add _ _ _ Hf) in E | rewrite (fh_mul _ _ _ Hf) in E | rewrite (fh_neg _ _ _ Hf) in E].

Lemma nz_of_inv x y : x * y = 1 -> x <> 0.
Proof. intros E ->. apply (fl_1_0 _ H). rewrite <- E. ring. Qed.

Lemma nonsq_of_pow x : x <> 0 -> fpowz o x ((q - 1) / 2)%Z = - (1) -> ~ is_square o x.
Proof. intros Zx E. apply (euler_nonsquare o H q HF H2 x Zx). exact E. Qed.

Lemma pow_m1_nz x : fpowz o x ((q - 1) / 2)%Z = - (1) -> x <> 0.
Proof.
  intros E ->. rewrite fpowz_zero in E; [|exact (fl_rl _ H)|apply (half_card o H q HF H2)].
  apply (fl_1_0 _ H). transitivity (- - (1)); [ring|]. rewrite <- E. ring.
Qed.

Lemma sswu_check_ok z a b cert : sswu_check ob q z a b cert = true ->
  phi a <> 0 /\ ~ is_square o (phi z) /\
  (forall x, x * (phi z * phi a) = phi b -> is_square o (curve_rhs o (phi a) (phi b) x)).
Proof.
  destruct cert as ((ainv & x0) & r0). unfold sswu_check. intros E.
  repeat (apply andb_prop in E; let X := fresh "X" in destruct E as [E X]).
  apply Heq in E, X, X0, X1. rewrite phi_rhs in X. rewrite (fh_powz ob o phi Hf) in X1.
  hom_in E. hom_in X. hom_in X0. hom_in X1.
  pose proof (nz_of_inv _ _ E) as Za. pose proof (pow_m1_nz _ X1) as Zz.
  split; [exact Za|]. split; [apply nonsq_of_pow; assumption|].
  intros x Ex. assert (x = phi x0) as ->.
  { apply (mul_cancel_l o H (phi z * phi a)); [apply (mul_nonzero o H); assumption|].
    transitivity (x * (phi z * phi a)); [ring|]. rewrite Ex, <- X0. ring. }
  exists (phi r0). exact X.
Qed.

Lemma svdw_check_ok z a b cert : svdw_check ob z a b cert = true ->
  let z := phi z in let a := phi a in let b := phi b in
  let T := (1 + 1 + 1) * (z * z) + (1 + 1 + 1 + 1) * a in
  T <> 0 /\ is_square o (- curve_rhs o a b z * T) /\
  (forall h, h + h = - z -> is_square o (curve_rhs o a b h) \/ is_square o (curve_rhs o a b z)).
Proof.
  destruct cert as (((tinv & c3) & h) & e). unfold svdw_check. cbv zeta. intros E.
  repeat (apply andb_prop in E; let X := fresh "X" in destruct E as [E X]).
  apply Heq in E, X0, X1.
  hom_in E.
  hom_in X0.
  hom_in X1.
  split; [exact (nz_of_inv _ _ E)|]. split; [exists (phi c3); exact X1|].
  intros k Ek. apply orb_prop in X. destruct X as [X|X]; apply Heq in X; rewrite phi_rhs, (fh_mul _ _ _ Hf) in X.
  - left. assert (k = phi h) as ->; [|exists (phi e); exact X].
    apply (mul_cancel_l o H (1 + 1)); [exact H2|]. transitivity (k + k); [ring|]. rewrite Ek, <- X0. ring.
  - right. exists (phi e). exact X.
Qed.
End ChecksOk.

(** ** Certificates *)
Definition secp256k1_sswu_cert : Z * Z * Z :=
  (0x2cf2e1012a9416f39cbf60f32404a38ff743ccf943a9d2667cf0d2335940bc82,
   0xbb407e4438dd90ca6ba40716591522757e5c173c7232ad8b6c8bcd97de490391,
   0x2899ff0720f53efb09af4823587b279e148bb16bed075ba60fc2a97aff6ae188).
Definition secp256k1_kernel : Z := 0x89291c84de3e11f1041da6957255eed5fc964a4df050df221d6ad4ce6ab9c5a5.
Definition secp256r1_sswu_cert : Z * Z * Z :=
  (0x5555555500000000555555555555555555555555aaaaaaaaaaaaaaaaaaaaaaaa,
   0xa528bd8696bdaf996c65b982d94959d3146fe6a020693090bdba13132375f224,
   0xe5fb73d16791ce358fb5adb2d33668a3b24099fd8d401f6685e0e994fb4d756).
Definition bls_g1_sswu_cert : Z * Z * Z :=
  (0x100d45d5f05adb6b1dcfe25aaab411deb9ec549ff12f1d4fc0331fdee9c64ff64e83cd741325b673edddb1e47053572c,
   0x123939a31626a32de772bc7a591ea140683bca0c62efb105310d5ce1d27d1aadf79a5d5cbe8e2c4ff7d4816af76d2814,
   0x5be3446f07e910e291153e84f1dabd3dfe5c2b1080d8b6a640425c3826f2a429373f9bab7e8308f6dd10ffa11124dbc).
Definition bls_g1_kernel : Z := 0xd7f2d0d03ae035321eed4c1479d13251abf0e9a96479623eb5380b575e319851fb5e5a8b43b9c1a46880f54bf2b2f7c.
Definition bls_g1_kernel_y : Z := 0x59e4a8d101f0c51d351b3877c5197f07d08511978f9492dacd907f783f756008f967f1556f49e19032b4ecc3f415b40.
Definition bls_g1_kernel_u : Z := 0x146850b3bdc2495ed73bb803dfaa951a88abff0acb5c7aeac52b48f3c808e87ce3885b98ce916e17caef21a6cbc6b598.
Definition bls_g1_kernel_i : Z := 0xb5e4ff984350725be0aaa5446c13e81d02f55cf05b95efb4a0d2eb6ff256676daf17c27e7f3d093d3920b3bf993af15.
Definition bls_g2_sswu_cert : (Z * Z) * (Z * Z) * (Z * Z) :=
  ((0x0, 0x11a9429135fc33048635fb811ec587857cc4389fa11fb65531d128a6ebcfa72bbb3b3776942b2eeebf63966666662c72),
   (0x1a59d4b6bbf912a32d63b43028e2deeebe8d5d97ca64b6d66f64ac7a265a9305e1a40da5edb81b4e3ac4f5c28f5bd27, 0x15103a07f641331bb298f5ed3ba1230aa0bcc9f87d923077324df24a0f7ffa93045d3d6f94c17ae10efa11eb851e7336),
   (0x1776b5d3dd70bb2ac6e46be0849209c9c47853350da878bdc14a5042102f1f01cbc75043b8d13d709dd5ca27f92cb390, 0x2c094c100c4f8a157767045bc04279dd04f207fbddc4de6675911b512cddacc0061215698453b5b11125516029e4d21)).
Definition bls_g2_kernel : (Z * Z) := (0x1a0111ea397fe69a4b1ba7b6434bacd764774b84f38512bf6730d2a0f6b0f6241eabfffeb153ffffb9feffffffffaaa5, 0x6).
Definition bn256_g1_svdw_cert : Z * Z * Z * Z :=
  (0x2042def740cbc01bd03583cf0100e593ba56470b9af68708d2c05d6490535385,
   0x16789af3a83522eb353c98fc6b36d713d5d8d1cc5dffffffa,
   0x183227397098d014dc2822db40c0ac2ecbc0b548b438e5469e10460b6c3e7ea3,
   0xa6ea289876b139cfe2cd1f08c065a2ab4aad542eaccb013520ea36934e877b4).
Definition grumpkin_svdw_cert : Z * Z * Z * Z :=
  (0x2042def740cbc01bd03583cf0100e59370229adafbd0f5b62d414e62a0000001,
   0x2cf135e7506a45d66a7931f8d66dae274453478a4c627115c,
   0x183227397098d014dc2822db40c0ac2e9419f4243cdcb848a1f0fac9f8000000,
   0x2cf135e7506a45d632d270d45f1181294833fc48d823f272c).
Definition secq256k1_svdw_cert : Z * Z * Z * Z :=
  (0xaaaaaaaaaaaaaaaaaaaaaaaaaaaaaaa9d1c9e899ca306ad27fe1945de0242b81,
   0x937f2fd396b38f66339cc15e7d2ae62e8ba3b69043218abef948e65fe040fdf,
   0x7fffffffffffffffffffffffffffffff5d576e7357a4501ddfe92f46681b20a0,
   0xc7c97045a2074634909abdf82c9bd0248916189041f2af0c1b800d1ffc278c0).
Definition pluto_svdw_cert : Z * Z * Z * Z :=
  (0x180000000000180000cb400008ffa098700286f9f826199f82d511933c5c4852986fc3ff0a73ffe46c6ff08200047b83bffffde200000001,
   0x1e38c74520ca07ce52db01a548b530f2209a35d045732a970413f97783189784aea34a867b9b9fb768032da808162203b369c06ca62410d2,
   0x12000000000012000098700006bfb8725401e53b7a1c9337a21fcd2e6d45363df253d2ff47d6ffeb5153f46180035ca2cffffe6980000000,
   0x1a5e2bda6b911f04cc0d2512f3458b3793b4d4fab86048edf97bd6f618e6d662876b010f0002a147ec1c49379504c7473ab58472372a5b09).
Definition eris_svdw_cert : Z * Z * Z * Z :=
  (0x180000000000180000cb400008ffa098700286f9f826199f82d51192fc5c4852986fa3ff0964ffe4686ff03e40035ca2bffffde200000001,
   0x18688f6650b142e6c9c0602685519abea4781d3d4f1f3bef2ab017a422de2b1bebd9164bd298b594a680e7c0a81b68e97fb91f939f62fea8,
   0x12000000000012000098700006bfb8725401e53b7a1c9337a21fcd2e3d45363df253baff470bbfeb4e53f42eb002857a0ffffe6980000000,
   0x1cbf7b0630f84d103f5e681d90af3822648a8086b3866b96c76fdef9f40e125b5215cbdfc37526aa97cfb23f3d2c2fb82e0b69eddcc4566f).
Definition bn256_g2_svdw_cert : (Z * Z) * (Z * Z) * (Z * Z) * (Z * Z) :=
  ((0x2042def740cbc01bd03583cf0100e593ba56470b9af68708d2c05d6490535385, 0x0),
   (0x29fd332ab7260112b801fa95b21af64e2e6da55f90a3e510fcbe57377b5ca1ec, 0x303d1eff1426764bf8408aee24ba0b865e76f77b1267a846b1e9154d01565034),
   (0x183227397098d014dc2822db40c0ac2ecbc0b548b438e5469e10460b6c3e7ea3, 0x0),
   (0x2869111d5381f072f8e2728fdb825a51aadd70e52c9830e9ab4b871c0531f1bb, 0xd1271953ed9ea0836846e70a1934187998c7f790cb4d7511b7f8da82de048a4)).

Definition b_list (l : list Z) : list bigZ := map BigZ.of_Z l.
Definition b2_list (l : list (Z * Z)) : list (quad bigZ) := map b2 l.
Definition b3 {A B} (f : A -> B) (c : A * A * A) : B * B * B := let '(x, y, z) := c in (f x, f y, f z).
Definition b4 {A B} (f : A -> B) (c : A * A * A * A) : B * B * B * B := let '(x, y, z, t) := c in (f x, f y, f z, f t).

Definition sswu_check1 (p : Z) (s : sswu_consts Z) (cert : Z * Z * Z) : bool :=
  sswu_check (bz_ops (BigZ.of_Z p)) p (BigZ.of_Z (sw_z s)) (BigZ.of_Z (sw_a s)) (BigZ.of_Z (sw_b s)) (b3 BigZ.of_Z cert).
Definition svdw_check1 (p z : Z) (cc : curve_consts Z) (cert : Z * Z * Z * Z) : bool :=
  svdw_check (bz_ops (BigZ.of_Z p)) (BigZ.of_Z z) (BigZ.of_Z (cc_a cc)) (BigZ.of_Z (cc_b cc)) (b4 BigZ.of_Z cert).
Definition bz2_ops (t : tower_conf) : fops (quad bigZ) :=
  let ob := bz_ops (BigZ.of_Z (modulus (t_field t))) in
  let mnr := fun x => fmul ob (BigZ.of_Z (t_beta t)) x in
  quad_ops ob mnr (quad_square ob mnr).
Definition sswu_check2 (t : tower_conf) (s : sswu_consts (Z * Z)) cert : bool :=
  sswu_check (bz2_ops t) (modulus (t_field t) * modulus (t_field t)) (b2 (sw_z s)) (b2 (sw_a s)) (b2 (sw_b s)) (b3 b2 cert).
Definition svdw_check2 (t : tower_conf) (z : Z * Z) (cc : curve_consts (Z * Z)) cert : bool :=
  svdw_check (bz2_ops t) (b2 z) (b2 (cc_a cc)) (b2 (cc_b cc)) (b4 b2 cert).

Lemma sswu_checks :
  sswu_check1 (modulus secp256k1_fp) secp256k1_sswu secp256k1_sswu_cert = true
  /\ sswu_check1 (modulus secp256r1_fp) secp256r1_sswu secp256r1_sswu_cert = true
  /\ sswu_check1 (modulus bls12381_fq) bls_g1_sswu bls_g1_sswu_cert = true
  /\ sswu_check2 bls12381_tower bls_g2_sswu bls_g2_sswu_cert = true.
Proof. vm_compute. repeat split. Qed.
Lemma svdw_checks :
  svdw_check1 (modulus bn256_fq) 1 bn256_g1_consts bn256_g1_svdw_cert = true
  /\ svdw_check1 (modulus bn256_fr) 1 grumpkin_consts grumpkin_svdw_cert = true
  /\ svdw_check1 (modulus secp256k1_fq) 1 secq256k1_consts secq256k1_svdw_cert = true
  /\ svdw_check1 (modulus pluto_eris_fp) 1 pluto_consts pluto_svdw_cert = true
  /\ svdw_check1 (modulus pluto_eris_fq) 1 eris_consts eris_svdw_cert = true
  /\ svdw_check2 bn256_tower (1, 0) bn256_g2_consts bn256_g2_svdw_cert = true.
Proof. vm_compute. repeat split. Qed.

(** The numerators and denominators of the three isogenies. *)
Definition secp_iso_polys : list (list Z) :=
  let k i j := nth j (nth i (sw_iso secp256k1_sswu) []) 0 in
  [ [k 1%nat 0%nat; k 1%nat 1%nat; k 1%nat 2%nat; k 1%nat 3%nat]; [k 2%nat 0%nat; k 2%nat 1%nat; 1];
    [k 3%nat 0%nat; k 3%nat 1%nat; k 3%nat 2%nat; k 3%nat 3%nat]; [k 4%nat 0%nat; k 4%nat 1%nat; k 4%nat 2%nat; 1] ].
Definition iso_check1 (p a' b' b : Z) (K : list (list Z)) : bool :=
  iso_check (bz_ops (BigZ.of_Z p)) (BigZ.of_Z a') (BigZ.of_Z b') (BigZ.of_Z b)
    (b_list (nth 0 K [])) (b_list (nth 1 K [])) (b_list (nth 2 K [])) (b_list (nth 3 K [])).
Definition iso_check2 (t : tower_conf) (a' b' b : Z * Z) (K : list (list (Z * Z))) : bool :=
  iso_check (bz2_ops t) (b2 a') (b2 b') (b2 b)
    (b2_list (nth 0 K [])) (b2_list (nth 1 K [])) (b2_list (nth 2 K [])) (b2_list (nth 3 K [])).
Lemma iso_checks :
  iso_check1 (modulus secp256k1_fp) (sw_a secp256k1_sswu) (sw_b secp256k1_sswu) (cc_b secp256k1_consts) secp_iso_polys = true
  /\ iso_check1 (modulus bls12381_fq) (sw_a bls_g1_sswu) (sw_b bls_g1_sswu) (cc_b bls_g1_consts) (sw_iso bls_g1_sswu) = true
  /\ iso_check2 bls12381_tower (sw_a bls_g2_sswu) (sw_b bls_g2_sswu) (cc_b bls_g2_consts) (sw_iso bls_g2_sswu) = true.
Proof. vm_compute. repeat split. Qed.
Lemma kernel_checks :
  kernel_check (bz_ops (BigZ.of_Z (modulus secp256k1_fp))) (modulus secp256k1_fp) (BigZ.of_Z (sw_a secp256k1_sswu))
    (BigZ.of_Z (sw_b secp256k1_sswu)) (BigZ.of_Z secp256k1_kernel) (b_list (nth 1 secp_iso_polys [])) = true
  /\ kernel_check (bz2_ops bls12381_tower) (modulus bls12381_fq * modulus bls12381_fq) (b2 (sw_a bls_g2_sswu))
    (b2 (sw_b bls_g2_sswu)) (b2 bls_g2_kernel) (b2_list (nth 1 (sw_iso bls_g2_sswu) [])) = true.
Proof. vm_compute. repeat split. Qed.
