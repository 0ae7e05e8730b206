(** Explicit points of the curves: points of small order, points with x = 0 and
    pairs of points that share an encoding. *)
From Verif Require Import Base Field SpecField Params
  Algebra Pow Tower TowerFacts FiniteField PrimeField Primality Compute TowerParams TowerInst SpecCurve SpecCurveFacts Group
  Curve CurveFacts CurveGroup CurveParams CurveCheck CurveCerts CurveInst CrateCurves.
From Bignums Require Import BigZ.
Local Open Scope Z_scope.

(** A point of small order [l] prime to the group order is not killed by it. *)
Lemma not_killed {F} (o : fops F) c (HC : curve_laws o c) r l B : Z.gcd r l = 1 ->
  on_curve o (ca c) (cb c) (Some B) -> pt_mulz o (ca c) l (Some B) = None -> pt_mulz o (ca c) r (Some B) <> None.
Proof.
  intros G On El Er.
  assert (E : gmul (cpt_ops o c HC) (Z.gcd r l) (mkpt o c HC (Some B) On) = g0 (cpt_ops o c HC)).
  { apply (gmul_annihil_gcd _ (cpt_laws o c HC)); apply cpt_ext; rewrite (gmul_pt o c HC); assumption. }
  rewrite G, (gmul_1 _ (cpt_laws o c HC)) in E. apply (f_equal (@proj1_sig _ _)) in E. discriminate.
Qed.

Section PrimePoint.
Context (cc : curve_consts Z) (u : tri Z) {F : Type} (o : fops F) (inj : Z -> F).
Hypothesis HP : prime_field (modulus (cc_base cc)) o inj.
Hypothesis Hc : prime_curve_check cc u = true.
Let ob := bz_ops (BigZ.of_Z (modulus (cc_base cc))).
Definition prime_pt_chk (x y : Z) (l : positive) : bool :=
  gen_check ob (curve_of ob BigZ.of_Z cc) (BigZ.of_Z x) (BigZ.of_Z y) l.
Lemma prime_pt x y l : prime_pt_chk x y l = true ->
  let c := curve_of o inj cc in
  on_curve o (ca c) (cb c) (Some (inj x, inj y)) /\ pt_mulz o (ca c) (Zpos l) (Some (inj x, inj y)) = None.
Proof.
  intros E. unfold prime_pt_chk in E. 
  pose proof (gen_check_ok ob o _ (bz_hom _ o inj HP) (pf_laws _ _ _ HP) (pc_eqb cc inj) (curve_of ob BigZ.of_Z cc) (curve_of o inj cc)
    (pc_of_Z inj _) (pc_of_Z inj _) (pc_3b cc o inj HP) (pc_az cc u o inj HP Hc) (prime_curve_laws cc u o inj HP Hc) _ _ _ E) as X.
  cbv beta in X. rewrite !BigZ.spec_of_Z in X. exact X.
Qed.
End PrimePoint.

Section QuadPoint.
Context (t : tower_conf) (cc : curve_consts (Z * Z)) (u : tri (Z * Z)).
Context {F : Type} (o : fops F) (inj : Z -> F) (HP : prime_field (modulus (t_field t)) o inj).
Context (mnr : F -> F) (sq : quad F -> quad F).
Hypothesis Hm : forall x, mnr x = fmul o (inj (t_beta t)) x.
Hypothesis Hsq : forall a, sq a = quad_mul o mnr a a.
Let o2 := quad_ops o mnr sq.
Hypothesis H2 : field_laws o2.
Hypothesis H2z : is0_law o2.
Hypothesis H2f : finite_field o2 (modulus (t_field t) * modulus (t_field t)).
Hypothesis Hc : quad_curve_check t cc u = true.
Let ob := bz_ops (BigZ.of_Z (modulus (t_field t))).
Let bmnr (x : bigZ) : bigZ := fmul ob (BigZ.of_Z (t_beta t)) x.
Let o2b := quad_ops ob bmnr (quad_square ob bmnr).
Definition quad_pt_chk (x y : Z * Z) (l : positive) : bool := gen_check o2b (curve_of o2b b2 cc) (b2 x) (b2 y) l.
Definition quad_on_chk (x y : Z * Z) : bool :=
  let x := b2 x in let y := b2 y in
  feqb o2b (fmul o2b y y) (fadd o2b (fadd o2b (fmul o2b (fmul o2b x x) x) (fmul o2b (b2 (cc_a cc)) x)) (b2 (cc_b cc))).
Lemma quad_pt x y l : quad_pt_chk x y l = true ->
  let c := curve_of o2 (inj2 inj) cc in
  on_curve o2 (ca c) (cb c) (Some (inj2 inj x, inj2 inj y)) /\ pt_mulz o2 (ca c) (Zpos l) (Some (inj2 inj x, inj2 inj y)) = None.
Proof.
  intros E. unfold quad_pt_chk in E.
  pose proof (gen_check_ok o2b o2 _ (phi2_hom t o inj HP mnr sq Hm Hsq) H2 (phi2_eqb t inj) (curve_of o2b b2 cc) (curve_of o2 (inj2 inj) cc)
    (phi2_b2 inj _) (phi2_b2 inj _) (qc_3b t cc o inj HP mnr sq Hm Hsq) (qc_az t cc u o inj HP mnr sq H2 Hc)
    (quad_curve_laws t cc u o inj HP mnr sq Hm Hsq H2 H2z H2f Hc) _ _ _ E) as X.
  rewrite !(phi2_b2 inj) in X. exact X.
Qed.
Lemma quad_on x y : quad_on_chk x y = true ->
  let c := curve_of o2 (inj2 inj) cc in on_curve o2 (ca c) (cb c) (Some (inj2 inj x, inj2 inj y)).
Proof.
  intros E. unfold quad_on_chk in E. cbv zeta in E. apply (phi2_eqb t inj) in E.
  pose proof (phi2_hom t o inj HP mnr sq Hm Hsq) as Hf. fold ob bmnr o2b o2 in Hf.
  rewrite !(fh_add _ _ _ Hf), !(fh_mul _ _ _ Hf), !(phi2_b2 inj) in E. exact E.
Qed.
End QuadPoint.

(** ** The points *)
Definition bls_g1_pt11 : Z * Z :=
  (0xdb54222439e49d420c7f918fe70359700f1eda09ad31d134cfc03f05eb4c132ba50531a876798cff56218e6443661c2,
   0x1e56aca15af37e6fc791a4606d4abeaad19ab94d5e1dabede4e30535273cb19a4ee9d0d0cfe7eaac79902c875e0b207).
Definition bn256_g2_pt10069 : (Z * Z) * (Z * Z) :=
  ((0xc707aa73c47a3bdaaf88d6fb7f64f96fa887d482c57dd5efeb7b3d06f2345,
    0x19f3821fcbde60161e604d445bc98c612d9cdc56fa488afa4a5bb546373ce4db),
   (0x1d7128143fa5b2615640e8215bc28940c50e2b9ca0e89984329851a29e575f62,
    0x2c449dd3f0c7ce22fce13e0fcc626d79f19383b7f7cd0009a5015c605b5abee3)).
Definition bls_g2_pt13 : (Z * Z) * (Z * Z) :=
  ((0x176fc2f711dfc298fdf7fcd73d690ae57494b92d7d59f3b2a17a659d8506933481db839c2e3b442d535a6b2f0e8f6d6,
    0x11ae53d79e35cce70e1b3a30d6d5b8578ff370fead8ab0be190208fcabc2fe0fa9a5c65e72b31b414fb53f58fa2a961d),
   (0xcf92fbd10dd0f6b54d3718d8fdcd60faa3a2cc406ca4dccb5f4c5504e8e7b11da0ab79d5519ece2039ebbe46d954ab7,
    0x2d2769363276891b8f18a9c91dc832b05688762488b493124d612505c502d0dedaa5cca63f29e51da05df5eb9e12a1e)).
Definition triton_pt13 : (Z * Z) * (Z * Z) :=
  ((0x19aafab7a7f992ec79e5880568feecaa36870624cec0b0f83e73c68394dfcf36f99d46cc96cef0a35795bdde34336db88a0c6293aed528f,
    0x1ec237441bd98b5aee66c833d9f27fa4c81faa74ddd38ca2d4dccb1dd64f2887cba2ab7b56b9a2cb2143ce9293bb0c0120f0c505c9696182),
   (0xf159fe4b4cbf1fd0ccd488ab05c4dff385370d95c7ecd869b7a4b8b9132ac7a8fe4ff10f3fa08695b6b37c25f290023d22d34f3b7bf02f8,
    0xaf94e99037bc35823c4e63105f3c0b3704908045bd4e8e440c20e7917b3c28f888a22e5dbc36f0558d07f36dde11c7fe3d4230e254e2c06)).
(** points whose negative has the same sign bit *)
Definition bn256_g2_twin : (Z * Z) * (Z * Z) :=
  ((0x212674b7f97c2414f65afaca5625d64699dba35ce4ee98082f2a71af16337016,
    0x2f88f611c98b6e337516a903a502f6cfae23438e1ce7014e62f181dbc9fbf8b0), (0, 2)).
Definition bls_g2_twin : (Z * Z) * (Z * Z) :=
  ((0xcda33f4f072ae4009c61ba211e1a6d957350dadc9714b0321409a86335a1c6537e017383e37106cb90c930638f755dc,
    0x183a886bcfcf35e53d81fa2749fe441ef53d4885719af2945846d7db86bfade54157c4363a85506931050f5bb63e8d6e),
   (4, (modulus bls12381_fq - 1) / 2)).
Definition triton_twin : (Z * Z) * (Z * Z) :=
  ((0x2106c59a439ac6583016b876922f5fe5fc40b36169c49efa43d310f8692a2b8e84a15a14c738e733cbecf82b14df6a615fcd42967f3e2d38,
    0xa9751967022128542b7ada976a9c26b87c0dfdf419b8c51f90e3566c939370cd40d6c0767e35c1f691fe60ef647a0d7e9d16578243468b0), (0, 2)).
Definition secp256r1_sqrt_b : Z := 0x66485c780e2f83d72433bd5d84a06bb6541c2af31dae871728bf856a174f93f4.

Lemma points_chk :
  prime_pt_chk bls_g1_consts (fst bls_g1_pt11) (snd bls_g1_pt11) 11 = true
  /\ quad_pt_chk bn256_tower bn256_g2_consts (fst bn256_g2_pt10069) (snd bn256_g2_pt10069) 10069 = true
  /\ quad_pt_chk bls12381_tower bls_g2_consts (fst bls_g2_pt13) (snd bls_g2_pt13) 13 = true
  /\ quad_pt_chk pluto_tower triton_consts (fst triton_pt13) (snd triton_pt13) 13 = true
  /\ quad_on_chk bn256_tower bn256_g2_consts (fst bn256_g2_twin) (snd bn256_g2_twin) = true
  /\ quad_on_chk bls12381_tower bls_g2_consts (fst bls_g2_twin) (snd bls_g2_twin) = true
  /\ quad_on_chk pluto_tower triton_consts (fst triton_twin) (snd triton_twin) = true.
Proof. vm_compute. repeat split. Qed.
Lemma orders_prime_to :
  Z.gcd (modulus bls12381_fr) 11 = 1 /\ Z.gcd (modulus bn256_fr) 10069 = 1
  /\ Z.gcd (modulus bls12381_fr) 13 = 1 /\ Z.gcd (modulus pluto_eris_fq) 13 = 1.
Proof. vm_compute. repeat split. Qed.

Section Points.
Context {F : Type} (o : fops F) (inj : Z -> F).
(** on the curve, of the small order, and not killed by the group order *)
Definition small_point {G} (o : fops G) (c : cconf G) (r l : Z) (P : G * G) : Prop :=
  on_curve o (ca c) (cb c) (Some P) /\ pt_mulz o (ca c) l (Some P) = None /\ pt_mulz o (ca c) r (Some P) <> None.
Lemma small_of {G} (og : fops G) c r l P : curve_laws og c -> Z.gcd r l = 1 ->
  on_curve og (ca c) (cb c) (Some P) /\ pt_mulz og (ca c) l (Some P) = None -> small_point og c r l P.
Proof. intros HC E [A B]. split; [exact A|]. split; [exact B|]. exact (not_killed og c HC r l P E A B). Qed.

Lemma bls_g1_small : prime_field (modulus bls12381_fq) o inj ->
  small_point o (curve_of o inj bls_g1_consts) (modulus bls12381_fr) 11 (inj (fst bls_g1_pt11), inj (snd bls_g1_pt11)).
Proof.
  intros HP. apply small_of; [exact (prime_curve_laws bls_g1_consts _ o inj HP bls_g1_ok)|exact (proj1 orders_prime_to)|].
  exact (prime_pt bls_g1_consts _ o inj HP bls_g1_ok _ _ 11 (proj1 points_chk)).
Qed.
Lemma bn256_g2_small : prime_field (modulus bn256_fq) o inj ->
  let o2 := bn256_fq2 o in
  small_point o2 (curve_of o2 (inj2 inj) bn256_g2_consts) (modulus bn256_fr) 10069
    (inj2 inj (fst bn256_g2_pt10069), inj2 inj (snd bn256_g2_pt10069))
  /\ on_curve o2 (inj2 inj (cc_a bn256_g2_consts)) (inj2 inj (cc_b bn256_g2_consts))
       (Some (inj2 inj (fst bn256_g2_twin), inj2 inj (snd bn256_g2_twin))).
Proof.
  intros HP o2. pose proof (bn256_tower_facts o inj HP) as T. destruct points_chk as (_ & C1 & _ & _ & C2 & _).
  pose proof (quad_curve_facts bn256_tower bn256_g2_consts _ o inj HP (mnr_neg o) (quad_square_complex o)
      (mnr_neg_inj o inj _ HP) (sq_complex o inj _ HP) (tf_2 _ _ _ _ _ T) (tf_2z _ _ _ _ _ T)
      (tf_2fin _ _ _ _ _ T) bn256_g2_ok) as CF.
  split.
  - apply small_of; [exact (cf_laws _ _ _ _ CF)|exact (proj1 (proj2 orders_prime_to))|].
    exact (quad_pt bn256_tower bn256_g2_consts _ o inj HP (mnr_neg o) (quad_square_complex o)
      (mnr_neg_inj o inj _ HP) (sq_complex o inj _ HP) (tf_2 _ _ _ _ _ T) (tf_2z _ _ _ _ _ T)
      (tf_2fin _ _ _ _ _ T) bn256_g2_ok _ _ 10069 C1).
  - exact (quad_on bn256_tower bn256_g2_consts o inj HP (mnr_neg o) (quad_square_complex o)
      (mnr_neg_inj o inj _ HP) (sq_complex o inj _ HP) _ _ C2).
Qed.
Lemma bls_g2_small : prime_field (modulus bls12381_fq) o inj ->
  let o2 := bls_fq2 o in
  small_point o2 (curve_of o2 (inj2 inj) bls_g2_consts) (modulus bls12381_fr) 13
    (inj2 inj (fst bls_g2_pt13), inj2 inj (snd bls_g2_pt13))
  /\ on_curve o2 (inj2 inj (cc_a bls_g2_consts)) (inj2 inj (cc_b bls_g2_consts))
       (Some (inj2 inj (fst bls_g2_twin), inj2 inj (snd bls_g2_twin))).
Proof.
  intros HP o2. pose proof (bls_tower_facts o inj HP) as T. destruct points_chk as (_ & _ & C1 & _ & _ & C2 & _).
  pose proof (quad_curve_facts bls12381_tower bls_g2_consts _ o inj HP (mnr_neg o) (quad_square_complex o)
      (mnr_neg_inj o inj _ HP) (sq_complex o inj _ HP) (tf_2 _ _ _ _ _ T) (tf_2z _ _ _ _ _ T)
      (tf_2fin _ _ _ _ _ T) bls_g2_ok) as CF.
  split.
  - apply small_of; [exact (cf_laws _ _ _ _ CF)|exact (proj1 (proj2 (proj2 orders_prime_to)))|].
    exact (quad_pt bls12381_tower bls_g2_consts _ o inj HP (mnr_neg o) (quad_square_complex o)
      (mnr_neg_inj o inj _ HP) (sq_complex o inj _ HP) (tf_2 _ _ _ _ _ T) (tf_2z _ _ _ _ _ T)
      (tf_2fin _ _ _ _ _ T) bls_g2_ok _ _ 13 C1).
  - exact (quad_on bls12381_tower bls_g2_consts o inj HP (mnr_neg o) (quad_square_complex o)
      (mnr_neg_inj o inj _ HP) (sq_complex o inj _ HP) _ _ C2).
Qed.
Lemma triton_small : prime_field (modulus pluto_eris_fp) o inj ->
  let o2 := pluto_fp2 o in
  small_point o2 (curve_of o2 (inj2 inj) triton_consts) (modulus pluto_eris_fq) 13
    (inj2 inj (fst triton_pt13), inj2 inj (snd triton_pt13))
  /\ on_curve o2 (inj2 inj (cc_a triton_consts)) (inj2 inj (cc_b triton_consts))
       (Some (inj2 inj (fst triton_twin), inj2 inj (snd triton_twin))).
Proof.
  intros HP o2. pose proof (pluto_tower_facts o inj HP) as T. destruct points_chk as (_ & _ & _ & C1 & _ & _ & C2).
  pose proof (quad_square_mul o (mnr_m5 o) _ (fl_rl _ (pf_laws _ _ _ HP)) (mnr_m5_inj o inj _ HP)) as Q.
  pose proof (quad_curve_facts pluto_tower triton_consts _ o inj HP (mnr_m5 o) (quad_square o (mnr_m5 o))
      (mnr_m5_inj o inj _ HP) Q (tf_2 _ _ _ _ _ T) (tf_2z _ _ _ _ _ T) (tf_2fin _ _ _ _ _ T) triton_ok) as CF.
  split.
  - apply small_of; [exact (cf_laws _ _ _ _ CF)|exact (proj2 (proj2 (proj2 orders_prime_to)))|].
    exact (quad_pt pluto_tower triton_consts _ o inj HP (mnr_m5 o) (quad_square o (mnr_m5 o))
      (mnr_m5_inj o inj _ HP) Q (tf_2 _ _ _ _ _ T) (tf_2z _ _ _ _ _ T) (tf_2fin _ _ _ _ _ T) triton_ok _ _ 13 C1).
  - exact (quad_on pluto_tower triton_consts o inj HP (mnr_m5 o) (quad_square o (mnr_m5 o))
      (mnr_m5_inj o inj _ HP) Q _ _ C2).
Qed.
End Points.
