(** The generic curve results for the concrete curves. *)
From Verif Require Import Base Algebra Pow Tower TowerFacts FiniteField Field Params PrimeField
  Primality Certs Compute TowerParams TowerInst Group SpecCurve SpecCurveFacts Curve CurveFacts CurveGroup
  CurveParams CurveCheck CurveCerts.
From Bignums Require Import BigZ.
Local Open Scope Z_scope.

(** ** Summary of a curve: laws, generator and its order *)
Record curve_facts {F : Type} (o : fops F) (c : cconf F) (g : aff F) (r : Z) : Prop := {
  cf_laws : curve_laws o c;
  cf_gen : arep o c g (Some (ax g, ay g));
  cf_order : pt_mulz o (ca c) r (Some (ax g, ay g)) = None;
  cf_three : fadd o (fadd o (f1 o) (f1 o)) (f1 o) <> f0 o }.
Definition tri_map {A B} (f : A -> B) (t : tri A) : tri B := mk_tri (f (r0 t)) (f (r1 t)) (f (r2 t)).

(** ** The literals *)
Definition consts1 (cc : curve_consts Z) : list (Z * Z) :=
  [(cc_a cc, 0); (cc_b cc, 0); (cc_gx cc, 0); (cc_gy cc, 0)].
Definition consts2 (cc : curve_consts (Z * Z)) : list (Z * Z) := [cc_a cc; cc_b cc; cc_gx cc; cc_gy cc].
Lemma curve_literals :
  lits_denote (modulus bn256_fq) 4 bn256_g1_src (consts1 bn256_g1_consts) = true
  /\ lits_denote (modulus bn256_fr) 4 grumpkin_src (consts1 grumpkin_consts) = true
  /\ lits_denote (modulus bls12381_fq) 6 bls_g1_src (consts1 bls_g1_consts) = true
  /\ lits_denote (modulus secp256k1_fp) 4 secp256k1_src (consts1 secp256k1_consts) = true
  /\ lits_denote (modulus secp256k1_fq) 4 secq256k1_src (consts1 secq256k1_consts) = true
  /\ lits_denote (modulus secp256r1_fp) 4 secp256r1_src (consts1 secp256r1_consts) = true
  /\ lits_denote (modulus pluto_eris_fp) 7 pluto_src (consts1 pluto_consts) = true
  /\ lits_denote (modulus pluto_eris_fq) 7 eris_src (consts1 eris_consts) = true
  /\ lits_denote (modulus bn256_fq) 4 bn256_g2_src (consts2 bn256_g2_consts) = true
  /\ lits_denote (modulus bls12381_fq) 6 bls_g2_src (consts2 bls_g2_consts) = true
  /\ lits_denote (modulus pluto_eris_fp) 7 triton_src (consts2 triton_consts) = true.
Proof. repeat (split; [vm_compute; reflexivity|]). vm_compute. reflexivity. Qed.

Lemma pf_three p {F} (o : fops F) inj : prime_field p o inj -> 3 < p ->
  fadd o (fadd o (f1 o) (f1 o)) (f1 o) <> f0 o.
Proof.
  intros HP Hp E. pose proof (pf_hom _ _ _ HP) as Hh.
  rewrite <- !(zh_1 _ _ Hh), <- !(zh_add _ _ Hh) in E. change (1 + 1 + 1) with 3 in E.
  apply (pf_zero_iff _ _ _ HP) in E. rewrite Z.mod_small in E by lia. discriminate.
Qed.

(** ** Curves over prime fields *)
Section Prime.
Context (cc : curve_consts Z) (u : tri Z).
Let p := modulus (cc_base cc).
Let r := modulus (cc_scalar cc).
Let ob := bz_ops (BigZ.of_Z p).
Let cB := curve_of ob BigZ.of_Z cc.

Definition prime_curve_check : bool :=
  (3 <? p) && (1 <? r) && Bool.eqb (a_is_zero ob cB) (cc_a cc mod p =? 0)
  && no_root_check ob (ca cB) (cb cB) (Z.to_pos p) (tri_map BigZ.of_Z u)
  && gen_check ob cB (BigZ.of_Z (cc_gx cc)) (BigZ.of_Z (cc_gy cc)) (Z.to_pos r).
(** scalar ZETA times the generator is its image under the endomorphism *)
Definition prime_endo_check : bool :=
  let z := zeta (cc_base cc) in
  (cc_a cc =? 0) && (0 <? zeta (cc_scalar cc)) && ((z * z * z) mod p =? 1)
  && mult_check ob cB (BigZ.of_Z (cc_gx cc)) (BigZ.of_Z (cc_gy cc)) (Z.to_pos (zeta (cc_scalar cc)))
       (fmul ob (BigZ.of_Z (cc_gx cc)) (BigZ.of_Z z)) (BigZ.of_Z (cc_gy cc)).

Context {F : Type} (o : fops F) (inj : Z -> F) (HP : prime_field p o inj).
Hypothesis Hc : prime_curve_check = true.
Let H := pf_laws _ _ _ HP.
Let HR := fl_rl _ H.
Let Hh := pf_hom _ _ _ HP.
Add Ring CIR : (rl_ring _ HR).
Let phi (b : bigZ) : F := inj (BigZ.to_Z b).
Let Hphi : fhom ob o phi := bz_hom p o inj HP.
Let c := curve_of o inj cc.

Lemma pc_eqb x y : feqb ob x y = true -> phi x = phi y.
Proof. cbn [ob bz_ops feqb]. intros E. apply BigZ.eqb_eq in E. unfold phi. rewrite E. reflexivity. Qed.
Lemma pc_of_Z x : phi (BigZ.of_Z x) = inj x.
Proof. unfold phi. rewrite BigZ.spec_of_Z. reflexivity. Qed.
Lemma pc_split : 3 < p /\ 1 < r /\ a_is_zero ob cB = (cc_a cc mod p =? 0)
  /\ no_root_check ob (ca cB) (cb cB) (Z.to_pos p) (tri_map BigZ.of_Z u) = true
  /\ gen_check ob cB (BigZ.of_Z (cc_gx cc)) (BigZ.of_Z (cc_gy cc)) (Z.to_pos r) = true.
Proof.
  pose proof Hc as E. unfold prime_curve_check in E.
  repeat (apply andb_prop in E; let X := fresh "X" in destruct E as [E X]).
  apply Z.ltb_lt in E, X2. apply Bool.eqb_prop in X1. auto.
Qed.

Lemma pc_3b x : phi (mul3b cB x) = mul3b c (phi x).
Proof.
  cbn [cB c curve_of mul3b]. unfold mul3b_const.
  rewrite (fh_mul _ _ _ Hphi), !(fh_add _ _ _ Hphi), !pc_of_Z. reflexivity.
Qed.
Lemma pc_az : a_is_zero ob cB = a_is_zero o c.
Proof.
  destruct pc_split as (_ & _ & -> & _). unfold a_is_zero. cbn [c curve_of ca].
  destruct (feqb o (inj (cc_a cc)) (f0 o)) eqn:E.
  - apply (fl_eqb _ H) in E. apply Z.eqb_eq. apply (pf_zero_iff _ _ _ HP). exact E.
  - apply Z.eqb_neq. intros X. apply (pf_zero_iff _ _ _ HP) in X. apply (fl_eqb _ H) in X. congruence.
Qed.

Theorem prime_curve_laws : curve_laws o c.
Proof.
  destruct pc_split as (P2 & _ & _ & Hn & _). constructor.
  - exact H.
  - exact (pf_is0 _ _ _ HP).
  - apply (pf_two _ _ _ HP). lia.
  - intros x. cbn [c curve_of ca cb].
    rewrite <- (pc_of_Z (cc_a cc)), <- (pc_of_Z (cc_b cc)).
    apply (no_root ob o phi Hphi H pc_eqb _ _ (Z.to_pos p) (tri_map BigZ.of_Z u)); [|exact Hn].
    rewrite Z2Pos.id by lia. exact (prime_field_finite _ _ _ HP).
  - intros x. reflexivity.
Qed.

Theorem prime_curve_facts : curve_facts o c (gen_aff inj cc) r.
Proof.
  destruct pc_split as (P2 & R1 & _ & _ & Hg).
  destruct (gen_check_ok ob o phi Hphi H pc_eqb cB c (pc_of_Z _) (pc_of_Z _) pc_3b pc_az prime_curve_laws _ _ _ Hg)
    as [O M]. rewrite !pc_of_Z, Z2Pos.id in * by lia. constructor.
  - exact prime_curve_laws.
  - cbn [gen_aff ax ay]. split; [exact O|]. cbn. auto.
  - exact M.
  - apply (pf_three p o inj HP). exact P2.
Qed.

Theorem prime_curve_endo : prime_endo_check = true ->
  ca c = f0 o
  /\ fmul o (fmul o (inj (zeta (cc_base cc))) (inj (zeta (cc_base cc)))) (inj (zeta (cc_base cc))) = f1 o
  /\ pt_endo o (inj (zeta (cc_base cc))) (Some (inj (cc_gx cc), inj (cc_gy cc)))
     = pt_mulz o (ca c) (zeta (cc_scalar cc)) (Some (inj (cc_gx cc), inj (cc_gy cc))).
Proof.
  unfold prime_endo_check. cbv zeta. intros E.
  repeat (apply andb_prop in E; let X := fresh "X" in destruct E as [E X]).
  apply Z.eqb_eq in E, X0. apply Z.ltb_lt in X1. split; [|split].
  - cbn [c curve_of ca]. rewrite E. apply (zh_0 _ _ Hh).
  - rewrite <- !(zh_mul _ _ Hh), <- (pf_mod _ _ _ HP), X0. apply (zh_1 _ _ Hh).
  - destruct pc_split as (P2 & R1 & _ & _ & Hg).
    pose proof (cf_gen _ _ _ _ prime_curve_facts) as (O & _). cbn [gen_aff ax ay] in O.
    pose proof (mult_check_ok ob o phi Hphi H pc_eqb cB c (pc_of_Z _) pc_3b pc_az prime_curve_laws
      (BigZ.of_Z (cc_gx cc)) (BigZ.of_Z (cc_gy cc)) _ _ _ ltac:(rewrite !pc_of_Z; exact O) X) as M.
    rewrite (fh_mul _ _ _ Hphi), !pc_of_Z, Z2Pos.id in M by lia. symmetry. exact M.
Qed.
End Prime.

(** The specialised [mul_by_3b] of bn256 G1. *)
Lemma curve_laws_3b {F} (o : fops F) c c' : curve_laws o c -> ca c = ca c' -> cb c = cb c' ->
  (forall x, mul3b c' x = mul3b c x) -> curve_laws o c'.
Proof.
  intros HC Ea Eb E3. constructor.
  - exact (cl_field _ _ HC).
  - exact (cl_is0 _ _ HC).
  - exact (cl_two _ _ HC).
  - rewrite <- Ea, <- Eb. exact (cl_no2 _ _ HC).
  - intros x. rewrite E3, <- Eb. exact (cl_3b _ _ HC x).
Qed.

(** ** Curves over quadratic extensions *)
Section Quad.
Context (t : tower_conf) (cc : curve_consts (Z * Z)) (u : tri (Z * Z)).
Let p := modulus (t_field t).
Let r := modulus (cc_scalar cc).
Let ob := bz_ops (BigZ.of_Z p).
Let bmnr (x : bigZ) : bigZ := fmul ob (BigZ.of_Z (t_beta t)) x.
Let o2b := quad_ops ob bmnr (quad_square ob bmnr).
Let cB := curve_of o2b b2 cc.

Definition quad_curve_check : bool :=
  (3 <? p) && (1 <? r) && a_is_zero o2b cB && (fst (cc_a cc) =? 0) && (snd (cc_a cc) =? 0)
  && no_root_check o2b (ca cB) (cb cB) (Z.to_pos (p * p)) (tri_map b2 u)
  && gen_check o2b cB (b2 (cc_gx cc)) (b2 (cc_gy cc)) (Z.to_pos r).
Definition quad_endo_check : bool :=
  let z := zeta (cc_base cc) in
  (0 <? zeta (cc_scalar cc)) && ((z * z * z) mod p =? 1)
  && mult_check o2b cB (b2 (cc_gx cc)) (b2 (cc_gy cc)) (Z.to_pos (zeta (cc_scalar cc)))
       (fmul o2b (b2 (cc_gx cc)) (b2 (z * z, 0))) (b2 (cc_gy cc)).

Context {F : Type} (o : fops F) (inj : Z -> F) (HP : prime_field p o inj).
Context (mnr : F -> F) (sq : quad F -> quad F).
Hypothesis Hm : forall x, mnr x = fmul o (inj (t_beta t)) x.
Hypothesis Hsq : forall a, sq a = quad_mul o mnr a a.
Let o2 := quad_ops o mnr sq.
Hypothesis H2 : field_laws o2.
Hypothesis H2z : is0_law o2.
Hypothesis H2f : finite_field o2 (p * p).
Hypothesis Hc : quad_curve_check = true.
Let Hh := pf_hom _ _ _ HP.
Let phi (b : bigZ) : F := inj (BigZ.to_Z b).
Let phi2m := quad_map phi.
Let Hphi : fhom o2b o2 phi2m := phi2_hom t o inj HP mnr sq Hm Hsq.
Let emb := inj2 inj.
Let c := curve_of o2 emb cc.
Let HR1 := fl_rl _ (pf_laws _ _ _ HP).
Add Ring CIB : (rl_ring _ HR1).
Let Heq := phi2_eqb t inj : forall x y, feqb o2b x y = true -> phi2m x = phi2m y.
Let Hb2 := phi2_b2 inj : forall x, phi2m (b2 x) = emb x.

Lemma qc_split : 3 < p /\ 1 < r /\ a_is_zero o2b cB = true /\ cc_a cc = (0, 0)
  /\ no_root_check o2b (ca cB) (cb cB) (Z.to_pos (p * p)) (tri_map b2 u) = true
  /\ gen_check o2b cB (b2 (cc_gx cc)) (b2 (cc_gy cc)) (Z.to_pos r) = true.
Proof.
  pose proof Hc as E. unfold quad_curve_check in E.
  repeat (apply andb_prop in E; let X := fresh "X" in destruct E as [E X]).
  apply Z.ltb_lt in E, X4. apply Z.eqb_eq in X1, X2.
  repeat split; try assumption. destruct (cc_a cc) as [a0 a1]. cbn [fst snd] in *. congruence.
Qed.
Lemma qc_3b x : phi2m (mul3b cB x) = mul3b c (phi2m x).
Proof.
  cbn [cB c curve_of mul3b]. unfold mul3b_const.
  rewrite (fh_mul _ _ _ Hphi), !(fh_add _ _ _ Hphi), !Hb2. reflexivity.
Qed.
Lemma qc_a0 : ca c = f0 o2.
Proof.
  destruct qc_split as (_ & _ & _ & E & _). cbn [c curve_of ca]. rewrite E.
  unfold emb, inj2. cbn [fst snd]. rewrite (zh_0 _ _ Hh). reflexivity.
Qed.
Lemma qc_az : a_is_zero o2b cB = a_is_zero o2 c.
Proof.
  destruct qc_split as (_ & _ & -> & _). unfold a_is_zero. symmetry.
  apply (fl_eqb _ H2). exact qc_a0.
Qed.

Theorem quad_curve_laws : curve_laws o2 c.
Proof.
  destruct qc_split as (P2 & _ & _ & _ & Hn & _). constructor.
  - exact H2.
  - exact H2z.
  - intros E. apply (pf_two _ _ _ HP ltac:(lia)). exact (f_equal q0 E).
  - intros x. cbn [c curve_of ca cb].
    rewrite <- (Hb2 (cc_a cc)), <- (Hb2 (cc_b cc)).
    apply (no_root o2b o2 phi2m Hphi H2 Heq _ _ (Z.to_pos (p * p)) (tri_map b2 u)); [|exact Hn].
    rewrite Z2Pos.id by (clear - P2; nia). exact H2f.
  - intros x. reflexivity.
Qed.

Theorem quad_curve_facts : curve_facts o2 c (gen_aff emb cc) r.
Proof.
  destruct qc_split as (P2 & R1 & _ & _ & _ & Hg).
  destruct (gen_check_ok o2b o2 phi2m Hphi H2 Heq cB c (Hb2 _) (Hb2 _) qc_3b qc_az quad_curve_laws _ _ _ Hg)
    as [O M]. rewrite !Hb2, Z2Pos.id in * by lia. constructor.
  - exact quad_curve_laws.
  - cbn [gen_aff ax ay]. split; [exact O|]. cbn. auto.
  - exact M.
  - intros E. apply (pf_three p o inj HP P2). exact (f_equal q0 E).
Qed.

(** The tower's ZETA is (ZETA^2, 0): src/derive/field/tower.rs:80-85. *)
Theorem quad_curve_endo : quad_endo_check = true ->
  let z := emb (zeta (cc_base cc) * zeta (cc_base cc), 0) in
  ca c = f0 o2
  /\ fmul o2 (fmul o2 z z) z = f1 o2
  /\ pt_endo o2 z (Some (emb (cc_gx cc), emb (cc_gy cc)))
     = pt_mulz o2 (ca c) (zeta (cc_scalar cc)) (Some (emb (cc_gx cc), emb (cc_gy cc))).
Proof.
  unfold quad_endo_check. cbv zeta. intros E.
  repeat (apply andb_prop in E; let X := fresh "X" in destruct E as [E X]).
  apply Z.eqb_eq in X0. apply Z.ltb_lt in E. split; [|split].
  - exact qc_a0.
  - set (z := zeta (cc_base cc)) in *. unfold o2, quad_ops. cbn [fmul f1].
    rewrite !(quad_mul_school o mnr _ (fl_rl _ (pf_laws _ _ _ HP)) Hm).
    unfold emb, inj2, quad_one. cbn [q0 q1 fst snd].
    assert (E3 : inj (z * z * z) = f1 o).
    { rewrite <- (pf_mod _ _ _ HP), X0. apply (zh_1 _ _ Hh). }
    rewrite !(zh_mul _ _ Hh) in E3. rewrite (zh_0 _ _ Hh), !(zh_mul _ _ Hh).
    set (w := inj z) in *. clearbody w.
    apply quad_ext; cbn [q0 q1].
    + transitivity (fmul o (fmul o (fmul o w w) w) (fmul o (fmul o w w) w)); [ring|].
      rewrite E3. ring.
    + ring.
  - destruct qc_split as (P2 & R1 & _ & _ & _ & Hg).
    pose proof (cf_gen _ _ _ _ quad_curve_facts) as (O & _). cbn [gen_aff ax ay] in O.
    pose proof (mult_check_ok o2b o2 phi2m Hphi H2 Heq cB c (Hb2 _) qc_3b qc_az quad_curve_laws
      (b2 (cc_gx cc)) (b2 (cc_gy cc)) _ _ _ ltac:(rewrite !Hb2; exact O) X) as M.
    rewrite (fh_mul _ _ _ Hphi), !Hb2, Z2Pos.id in M by lia. symmetry. exact M.
Qed.
End Quad.

(** ** Checks *)
Lemma bn256_g1_ok : prime_curve_check bn256_g1_consts bn256_g1_noroot = true.
Proof. vm_compute. reflexivity. Qed.
Lemma grumpkin_ok : prime_curve_check grumpkin_consts grumpkin_noroot = true.
Proof. vm_compute. reflexivity. Qed.
Lemma bls_g1_ok : prime_curve_check bls_g1_consts bls_g1_noroot = true.
Proof. vm_compute. reflexivity. Qed.
Lemma secp256k1_ok : prime_curve_check secp256k1_consts secp256k1_noroot = true.
Proof. vm_compute. reflexivity. Qed.
Lemma secq256k1_ok : prime_curve_check secq256k1_consts secq256k1_noroot = true.
Proof. vm_compute. reflexivity. Qed.
Lemma secp256r1_ok : prime_curve_check secp256r1_consts secp256r1_noroot = true.
Proof. vm_compute. reflexivity. Qed.
Lemma pluto_ok : prime_curve_check pluto_consts pluto_noroot = true.
Proof. vm_compute. reflexivity. Qed.
Lemma eris_ok : prime_curve_check eris_consts eris_noroot = true.
Proof. vm_compute. reflexivity. Qed.
Lemma bn256_g2_ok : quad_curve_check bn256_tower bn256_g2_consts bn256_g2_noroot = true.
Proof. vm_compute. reflexivity. Qed.
Lemma bls_g2_ok : quad_curve_check bls12381_tower bls_g2_consts bls_g2_noroot = true.
Proof. vm_compute. reflexivity. Qed.
Lemma triton_ok : quad_curve_check pluto_tower triton_consts triton_noroot = true.
Proof. vm_compute. reflexivity. Qed.

(** All [prime_curves] except secp256r1 (where a <> 0). *)
Definition endo_curves : list (curve_consts Z) :=
  [bn256_g1_consts; grumpkin_consts; bls_g1_consts; secp256k1_consts; secq256k1_consts;
   pluto_consts; eris_consts].
Lemma endo_curves_ok : forallb prime_endo_check endo_curves = true.
Proof. vm_compute. reflexivity. Qed.
Lemma quad_endo_ok : quad_endo_check bn256_tower bn256_g2_consts = true
  /\ quad_endo_check bls12381_tower bls_g2_consts = true
  /\ quad_endo_check pluto_tower triton_consts = true.
Proof. vm_compute. auto. Qed.
