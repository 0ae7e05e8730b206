(** Property theorem C50: the pairings are non-degenerate, and what a product of
    pairings says. *)
From Verif Require Import Base Algebra Pow Tower TowerFacts FiniteField PrimeField Primality Certs Field Params TowerParams TowerInst
  SpecCurve SpecCurveFacts Curve CurveFacts CurveGroup CurveParams CurveCheck CurveCerts CurveInst CrateCurves Compute
  PairingParams SpecPairing Pairing PairingFacts PairingInst PairingLines PairingMiller SerdeInst Divisors Bilinear PairingEval
  Props_Miller SmallOrder CofPoints CofCerts Props_Curve Props_Serde Props_Pairing Props_Cofactor Props_Bilinear.
From Bignums Require Import BigZ.
Local Open Scope Z_scope.

(** On the points of order r of both curves, [e] is 1 only at the identities. *)
Definition nondegenerate {F E} (o : fops F) (c1 : cconf F) (o2 : fops (quad F)) (c2 : cconf (quad F)) (o12 : fops E) (r : Z)
    (e : aff F -> aff (quad F) -> option E) : Prop :=
  forall A B P Q, arep o c1 A P -> arep o2 c2 B Q -> pt_mulz o (ca c1) r P = None -> pt_mulz o2 (ca c2) r Q = None ->
    (e A B = Some (f1 o12) <-> P = None \/ Q = None).
(** The terms ([mi]g1, [ni]g2) of a product. *)
Definition multiples {F} (o : fops F) (c1 : cconf F) (g1 : aff F) (o2 : fops (quad F)) (c2 : cconf (quad F)) (g2 : aff (quad F))
    (ks : list (Z * Z)) (ts : list (aff F * aff (quad F))) : Prop :=
  Forall2 (fun k t => arep o c1 (fst t) (pt_mulz o (ca c1) (fst k) (Some (ax g1, ay g1)))
    /\ arep o2 c2 (snd t) (pt_mulz o2 (ca c2) (snd k) (Some (ax g2, ay g2)))) ks ts.
Definition dot (ks : list (Z * Z)) : Z := fold_right (fun k s => fst k * snd k + s) 0 ks.
(** A product of pairings is e(g1, g2) to the sum of the mi ni; it is 1 exactly if r divides the sum. *)
Definition product_check {F E} (o : fops F) (c1 : cconf F) (g1 : aff F) (o2 : fops (quad F)) (c2 : cconf (quad F)) (g2 : aff (quad F))
    (o12 : fops E) (r : Z) (multi : list (aff F * aff (quad F)) -> option E) (e : aff F -> aff (quad F) -> option E) : Prop :=
  exists x, e g1 g2 = Some x /\ forall ks ts, multiples o c1 g1 o2 c2 g2 ks ts ->
    multi ts = Some (fpowz o12 x (dot ks mod r)) /\ (multi ts = Some (f1 o12) <-> (r | dot ks)).

Lemma nodup_map_in {A B} (f : A -> B) l : (forall x y, In x l -> In y l -> f x = f y -> x = y) -> NoDup l -> NoDup (map f l).
Proof.
  intros I N. induction N as [|a l Na N IH]; [constructor|]. cbn [map]. constructor.
  - intros J. apply in_map_iff in J. destruct J as (b & E & J). apply I in E; [|right; exact J|left; reflexivity]. subst b. contradiction.
  - apply IH. intros x y hx hy. apply I; right; assumption.
Qed.
Section Gen.
Context {F E : Type} (o : fops F) (c1 : cconf F) (HC1 : curve_laws o c1) (o2 : fops (quad F)) (c2 : cconf (quad F)) (HC2 : curve_laws o2 c2).
Context (o12 : fops E) (H12 : field_laws o12) (r : Z) (Hr : prime r).
Context (e : aff F -> aff (quad F) -> option E) (Hb : bilinear o c1 o2 c2 o12 r e).
Context (g1 : aff F) (g2 : aff (quad F)).
Notation on1 := (on_curve o (ca c1) (cb c1)). Notation on2 := (on_curve o2 (ca c2) (cb c2)).
Notation m1 := (pt_mulz o (ca c1)). Notation m2 := (pt_mulz o2 (ca c2)).
Notation G1 := (Some (ax g1, ay g1)). Notation G2 := (Some (ax g2, ay g2)).
Hypothesis O1 : on1 G1.
Hypothesis O2 : on2 G2.
Hypothesis R1 : m1 r G1 = None.
Hypothesis R2 : m2 r G2 = None.
Hypothesis K1 : forall P, on1 P -> m1 r P = None -> exists k, P = m1 k G1.
Hypothesis K2 : forall Q, on2 Q -> m2 r Q = None -> exists k, Q = m2 k G2.
Context (x : E) (Ex : e g1 g2 = Some x) (Nx : x <> f1 o12).
Let HR := fl_rl _ H12.
Add Ring RND : (rl_ring _ HR).
Lemma rep1 : arep o c1 g1 G1. Proof. split; [exact O1|split; reflexivity]. Qed.
Lemma rep2 : arep o2 c2 g2 G2. Proof. split; [exact O2|split; reflexivity]. Qed.
Lemma x_r : fpowz o12 x r = f1 o12.
Proof.
  destruct (proj1 Hb g1 g2 G1 G2 rep1 rep2 R2) as (y & Ey & Er). rewrite Ex in Ey. assert (x = y) as -> by congruence. exact Er.
Qed.
Lemma x_order k : 0 <= k -> (fpowz o12 x k = f1 o12 <-> (r | k)).
Proof.
  intros Hk. pose proof (prime_ge_2 _ Hr). split.
  - intros E1. destruct (Zdivide_dec r k) as [D|D]; [exact D|]. exfalso. apply Nx.
    apply (pow_coprime o12 H12 x r k); [lia|exact Hk| |exact x_r|exact E1].
    apply Zgcd_1_rel_prime. apply prime_rel_prime; assumption.
  - intros (j & ->). assert (0 <= j) by nia. rewrite Z.mul_comm, (fpowz_mul o12 HR), x_r by lia. apply (fpowz_one o12 HR).
Qed.
Lemma e_mult A B m n : arep o c1 A (m1 m G1) -> arep o2 c2 B (m2 n G2) -> e A B = Some (fpowz o12 x ((m * n) mod r)).
Proof. intros hA hB. destruct Hb as (_ & _ & _ & B4). exact (B4 g1 A g2 B G1 G2 m n x rep1 hA rep2 hB R2 Ex). Qed.
Lemma div_none1 m : (r | m) -> m1 m G1 = None.
Proof. intros (j & ->). rewrite (mulz_mul o c1 HC1), R1 by exact O1. apply pt_mulz_none. Qed.
Lemma div_none2 m : (r | m) -> m2 m G2 = None.
Proof. intros (j & ->). rewrite (mulz_mul o2 c2 HC2), R2 by exact O2. apply pt_mulz_none. Qed.
Theorem nondeg_of : nondegenerate o c1 o2 c2 o12 r e.
Proof.
  pose proof (prime_ge_2 _ Hr) as R.
  assert (X : forall A B m n, arep o c1 A (m1 m G1) -> arep o2 c2 B (m2 n G2) -> (e A B = Some (f1 o12) <-> (r | m * n))).
  { intros A B m n hA hB. rewrite (e_mult A B m n hA hB). split.
    - intros E1. apply some_inj in E1. apply x_order in E1; [|apply Z.mod_pos_bound; lia].
      apply Z.mod_divide; [lia|]. apply Z.mod_divide in E1; [|lia]. rewrite Z.mod_mod in E1 by lia. exact E1.
    - intros D. apply Z.mod_divide in D; [|lia]. rewrite D. reflexivity. }
  intros A B P Q hA hB kP kQ. destruct (K1 P (proj1 hA) kP) as (m & EP). destruct (K2 Q (proj1 hB) kQ) as (n & EQ). split.
  - intros E1. rewrite EP in hA |- *. rewrite EQ in hB |- *. apply (X A B m n hA hB) in E1. apply prime_mult in E1; [|exact Hr].
    destruct E1 as [D|D]; [left; exact (div_none1 m D)|right; exact (div_none2 n D)].
  - intros [N|N].
    + rewrite EQ in hB. rewrite N in hA. apply (X A B 0 n hA hB). exists 0. reflexivity.
    + rewrite EP in hA. rewrite N in hB. apply (X A B m 0 hA hB). exists 0. ring.
Qed.
Lemma x_pow_mod k : 0 <= k -> fpowz o12 x k = fpowz o12 x (k mod r).
Proof.
  pose proof (prime_ge_2 _ Hr) as R. intros hk. rewrite (Z.div_mod k r) at 1 by lia.
  pose proof (Z.mod_pos_bound k r ltac:(lia)). pose proof (Z.div_pos k r hk ltac:(lia)).
  rewrite (fpowz_add o12 HR), (fpowz_mul o12 HR), x_r, (fpowz_one o12 HR) by (try apply Z.mul_nonneg_nonneg; lia). ring.
Qed.
Context (multi : list (aff F * aff (quad F)) -> option E).
Hypothesis Hmulti : forall ts, multi ts = fold_right (fun t acc => match e (fst t) (snd t), acc with Some a, Some b => Some (fmul o12 a b) | _, _ => None end)
  (Some (f1 o12)) ts.
Theorem product_of : product_check o c1 g1 o2 c2 g2 o12 r multi e.
Proof.
  pose proof (prime_ge_2 _ Hr) as R. exists x. split; [exact Ex|]. intros ks ts H.
  assert (V : multi ts = Some (fpowz o12 x (dot ks mod r))).
  { rewrite Hmulti. induction H as [|k t ks ts (hA & hB) _ IH]; [reflexivity|]. cbn [fold_right]. rewrite IH, (e_mult _ _ _ _ hA hB). f_equal.
    pose proof (Z.mod_pos_bound (fst k * snd k) r ltac:(lia)). pose proof (Z.mod_pos_bound (dot ks) r ltac:(lia)).
    rewrite <- (fpowz_add o12 HR), x_pow_mod by lia. rewrite <- Zplus_mod. reflexivity. }
  split; [exact V|]. rewrite V. pose proof (Z.mod_pos_bound (dot ks) r ltac:(lia)) as B. split.
  - intros E1. apply some_inj in E1. apply x_order in E1; [|lia]. apply Z.mod_divide in E1; [|lia]. rewrite Z.mod_mod in E1 by lia.
    apply Z.mod_divide; [lia|exact E1].
  - intros D. apply Z.mod_divide in D; [|lia]. rewrite D. reflexivity.
Qed.
(** Every r-th root of unity is a value of the pairing. *)
Theorem onto_of y : fpowz o12 y r = f1 o12 -> exists k, 0 <= k < r /\ y = fpowz o12 x k.
Proof.
  intros Ey. pose proof (prime_ge_2 _ Hr) as R.
  set (l := map (fun i => fpowz o12 x (Z.of_nat i)) (seq 0 (Z.to_nat r))).
  destruct (in_dec (feqb_dec o12 H12) y l) as [I|N].
  { apply in_map_iff in I. destruct I as (i & <- & I). apply in_seq in I. exists (Z.of_nat i). split; [lia|reflexivity]. }
  exfalso. assert (ND : NoDup (y :: l)).
  { constructor; [exact N|]. apply nodup_map_in; [|apply seq_NoDup].
    assert (W : forall i j, (i < j)%nat -> (j < Z.to_nat r)%nat -> fpowz o12 x (Z.of_nat i) <> fpowz o12 x (Z.of_nat j)).
    { intros i j hi hj E1. assert (E2 : fpowz o12 x (Z.of_nat (j - i)) = f1 o12).
      { apply (mul_cancel_l o12 H12 (fpowz o12 x (Z.of_nat i))).
        - apply (fpowz_nonzero o12 H12). intros Z0. pose proof x_r as Xr. rewrite Z0, (fpowz_zero o12 HR) in Xr by lia. exact (fl_1_0 _ H12 (eq_sym Xr)).
        - rewrite <- (fpowz_add o12 HR) by lia. replace (Z.of_nat i + Z.of_nat (j - i)) with (Z.of_nat j) by lia. rewrite <- E1. ring. }
      apply x_order in E2; [|lia]. apply Z.divide_pos_le in E2; lia. }
    intros i j hi hj E1. apply in_seq in hi, hj. destruct (Nat.lt_trichotomy i j) as [L|[L|L]]; [|exact L|].
    - exfalso. exact (W i j L ltac:(lia) E1).
    - exfalso. exact (W j i L ltac:(lia) (eq_sym E1)). }
  pose proof (pow_roots_bound o12 H12 r (f1 o12) (y :: l) ltac:(lia) ND) as B.
  assert (A : forall z, In z (y :: l) -> fpowz o12 z r = f1 o12).
  { intros z [<- | I]; [exact Ey|]. apply in_map_iff in I. destruct I as (i & <- & I).
    rewrite <- (fpowz_mul o12 HR), Z.mul_comm, (fpowz_mul o12 HR), x_r by lia. apply (fpowz_one o12 HR). }
  specialize (B A). cbn [length] in B. unfold l in B. rewrite map_length, seq_length in B. lia.
Qed.
End Gen.

(** ** e(g1, g2) by computation *)
Definition nontrivial (p : Z) (x : option (quad (cubic (quad bigZ)))) : bool :=
  match x with
  | Some v => negb (BigZ.eqb (BigZ.modulo (BigZ.sub (q0 (k0 (q0 v))) 1%bigZ) (BigZ.of_Z p)) 0%bigZ)
  | None => false
  end.
Definition gen_b (cc : curve_consts Z) : aff bigZ := mk_aff (BigZ.of_Z (cc_gx cc)) (BigZ.of_Z (cc_gy cc)).
Definition gen_b2 (cc : curve_consts (Z * Z)) : aff (quad bigZ) := mk_aff (inj2 BigZ.of_Z (cc_gx cc)) (inj2 BigZ.of_Z (cc_gy cc)).
Lemma bn256_value : let o := bzi_ops (modulus bn256_fq) in
  nontrivial (modulus bn256_fq) (bn256_final_exp o BigZ.of_Z (bn256_core o BigZ.of_Z (gen_b bn256_g1_consts, gen_b2 bn256_g2_consts))) = true.
Proof. vm_compute. reflexivity. Qed.
Lemma pluto_value : let o := bzi_ops (modulus pluto_eris_fp) in
  nontrivial (modulus pluto_eris_fp) (pluto_final_exp o BigZ.of_Z (pluto_core o BigZ.of_Z (gen_b pluto_consts, gen_b2 triton_consts))) = true.
Proof. vm_compute. reflexivity. Qed.
Lemma bls_value : let o := bzi_ops (modulus bls12381_fq) in
  nontrivial (modulus bls12381_fq) (bls_final_exp o BigZ.of_Z (bls_core1 o (gen_b bls_g1_consts, gen_b2 bls_g2_consts))) = true.
Proof. vm_compute. reflexivity. Qed.

Section Value.
Context {F : Type} (p : Z) (o : fops F) (inj : Z -> F) (HP : prime_field p o inj).
Notation phi := (fun b => inj (BigZ.to_Z b)).
Lemma gen_b_map cc : aff_map phi (gen_b cc) = gen_aff inj cc.
Proof. unfold aff_map, gen_b, gen_aff. cbn [ax ay]. rewrite !BigZ.spec_of_Z. reflexivity. Qed.
Lemma gen_b2_map cc : aff_map (quad_map phi) (gen_b2 cc) = gen_aff (inj2 inj) cc.
Proof. unfold aff_map, gen_b2, gen_aff, quad_map, inj2. cbn [ax ay q0 q1]. rewrite !BigZ.spec_of_Z. reflexivity. Qed.
Lemma nontrivial_ne v mnr sq mnr2 : nontrivial p (Some v) = true ->
  quad_map (cubic_map (quad_map phi)) v <> f1 (fq12_ops (quad_ops o mnr sq) mnr2).
Proof.
  intros N E. apply (f_equal (fun z => q0 (k0 (q0 z)))) in E. change (inj (BigZ.to_Z (q0 (k0 (q0 v)))) = f1 o) in E.
  rewrite <- (zh_1 _ _ (pf_hom _ _ _ HP)) in E. apply (pf_eq _ _ _ HP) in E. pose proof (prime_ge_2 _ (pf_prime _ _ _ HP)) as P2.
  unfold nontrivial in N. apply negb_true_iff in N. rewrite <- not_true_iff_false in N. apply N. rewrite BigZ.spec_eqb. apply Z.eqb_eq.
  rewrite BigZ.spec_modulo, BigZ.spec_sub, BigZ.spec_of_Z. change (BigZ.to_Z 1%bigZ) with 1. change (BigZ.to_Z 0%bigZ) with 0.
  rewrite Zminus_mod, E, <- Zminus_mod. apply Z.mod_0_l. lia.
Qed.
End Value.
Lemma gen_live {F} (o : fops F) c (HC : curve_laws o c) g : on_curve o (ca c) (cb c) (Some (ax g, ay g)) -> aff_is_identity o g = false.
Proof. intros O. exact (aff_is_identity_repr o c HC g (Some (ax g, ay g)) (conj O (conj eq_refl eq_refl))). Qed.

Theorem bn256_e : forall F (o : fops F) inj, prime_field (modulus bn256_fq) o inj ->
  exists x, bn256_pairing o inj (gen_aff inj bn256_g1_consts) (gen_aff (inj2 inj) bn256_g2_consts) = Some x /\ x <> f1 (bn256_fq12 o).
Proof.
  intros F o inj HP. pose proof bn256_value as V. cbv zeta in V.
  pose proof (crate_curve_facts _ _ _ _ (cv_bn256_g1 F o inj HP)) as C1. pose proof (crate_curve_facts _ _ _ _ (cv_bn256_g2 F o inj HP)) as C2.
  destruct (bn256_final_exp _ _ _) as [v|] eqn:Ev; [|discriminate].
  exists (quad_map (cubic_map (quad_map (fun b => inj (BigZ.to_Z b)))) v). split; [|exact (nontrivial_ne _ o inj HP v _ _ _ V)].
  rewrite <- gen_b_map, <- gen_b2_map.
  refine (bn256_eval _ o _ (bzi_ihom _ o inj HP) _ inj _ _ _ _ v _ Ev).
  - intros z. rewrite BigZ.spec_of_Z. reflexivity.
  - rewrite gen_b_map. exact (gen_live o _ (cf_laws _ _ _ _ C1) _ (proj1 (cf_gen _ _ _ _ C1))).
  - rewrite gen_b2_map. exact (gen_live _ _ (cf_laws _ _ _ _ C2) _ (proj1 (cf_gen _ _ _ _ C2))).
Qed.

Theorem pluto_e : forall F (o : fops F) inj, prime_field (modulus pluto_eris_fp) o inj ->
  exists x, pluto_pairing o inj (gen_aff inj pluto_consts) (gen_aff (inj2 inj) triton_consts) = Some x /\ x <> f1 (pluto_fp12 o inj).
Proof.
  intros F o inj HP. pose proof pluto_value as V. cbv zeta in V.
  pose proof (crate_curve_facts _ _ _ _ (cv_pluto F o inj HP)) as C1. pose proof (crate_curve_facts _ _ _ _ (cv_triton F o inj HP)) as C2.
  destruct (pluto_final_exp _ _ _) as [v|] eqn:Ev; [|discriminate].
  exists (quad_map (cubic_map (quad_map (fun b => inj (BigZ.to_Z b)))) v). split; [|exact (nontrivial_ne _ o inj HP v _ _ _ V)].
  rewrite <- gen_b_map, <- gen_b2_map.
  refine (pluto_eval _ o _ (bzi_ihom _ o inj HP) _ inj _ _ _ _ v _ Ev).
  - intros z. rewrite BigZ.spec_of_Z. reflexivity.
  - rewrite gen_b_map. exact (gen_live o _ (cf_laws _ _ _ _ C1) _ (proj1 (cf_gen _ _ _ _ C1))).
  - rewrite gen_b2_map. exact (gen_live _ _ (cf_laws _ _ _ _ C2) _ (proj1 (cf_gen _ _ _ _ C2))).
Qed.
Theorem bls_e : forall F (o : fops F) inj, prime_field (modulus bls12381_fq) o inj ->
  exists x, bls_pairing o inj (gen_aff inj bls_g1_consts) (gen_aff (inj2 inj) bls_g2_consts) = Some x /\ x <> f1 (bls_fq12 o).
Proof.
  intros F o inj HP. pose proof bls_value as V. cbv zeta in V.
  pose proof (crate_curve_facts _ _ _ _ (cv_bls_g1 F o inj HP)) as C1. pose proof (crate_curve_facts _ _ _ _ (cv_bls_g2 F o inj HP)) as C2.
  destruct (bls_final_exp _ _ _) as [v|] eqn:Ev; [|discriminate].
  exists (quad_map (cubic_map (quad_map (fun b => inj (BigZ.to_Z b)))) v). split; [|exact (nontrivial_ne _ o inj HP v _ _ _ V)].
  rewrite <- gen_b_map, <- gen_b2_map.
  refine (bls_eval _ o _ (bzi_ihom _ o inj HP) _ inj _ _ _ _ v _ Ev).
  - intros z. rewrite BigZ.spec_of_Z. reflexivity.
  - rewrite gen_b_map. exact (gen_live o _ (cf_laws _ _ _ _ C1) _ (proj1 (cf_gen _ _ _ _ C1))).
  - rewrite gen_b2_map. exact (gen_live _ _ (cf_laws _ _ _ _ C2) _ (proj1 (cf_gen _ _ _ _ C2))).
Qed.

(** [e] is non-degenerate, its values are all r-th roots of unity of Fp12, and the
    product of pairings computed by [multi] (Miller loop over a list, one final
    exponentiation) is 1 exactly for the relations in the exponents. *)
Definition perfect {F E} (o : fops F) (c1 : cconf F) (g1 : aff F) (o2 : fops (quad F)) (c2 : cconf (quad F)) (g2 : aff (quad F))
    (o12 : fops E) (r : Z) (multi : list (aff F * aff (quad F)) -> option E) (e : aff F -> aff (quad F) -> option E) : Prop :=
  nondegenerate o c1 o2 c2 o12 r e /\ product_check o c1 g1 o2 c2 g2 o12 r multi e
  /\ forall y, fpowz o12 y r = f1 o12 -> exists k, forall A, arep o c1 A (pt_mulz o (ca c1) k (Some (ax g1, ay g1))) -> e A g2 = Some y.
Section All.
Context {F : Type} (o : fops F) (inj : Z -> F) (p : Z) (sc : fconf) (c : Z) (o2 : fops (quad F)) (o12 : fops (quad (cubic (quad F)))).
Context (cj : quad (cubic (quad F)) -> quad (cubic (quad F))).
Context (ml : list (aff F * aff (quad F)) -> quad (cubic (quad F))).
Context (fe : quad (cubic (quad F)) -> option (quad (cubic (quad F)))).
Context (pr : aff F -> aff (quad F) -> option (quad (cubic (quad F)))).
Context (HE : crate_engine o inj p sc c o2 o12 cj ml fe pr).
Notation r := (modulus sc).
Context (c1 : cconf F) (g1 : aff F) (C1 : curve_facts o c1 g1 r) (c2 : cconf (quad F)) (g2 : aff (quad F)) (C2 : curve_facts o2 c2 g2 r).
Hypothesis Hb : bilinear o c1 o2 c2 o12 r pr.
Hypothesis K1 : forall P, on_curve o (ca c1) (cb c1) P -> pt_mulz o (ca c1) r P = None -> exists k, P = pt_mulz o (ca c1) k (Some (ax g1, ay g1)).
Hypothesis K2 : forall P, on_curve o2 (ca c2) (cb c2) P -> pt_mulz o2 (ca c2) r P = None -> exists k, P = pt_mulz o2 (ca c2) k (Some (ax g2, ay g2)).
Hypothesis He : exists x, pr g1 g2 = Some x /\ x <> f1 o12.
Theorem all_perfect : perfect o c1 g1 o2 c2 g2 o12 r (fun ts => fe (ml ts)) pr.
Proof.
  destruct He as (x & Ex & Nx). pose proof (crate_engine_facts _ _ _ _ _ _ _ _ _ _ _ HE) as EF.
  pose proof (en_field _ _ _ _ _ _ _ _ _ _ EF) as H12. pose proof (en_r _ _ _ _ _ _ _ _ _ _ EF) as Hr.
  pose proof (proj1 (cf_gen _ _ _ _ C1)) as O1. pose proof (proj1 (cf_gen _ _ _ _ C2)) as O2.
  pose proof (cf_order _ _ _ _ C1) as R1. pose proof (cf_order _ _ _ _ C2) as R2.
  split; [|split].
  - exact (nondeg_of o c1 (cf_laws _ _ _ _ C1) o2 c2 (cf_laws _ _ _ _ C2) o12 H12 r Hr pr Hb g1 g2 O1 O2 R1 R2 K1 K2 x Ex Nx).
  - exact (product_of o c1 o2 c2 o12 H12 r Hr pr Hb g1 g2 O1 O2 R2 x Ex Nx (fun ts => fe (ml ts)) (C39_pairing _ _ _ _ _ _ _ _ _ _ _ _ HE)).
  - intros y Ey. destruct (onto_of o c1 o2 c2 o12 H12 r Hr pr Hb g1 g2 O1 O2 R2 x Ex Nx y Ey) as (k & Bk & ->). exists k. intros A hA.
    assert (R := rep2 o2 c2 g2 O2). rewrite <- (mulz_1 _ _ (cf_laws _ _ _ _ C2) _ O2) in R.
    rewrite (e_mult o c1 o2 c2 o12 r pr Hb g1 g2 O1 O2 R2 x Ex A g2 k 1 hA R), Z.mul_1_r, Z.mod_small by exact Bk. reflexivity.
Qed.
End All.

Theorem C50_bn256 : forall F (o : fops F) inj, prime_field (modulus bn256_fq) o inj ->
  perfect o (curve_of_bn256_g1 o inj bn256_g1_consts) (gen_aff inj bn256_g1_consts)
    (bn256_fq2 o) (curve_of (bn256_fq2 o) (inj2 inj) bn256_g2_consts) (gen_aff (inj2 inj) bn256_g2_consts)
    (bn256_fq12 o) (modulus bn256_fr) (fun ts => bn256_final_exp o inj (bn256_miller o inj ts)) (bn256_pairing o inj).
Proof.
  intros F o inj HP.
  pose proof (crate_curve_facts _ _ _ _ (cv_bn256_g1 F o inj HP)) as C1. pose proof (crate_curve_facts _ _ _ _ (cv_bn256_g2 F o inj HP)) as C2.
  refine (all_perfect o inj _ _ _ _ _ _ _ _ _ (eng_bn256 o inj HP) _ _ C1 _ _ C2 (C49_bn256 F o inj HP) _ _ (bn256_e F o inj HP)).
  - intros P OP _. exact (proj1 (C33_whole _ _ _ _ _ (wc_bn256_g1 F o inj HP) P OP)).
  - intros Q OQ KQ. exact (proj1 (cs_group _ _ _ _ _ _ _ (C43_bn256_g2 F o inj HP) Q OQ) KQ).
Qed.
Print Assumptions C50_bn256.
Theorem C50_pluto : forall F (o : fops F) inj, prime_field (modulus pluto_eris_fp) o inj ->
  perfect o (curve_of o inj pluto_consts) (gen_aff inj pluto_consts)
    (pluto_fp2 o) (curve_of (pluto_fp2 o) (inj2 inj) triton_consts) (gen_aff (inj2 inj) triton_consts)
    (pluto_fp12 o inj) (modulus pluto_eris_fq) (fun ts => pluto_final_exp o inj (pluto_miller o inj ts)) (pluto_pairing o inj).
Proof.
  intros F o inj HP.
  pose proof (crate_curve_facts _ _ _ _ (cv_pluto F o inj HP)) as C1. pose proof (crate_curve_facts _ _ _ _ (cv_triton F o inj HP)) as C2.
  refine (all_perfect o inj _ _ _ _ _ _ _ _ _ (eng_pluto o inj HP) _ _ C1 _ _ C2 (C49_pluto F o inj HP) _ _ (pluto_e F o inj HP)).
  - intros P OP _. exact (proj1 (C33_whole _ _ _ _ _ (wc_pluto F o inj HP) P OP)).
  - intros Q OQ KQ. exact (proj1 (cs_group _ _ _ _ _ _ _ (C43_triton F o inj HP) Q OQ) KQ).
Qed.
Print Assumptions C50_pluto.
Theorem C50_bls12381 : forall F (o : fops F) inj, prime_field (modulus bls12381_fq) o inj ->
  perfect o (curve_of o inj bls_g1_consts) (gen_aff inj bls_g1_consts)
    (bls_fq2 o) (curve_of (bls_fq2 o) (inj2 inj) bls_g2_consts) (gen_aff (inj2 inj) bls_g2_consts)
    (bls_fq12 o) (modulus bls12381_fr) (fun ts => bls_final_exp o inj (bls_miller o ts)) (bls_pairing o inj).
Proof.
  intros F o inj HP.
  pose proof (crate_curve_facts _ _ _ _ (cv_bls_g1 F o inj HP)) as C1. pose proof (crate_curve_facts _ _ _ _ (cv_bls_g2 F o inj HP)) as C2.
  refine (all_perfect o inj _ _ _ _ _ _ _ _ _ (eng_bls12381 o inj HP) _ _ C1 _ _ C2 (C49_bls12381 F o inj HP) _ _ (bls_e F o inj HP)).
  - intros P OP KP. exact (proj1 (cs_group _ _ _ _ _ _ _ (C43_bls_g1 F o inj HP) P OP) KP).
  - intros Q OQ KQ. exact (proj1 (cs_group _ _ _ _ _ _ _ (C43_bls_g2 F o inj HP) Q OQ) KQ).
Qed.
Print Assumptions C50_bls12381.

(** The hypotheses hold: e([2]g1, [3]g2) e([-6]g1, g2) is 1 and e([2]g1, [3]g2) e([-5]g1, g2) is not. *)
Lemma some_rep {F} (o : fops F) c (HC : curve_laws o c) P : on_curve o (ca c) (cb c) P -> exists A, arep o c A P.
Proof.
  intros O. destruct P as [[x y]|].
  - exists (mk_aff x y). split; [exact O|split; reflexivity].
  - exists (aff_identity o). repeat split.
Qed.
Example ex_C50_bls12381 : let o := zp_ops (modulus bls12381_fq) in let inj := zp_inj (modulus bls12381_fq) in
  let mult := multiples o (curve_of o inj bls_g1_consts) (gen_aff inj bls_g1_consts)
    (bls_fq2 o) (curve_of (bls_fq2 o) (inj2 inj) bls_g2_consts) (gen_aff (inj2 inj) bls_g2_consts) in
  let multi := fun ts => bls_final_exp o inj (bls_miller o ts) in
  prime_field (modulus bls12381_fq) o inj
  /\ (exists ts, mult [(2, 3); (-6, 1)] ts /\ multi ts = Some (f1 (bls_fq12 o)))
  /\ exists ts, mult [(2, 3); (-5, 1)] ts /\ multi ts <> Some (f1 (bls_fq12 o)).
Proof.
  assert (HP : prime_field (modulus bls12381_fq) (zp_ops (modulus bls12381_fq)) (zp_inj (modulus bls12381_fq))) by (apply ex_field; in_fields).
  cbv zeta. split; [exact HP|]. set (o := zp_ops (modulus bls12381_fq)) in *. set (inj := zp_inj (modulus bls12381_fq)) in *.
  destruct (C50_bls12381 _ o inj HP) as (_ & (x & Ex & H) & _).
  pose proof (crate_curve_facts _ _ _ _ (cv_bls_g1 _ o inj HP)) as C1. pose proof (crate_curve_facts _ _ _ _ (cv_bls_g2 _ o inj HP)) as C2.
  assert (W : forall ks, exists ts, multiples o (curve_of o inj bls_g1_consts) (gen_aff inj bls_g1_consts)
    (bls_fq2 o) (curve_of (bls_fq2 o) (inj2 inj) bls_g2_consts) (gen_aff (inj2 inj) bls_g2_consts) ks ts).
  { induction ks as [|[m n] ks (ts & IH)]; [exists []; constructor|].
    destruct (some_rep o _ (cf_laws _ _ _ _ C1) _ (mulz_on o _ (cf_laws _ _ _ _ C1) m _ (proj1 (cf_gen _ _ _ _ C1)))) as (A & hA).
    destruct (some_rep _ _ (cf_laws _ _ _ _ C2) _ (mulz_on _ _ (cf_laws _ _ _ _ C2) n _ (proj1 (cf_gen _ _ _ _ C2)))) as (B & hB).
    exists ((A, B) :: ts). constructor; [split; assumption|exact IH]. }
  split.
  - destruct (W [(2, 3); (-6, 1)]) as (ts & T). exists ts. split; [exact T|]. apply (proj2 (H _ _ T)). exists 0. reflexivity.
  - destruct (W [(2, 3); (-5, 1)]) as (ts & T). exists ts. split; [exact T|]. intros E. apply (proj2 (H _ _ T)) in E. 
    change (dot [(2, 3); (-5, 1)]) with 1 in E. apply Z.divide_1_r_nonneg in E; [discriminate|]. vm_compute. discriminate.
Qed.
