(** The generic tower results for the three concrete towers. *)
From Verif Require Import Base Algebra Pow Tower SpecTower TowerFacts FiniteField Field Params
  PrimeField FrobeniusFacts Primality Certs Compute TowerParams.
From Bignums Require Import BigZ.
Local Open Scope Z_scope.

(** ** Executable checks on the constants *)
Section Check.
Variable t : tower_conf.
Let p := modulus (t_field t).
Let ob := bz_ops (BigZ.of_Z p).
Let bmnr (x : bigZ) : bigZ := fmul ob (BigZ.of_Z (t_beta t)) x.
Let o2b := quad_ops ob bmnr (quad_square ob bmnr).
Definition b2 (c : Z * Z) : quad bigZ := mk_quad (BigZ.of_Z (fst c)) (BigZ.of_Z (snd c)).

Definition tab_okb (n : nat) (l : list (quad bigZ)) (g : quad bigZ) : bool :=
  feqb o2b (nth 0 l (f0 o2b)) (f1 o2b) && feqb o2b (nth 1 l (f0 o2b)) g
  && forallb (fun i => feqb o2b (nth ((i + 1) mod n) l (f0 o2b))
                         (fmul o2b (quad_conjugate ob (nth i l (f0 o2b))) g)) (seq 0 n).

Definition xi_norm : Z := fst (t_xi t) * fst (t_xi t) - t_beta t * (snd (t_xi t) * snd (t_xi t)).

Definition tower_check : bool :=
  (2 <? p) && (p mod 6 =? 1)
  && negb (t_beta t mod p =? 0) && negb (bpow (t_beta t) ((p - 1) / 2) p =? 1)
  && negb (xi_norm mod p =? 0) && negb (bpow xi_norm ((p - 1) / 2) p =? 1)
  && negb (bpow xi_norm ((p - 1) / 3) p =? 1)
  && (let g := fpowz o2b (b2 (t_xi t)) ((p - 1) / 6) in
      let g2 := fmul o2b g g in
      let gam := fmul o2b (quad_conjugate ob g) g in
      tab_okb 6 (map b2 (t_c6_1 t)) g2 && tab_okb 6 (map b2 (t_c6_2 t)) (fmul o2b g2 g2)
      && tab_okb 12 (map b2 (t_c12 t)) g
      && feqb o2b (fmul o2b gam gam) (fsub o2b gam (f1 o2b))).

(** ** Consequences *)
Context {F : Type} (o : fops F) (inj : Z -> F) (HP : prime_field p o inj).
Context (mnr : F -> F) (sq : quad F -> quad F) (mnr2 : quad F -> quad F).
Hypothesis Hm : forall x, mnr x = fmul o (inj (t_beta t)) x.
Hypothesis Hsq : forall a, sq a = quad_mul o mnr a a.
Let o2 := quad_ops o mnr sq.
Let xi := inj2 inj (t_xi t).
Hypothesis Hm2 : forall x, mnr2 x = fmul o2 xi x.
Hypothesis Hc : tower_check = true.
Let o6 := fq6_ops o2 mnr2.
Let o12 := fq12_ops o2 mnr2.
Let H := pf_laws _ _ _ HP.
Let HR := fl_rl _ H.

Lemma tc_split :
  2 < p /\ p mod 6 = 1 /\ t_beta t mod p <> 0 /\ bpow (t_beta t) ((p - 1) / 2) p <> 1
  /\ xi_norm mod p <> 0 /\ bpow xi_norm ((p - 1) / 2) p <> 1 /\ bpow xi_norm ((p - 1) / 3) p <> 1.
Proof.
  pose proof Hc as E0. unfold tower_check in E0.
  repeat (apply andb_prop in E0; let E := fresh "E" in destruct E0 as [E0 E]).
  repeat match goal with E : negb _ = true |- _ =>
    apply negb_true_iff in E; apply Z.eqb_neq in E end.
  repeat match goal with E : (_ =? _) = true |- _ => apply Z.eqb_eq in E end.
  apply Z.ltb_lt in E0. repeat split; assumption.
Qed.

Lemma tc_p2 : (p - 1) mod 2 = 0.
Proof.
  pose proof tc_split as (_ & E & _). pose proof (Z.div_mod p 6 ltac:(lia)) as D.
  replace (p - 1) with (p / 6 * 3 * 2) by lia. apply Z.mod_mul. lia.
Qed.
Lemma tc_p3 : (p - 1) mod 3 = 0.
Proof.
  pose proof tc_split as (_ & E & _). pose proof (Z.div_mod p 6 ltac:(lia)) as D.
  replace (p - 1) with (p / 6 * 2 * 3) by lia. apply Z.mod_mul. lia.
Qed.

Lemma tc_beta x : fmul o x x <> inj (t_beta t).
Proof.
  pose proof tc_split as (E1 & _ & E3 & E4 & _).
  apply (pf_nonsquare p o inj HP); auto using tc_p2.
Qed.

Theorem tower_fp2_field : field_laws o2.
Proof. exact (quad_field_laws o mnr _ H Hm tc_beta sq Hsq). Qed.
Theorem tower_fp2_is0 : is0_law o2.
Proof. exact (quad_is0_law o mnr sq (pf_is0 _ _ _ HP)). Qed.
Theorem tower_fp2_finite : finite_field o2 (p * p).
Proof. exact (quad_finite o mnr _ p (prime_field_finite _ _ _ HP) Hm tc_beta sq Hsq). Qed.

Let H2 := tower_fp2_field.
Let HR2 := fl_rl _ H2.
Add Ring TIR : (rl_ring _ HR).
Add Ring TIR2 : (rl_ring _ HR2).

Lemma xi_norm_val : quad_norm o mnr xi = inj xi_norm.
Proof.
  pose proof (pf_hom _ _ _ HP) as Hh.
  rewrite (quad_norm_val o mnr _ HR Hm). unfold xi_norm, xi, inj2. cbn [q0 q1].
  rewrite (inj_sub o HR inj Hh), !(zh_mul _ _ Hh). reflexivity.
Qed.

Lemma xi_nonsquare x : fmul o2 x x <> xi.
Proof.
  pose proof tc_split as (E1 & _ & _ & _ & E5 & E6 & _).
  intros E. apply (pf_nonsquare p o inj HP xi_norm E1 tc_p2 E5 E6 (quad_norm o mnr x)).
  rewrite <- xi_norm_val, <- E. symmetry. exact (quad_norm_mul o mnr _ HR Hm x x).
Qed.

Lemma xi_noncube x : fmul o2 x (fmul o2 x x) <> xi.
Proof.
  pose proof tc_split as (E1 & _ & _ & _ & E5 & _ & E7).
  intros E. apply (pf_powz_nonresidue p o inj HP xi_norm 3 ltac:(lia) tc_p3 E5 E7 (quad_norm o mnr x)).
  rewrite <- xi_norm_val, <- E.
  change (fmul o2) with (quad_mul o mnr). rewrite !(quad_norm_mul o mnr _ HR Hm).
  change (fpowz o (quad_norm o mnr x) 3)
    with (fmul o (quad_norm o mnr x) (fmul o (quad_norm o mnr x) (quad_norm o mnr x))). reflexivity.
Qed.

Theorem tower_fp6_field : field_laws o6.
Proof. exact (cubic_field_laws o2 mnr2 xi H2 Hm2 xi_noncube). Qed.

Let Hv : forall x, cubic_mul_by_v mnr2 x = fmul o6 (cubic_v o2) x :=
  cubic_mul_by_v_spec o2 mnr2 xi HR2 Hm2.

Theorem tower_fp12_field : field_laws o12.
Proof.
  exact (quad_field_laws o6 (cubic_mul_by_v mnr2) (cubic_v o2) tower_fp6_field Hv
    (v_nonsquare o2 mnr2 xi H2 Hm2 xi_nonsquare) _
    (quad_square_mul o6 (cubic_mul_by_v mnr2) (cubic_v o2) (fl_rl _ tower_fp6_field) Hv)).
Qed.

Theorem tower_fp12_finite : finite_field o12 (p ^ 12).
Proof.
  replace (p ^ 12) with (p * p * (p * p * (p * p)) * (p * p * (p * p * (p * p)))) by ring.
  exact (quad_finite o6 (cubic_mul_by_v mnr2) (cubic_v o2) _
    (cubic_finite o2 mnr2 xi _ tower_fp2_finite Hm2 xi_noncube) Hv
    (v_nonsquare o2 mnr2 xi H2 Hm2 xi_nonsquare) _
    (quad_square_mul o6 (cubic_mul_by_v mnr2) (cubic_v o2) (fl_rl _ tower_fp6_field) Hv)).
Qed.

(** Everything raised to the easy-part exponent lies in the cyclotomic subgroup. *)
Lemma cyclotomic_image x : x <> f0 o12 ->
  fpowz o12 (fpowz o12 x ((p ^ 6 - 1) * (p ^ 2 + 1))) (p ^ 4 - p ^ 2 + 1) = f1 o12.
Proof.
  intros Hx. pose proof (pf_gt1 _ _ _ HP) as P1.
  assert (P2 : p ^ 2 <= p ^ 4) by (apply Z.pow_le_mono_r; lia).
  assert (P6 : 1 <= p ^ 6) by (change 1 with (p ^ 0); apply Z.pow_le_mono_r; lia).
  assert (P0 : 0 <= p ^ 2) by (apply Z.pow_nonneg; lia).
  rewrite <- fpowz_mul by (try exact (fl_rl _ tower_fp12_field); lia || nia).
  replace ((p ^ 6 - 1) * (p ^ 2 + 1) * (p ^ 4 - p ^ 2 + 1)) with (p ^ 12 - 1) by ring.
  exact (fermat o12 tower_fp12_field _ tower_fp12_finite x Hx).
Qed.

(** *** Transfer of the table checks *)
Let phi (b : bigZ) : F := inj (BigZ.to_Z b).
Let phi2m := quad_map phi.
Let Hphi : fhom ob o phi := bz_hom p o inj HP.

Lemma bmnr_hom x : phi (bmnr x) = mnr (phi x).
Proof.
  unfold bmnr. rewrite (fh_mul _ _ _ Hphi), Hm. unfold phi at 1. rewrite BigZ.spec_of_Z. reflexivity.
Qed.

Lemma phi2_hom : fhom o2b o2 phi2m.
Proof.
  apply quad_hom; [exact Hphi|exact bmnr_hom|].
  intros x. rewrite (quad_square_hom ob o phi Hphi bmnr mnr bmnr_hom), Hsq.
  apply (quad_square_mul o mnr _ HR Hm).
Qed.

Lemma phi2_eqb a b : feqb o2b a b = true -> phi2m a = phi2m b.
Proof.
  cbn [o2b quad_ops feqb]. unfold quad_eqb. intros E. apply andb_prop in E. destruct E as [E0 E1].
  cbn [ob bz_ops feqb] in E0, E1. apply BigZ.eqb_eq in E0, E1.
  unfold phi2m, quad_map, phi. rewrite E0, E1. reflexivity.
Qed.

Lemma phi2_b2 c : phi2m (b2 c) = inj2 inj c.
Proof.
  unfold phi2m, quad_map, b2, inj2, phi. cbn [q0 q1]. rewrite !BigZ.spec_of_Z. reflexivity.
Qed.

Lemma phi2_nth i l : phi2m (nth i (map b2 l) (f0 o2b)) = nth i (map (inj2 inj) l) (f0 o2).
Proof.
  rewrite <- (fh_0 _ _ _ phi2_hom), <- (map_nth phi2m), map_map. f_equal.
  apply map_ext. apply phi2_b2.
Qed.

Lemma tab_okb_spec n l g : tab_okb n (map b2 l) g = true ->
  tab_ok o2 (quad_conjugate o) n (map (inj2 inj) l) (phi2m g).
Proof.
  unfold tab_okb. intros E. apply andb_prop in E. destruct E as [E E3].
  apply andb_prop in E. destruct E as [E1 E2]. apply phi2_eqb in E1, E2.
  rewrite phi2_nth in E1, E2. rewrite (fh_1 _ _ _ phi2_hom) in E1.
  split; [exact E1|]. split; [exact E2|]. intros i Hi.
  rewrite forallb_forall in E3. specialize (E3 i). apply phi2_eqb in E3; [|apply in_seq; lia].
  rewrite (fh_mul _ _ _ phi2_hom) in E3. unfold phi2m in E3 at 2.
  rewrite (quad_conj_hom ob o phi Hphi) in E3. fold phi2m in E3. rewrite !phi2_nth in E3. exact E3.
Qed.

Lemma tower_tables :
  let g := fpowz o2 xi ((p - 1) / 6) in
  let gam := fmul o2 (quad_conjugate o g) g in
  tab_ok o2 (quad_conjugate o) 6 (map (inj2 inj) (t_c6_1 t)) (fmul o2 g g)
  /\ tab_ok o2 (quad_conjugate o) 6 (map (inj2 inj) (t_c6_2 t)) (fmul o2 (fmul o2 g g) (fmul o2 g g))
  /\ tab_ok o2 (quad_conjugate o) 12 (map (inj2 inj) (t_c12 t)) g
  /\ fmul o2 gam gam = fsub o2 gam (f1 o2).
Proof.
  intros g gam. pose proof Hc as E. unfold tower_check in E. apply andb_prop in E. destruct E as [_ E].
  cbv zeta in E.
  assert (Eg : phi2m (fpowz o2b (b2 (t_xi t)) ((p - 1) / 6)) = g).
  { rewrite (fh_powz _ _ _ phi2_hom), phi2_b2. reflexivity. }
  apply andb_prop in E; destruct E as [E E4]. apply andb_prop in E; destruct E as [E E3].
  apply andb_prop in E; destruct E as [E1 E2].
  apply tab_okb_spec in E1, E2, E3. apply phi2_eqb in E4.
  rewrite ?(fh_sub _ _ _ phi2_hom), ?(fh_mul _ _ _ phi2_hom), ?(fh_1 _ _ _ phi2_hom), Eg in *.
  change (phi2m (quad_conjugate ob (fpowz o2b (b2 (t_xi t)) ((p - 1) / 6))))
    with (quad_map phi (quad_conjugate ob (fpowz o2b (b2 (t_xi t)) ((p - 1) / 6)))) in E4.
  rewrite (quad_conj_hom ob o phi Hphi) in E4. change (quad_map phi) with phi2m in E4.
  rewrite Eg in E4. auto.
Qed.

Let Hconj : forall x, fpowz o2 x p = quad_conjugate o x.
Proof.
  pose proof tc_split as (E1 & _).
  exact (quad_frobenius_1 p o inj HP mnr _ sq E1 Hm tc_beta Hsq).
Qed.
Let Hf0 : forall x, fq2_frobenius o 0 x = x := fun x => eq_refl.
Let Hfs : forall k x, 0 <= k -> fq2_frobenius o (k + 1) x = quad_conjugate o (fq2_frobenius o k x).
Proof. intros k x Hk. exact (fq2_frobenius_succ p o inj HP k x Hk). Qed.
Let Hz := quad_zhom p o inj HP mnr _ sq Hm.
Let Hch := quad_char p o inj HP mnr sq.

Theorem tower_frob2_pow k a : 0 <= k -> fq2_frobenius o k a = fpowz o2 a (p ^ k).
Proof.
  pose proof tc_split as (E1 & _).
  exact (fq2_frobenius_pow p o inj HP mnr _ sq E1 Hm tc_beta Hsq k a).
Qed.

Theorem tower_frob6_pow k a : 0 <= k -> tower_frob6 o inj t o2 k a = fpowz o6 a (p ^ k).
Proof.
  pose proof tc_split as (_ & E2 & _). pose proof tower_tables as (T1 & T2 & T3 & T4).
  apply (fq6_frobenius_pow p o2 H2 (quad_inj o inj) Hz mnr2 xi (quad_conjugate o) (fq2_frobenius o)
    (pf_prime _ _ _ HP) Hch E2 Hm2 Hconj Hf0 Hfs _ _ T1 T2).
Qed.

Theorem tower_frob12_pow k a : 0 <= k -> tower_frob12 o inj t o2 k a = fpowz o12 a (p ^ k).
Proof.
  pose proof tc_split as (_ & E2 & _). pose proof tower_tables as (T1 & T2 & T3 & T4).
  apply (fq12_frobenius_pow p o2 H2 (quad_inj o inj) Hz mnr2 xi (quad_conjugate o) (fq2_frobenius o)
    (pf_prime _ _ _ HP) Hch E2 Hm2 Hconj Hf0 Hfs _ _ _ T1 T2 T3).
Qed.

Theorem tower_cyclotomic_square f :
  fpowz o12 f (p ^ 4 - p ^ 2 + 1) = f1 o12 -> cyclotomic_square o2 mnr2 f = fmul o12 f f.
Proof.
  pose proof tc_split as (_ & E2 & _). pose proof tower_tables as (T1 & T2 & T3 & T4).
  apply (cyclotomic_square_correct p o2 H2 (quad_inj o inj) Hz mnr2 xi (quad_conjugate o) (fq2_frobenius o)
    (pf_prime _ _ _ HP) Hch E2 Hm2 Hconj Hf0 Hfs _ _ _ T1 T2 T3).
  - intros x. exact (quad_conj_conj p o inj HP x).
  - exact T4.
Qed.
End Check.

Lemma bn256_tower_ok : tower_check bn256_tower = true.
Proof. vm_compute. reflexivity. Qed.
Lemma bls_tower_ok : tower_check bls12381_tower = true.
Proof. vm_compute. reflexivity. Qed.
Lemma pluto_tower_ok : tower_check pluto_tower = true.
Proof. vm_compute. reflexivity. Qed.

(** ** The literals of the source denote the values used *)
Lemma bn256_tables_denote :
  lits_denote (modulus bn256_fq) 4 bn256_c6_1_src bn256_c6_1 &&
  lits_denote (modulus bn256_fq) 4 bn256_c6_2_src bn256_c6_2 &&
  lits_denote (modulus bn256_fq) 4 bn256_c12_src bn256_c12 = true.
Proof. vm_compute. reflexivity. Qed.
Lemma bls_tables_denote :
  lits_denote (modulus bls12381_fq) 6 bls12381_c6_1_src bls12381_c6_1 &&
  lits_denote (modulus bls12381_fq) 6 bls12381_c6_2_src bls12381_c6_2 &&
  lits_denote (modulus bls12381_fq) 6 bls12381_c12_src bls12381_c12 = true.
Proof. vm_compute. reflexivity. Qed.
Lemma pluto_tables_denote :
  lits_denote (modulus pluto_eris_fp) 7 pluto_c6_1_src pluto_c6_1 &&
  lits_denote (modulus pluto_eris_fp) 7 pluto_c6_2_src pluto_c6_2 &&
  lits_denote (modulus pluto_eris_fp) 7 pluto_c12_src pluto_c12 = true.
Proof. vm_compute. reflexivity. Qed.

(** ** Summary of a tower *)
Record tower_facts (t : tower_conf) {F : Type} (o : fops F) (inj : Z -> F)
    (o2 : fops (quad F)) (mnr2 : quad F -> quad F) : Prop := {
  tf_2 : field_laws o2;
  tf_2z : is0_law o2;
  tf_2fin : finite_field o2 (modulus (t_field t) * modulus (t_field t));
  tf_mnr : forall x, mnr2 x = fmul o2 (inj2 inj (t_xi t)) x;
  tf_6 : field_laws (fq6_ops o2 mnr2);
  tf_12 : field_laws (fq12_ops o2 mnr2);
  tf_12fin : finite_field (fq12_ops o2 mnr2) (modulus (t_field t) ^ 12);
  tf_image : forall x, x <> f0 (fq12_ops o2 mnr2) ->
    fpowz (fq12_ops o2 mnr2) (fpowz (fq12_ops o2 mnr2) x
       ((modulus (t_field t) ^ 6 - 1) * (modulus (t_field t) ^ 2 + 1)))
       (modulus (t_field t) ^ 4 - modulus (t_field t) ^ 2 + 1) = f1 (fq12_ops o2 mnr2);
  tf_frob2 : forall k a, 0 <= k -> fq2_frobenius o k a = fpowz o2 a (modulus (t_field t) ^ k);
  tf_frob6 : forall k a, 0 <= k ->
    tower_frob6 o inj t o2 k a = fpowz (fq6_ops o2 mnr2) a (modulus (t_field t) ^ k);
  tf_frob12 : forall k a, 0 <= k ->
    tower_frob12 o inj t o2 k a = fpowz (fq12_ops o2 mnr2) a (modulus (t_field t) ^ k);
  tf_cyclo : forall f,
    fpowz (fq12_ops o2 mnr2) f (modulus (t_field t) ^ 4 - modulus (t_field t) ^ 2 + 1)
      = f1 (fq12_ops o2 mnr2) ->
    cyclotomic_square o2 mnr2 f = fmul (fq12_ops o2 mnr2) f f }.

Lemma tower_facts_intro t {F} (o : fops F) inj mnr sq mnr2 :
  tower_check t = true -> prime_field (modulus (t_field t)) o inj ->
  (forall x, mnr x = fmul o (inj (t_beta t)) x) ->
  (forall a, sq a = quad_mul o mnr a a) ->
  (forall x, mnr2 x = fmul (quad_ops o mnr sq) (inj2 inj (t_xi t)) x) ->
  tower_facts t o inj (quad_ops o mnr sq) mnr2.
Proof.
  intros Hc HP Hm Hsq Hm2. constructor.
  - eapply tower_fp2_field; eassumption.
  - eapply tower_fp2_is0; eassumption.
  - eapply tower_fp2_finite; eassumption.
  - exact Hm2.
  - eapply tower_fp6_field; eassumption.
  - eapply tower_fp12_field; eassumption.
  - eapply tower_fp12_finite; eassumption.
  - intros. eapply cyclotomic_image; eassumption.
  - intros. eapply tower_frob2_pow; eassumption.
  - intros. eapply tower_frob6_pow; eassumption.
  - intros. eapply tower_frob12_pow; eassumption.
  - intros. eapply tower_cyclotomic_square; eassumption.
Qed.

Section Concrete.
Context {F : Type} (o : fops F) (inj : Z -> F) (p : Z) (HP : prime_field p o inj).
Let HR := fl_rl _ (pf_laws _ _ _ HP).
Let Hh := pf_hom _ _ _ HP.
Add Ring TC : (rl_ring _ HR).

Lemma inj_m1 : inj (-1) = fneg o (f1 o).
Proof. change (-1) with (- (1)). rewrite (inj_neg o HR inj Hh), (zh_1 _ _ Hh). reflexivity. Qed.
Lemma mnr_neg_inj x : mnr_neg o x = fmul o (inj (-1)) x.
Proof. rewrite inj_m1. unfold mnr_neg. ring. Qed.
Lemma sq_complex a : quad_square_complex o a = quad_mul o (mnr_neg o) a a.
Proof. exact (quad_square_complex_mul o (mnr_neg o) _ HR mnr_neg_inj inj_m1 a). Qed.
Lemma inj_5 : inj 5 = fadd o (fadd o (fadd o (f1 o) (f1 o)) (fadd o (f1 o) (f1 o))) (f1 o).
Proof. rewrite <- !(zh_1 _ _ Hh), <- !(zh_add _ _ Hh). reflexivity. Qed.
Lemma mnr_m5_inj x : mnr_m5 o x = fmul o (inj (-5)) x.
Proof.
  change (-5) with (- (5)). rewrite (inj_neg o HR inj Hh), inj_5.
  unfold mnr_m5. rewrite !(rl_dbl _ HR). ring.
Qed.
Lemma inj_9 : inj 9 = fadd o (fmul o (fadd o (f1 o) (f1 o)) (fmul o (fadd o (f1 o) (f1 o)) (fadd o (f1 o) (f1 o)))) (f1 o).
Proof. rewrite <- !(zh_1 _ _ Hh), <- !(zh_add _ _ Hh), <- !(zh_mul _ _ Hh), <- (zh_add _ _ Hh). reflexivity. Qed.
Lemma bn256_mnr_inj x : bn256_fq2_mnr o x = fmul (bn256_fq2 o) (inj2 inj (9, 1)) x.
Proof.
  unfold bn256_fq2, fq2_ops, quad_ops. cbn [fmul].
  rewrite (quad_mul_school o (mnr_neg o) _ HR mnr_neg_inj). unfold inj2. cbn [fst snd].
  rewrite inj_9, inj_m1, (zh_1 _ _ Hh). unfold bn256_fq2_mnr, quad_double. cbn [q0 q1].
  rewrite !(rl_dbl _ HR). apply quad_ext; cbn [q0 q1]; ring.
Qed.
Lemma bls_mnr_inj x : bls_fq2_mnr o x = fmul (bls_fq2 o) (inj2 inj (1, 1)) x.
Proof.
  unfold bls_fq2, fq2_ops, quad_ops. cbn [fmul].
  rewrite (quad_mul_school o (mnr_neg o) _ HR mnr_neg_inj). unfold inj2. cbn [fst snd].
  rewrite inj_m1, (zh_1 _ _ Hh). unfold bls_fq2_mnr. apply quad_ext; cbn [q0 q1]; ring.
Qed.
End Concrete.

Theorem bn256_tower_facts {F} (o : fops F) inj : prime_field (modulus bn256_fq) o inj ->
  tower_facts bn256_tower o inj (bn256_fq2 o) (bn256_fq2_mnr o).
Proof.
  intros HP. exact (tower_facts_intro bn256_tower o inj (mnr_neg o) (quad_square_complex o) _
    bn256_tower_ok HP (mnr_neg_inj o inj _ HP) (sq_complex o inj _ HP) (bn256_mnr_inj o inj _ HP)).
Qed.
Theorem bls_tower_facts {F} (o : fops F) inj : prime_field (modulus bls12381_fq) o inj ->
  tower_facts bls12381_tower o inj (bls_fq2 o) (bls_fq2_mnr o).
Proof.
  intros HP. exact (tower_facts_intro bls12381_tower o inj (mnr_neg o) (quad_square_complex o) _
    bls_tower_ok HP (mnr_neg_inj o inj _ HP) (sq_complex o inj _ HP) (bls_mnr_inj o inj _ HP)).
Qed.
Theorem pluto_tower_facts {F} (o : fops F) inj : prime_field (modulus pluto_eris_fp) o inj ->
  tower_facts pluto_tower o inj (pluto_fp2 o) (pluto_mnr o inj).
Proof.
  intros HP. exact (tower_facts_intro pluto_tower o inj (mnr_m5 o) (quad_square o (mnr_m5 o)) _
    pluto_tower_ok HP (mnr_m5_inj o inj _ HP)
    (quad_square_mul o (mnr_m5 o) _ (fl_rl _ (pf_laws _ _ _ HP)) (mnr_m5_inj o inj _ HP))
    (fun x => eq_refl)).
Qed.
