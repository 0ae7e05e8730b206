(** The pairings of bn256, bls12-381 and pluto as instances. *)
From Verif Require Import Base Algebra Pow Tower TowerFacts FiniteField PrimeField Primality Field Params TowerParams TowerInst
  Curve CurveGroup SpecField FieldSerdeFacts Certs SerdeInst PairingParams Pairing PairingFacts.
Local Open Scope Z_scope.

(** Conjugation in Fp12 is the Frobenius map of power 6. *)
Section Conj.
Context (t : tower_conf) {F : Type} (o : fops F) (inj : Z -> F) (o2 : fops (quad F)) (mnr2 : quad F -> quad F).
Context (HP : prime_field (modulus (t_field t)) o inj) (T : tower_facts t o inj o2 mnr2).
Hypothesis H1 : inj2 inj (1, 0) = f1 o2.
Hypothesis Hneg : inj2 inj (modulus (t_field t) - 1, 0) = fneg o2 (f1 o2).
Hypothesis T1 : nth 0 (t_c6_1 t) (0, 0) = (1, 0).
Hypothesis T2 : nth 0 (t_c6_2 t) (0, 0) = (1, 0).
Hypothesis T12 : nth 6 (t_c12 t) (0, 0) = (modulus (t_field t) - 1, 0).
Hypothesis L1 : (0 < length (t_c6_1 t))%nat.
Hypothesis L2 : (0 < length (t_c6_2 t))%nat.
Hypothesis L12 : (6 < length (t_c12 t))%nat.
Let HR2 := fl_rl _ (tf_2 _ _ _ _ _ T).
Add Ring RC2 : (rl_ring _ HR2).
Lemma conj_frob6 a : conj12 (fq6_ops o2 mnr2) a = tower_frob12 o inj t o2 6 a.
Proof.
  unfold tower_frob12, fq12_frobenius, fq6_frobenius, conj12, quad_conjugate.
  change (6 mod 6) with 0. change (6 mod 12) with 6. change (Z.to_nat 0) with 0%nat. change (Z.to_nat 6) with 6%nat.
  cbv zeta.
  rewrite !(nth_indep (map _ _) (f0 o2) (inj2 inj (0, 0))) by (rewrite map_length; assumption).
  rewrite !map_nth, T1, T2, T12, H1, Hneg. unfold fq2_frobenius. change (6 mod 2 =? 0) with true.
  destruct a as [[a0 a1 a2] [b0 b1 b2]]. cbn [q0 q1 k0 k1 k2 fneg fq6_ops cubic_ops cubic_neg].
  apply quad_ext; apply cubic_ext; cbn [q0 q1 k0 k1 k2 cubic_neg]; ring.
Qed.
Lemma conj_pow a : conj12 (fq6_ops o2 mnr2) a = fpowz (fq12_ops o2 mnr2) a (modulus (t_field t) ^ 6).
Proof. rewrite conj_frob6. apply (tf_frob12 _ _ _ _ _ T). lia. Qed.
End Conj.

Lemma inj2_one {F} (o : fops F) inj mnr sq p : prime_field p o inj ->
  inj2 inj (1, 0) = f1 (quad_ops o mnr sq).
Proof. intros HP. pose proof (pf_hom _ _ _ HP) as Hh. unfold inj2. cbn [fst snd]. rewrite (zh_1 _ _ Hh), (zh_0 _ _ Hh). reflexivity. Qed.
Lemma inj2_m1 {F} (o : fops F) inj mnr sq p : prime_field p o inj ->
  inj2 inj (p - 1, 0) = fneg (quad_ops o mnr sq) (f1 (quad_ops o mnr sq)).
Proof.
  intros HP. pose proof (pf_hom _ _ _ HP) as Hh. pose proof (fl_rl _ (pf_laws _ _ _ HP)) as HR.
  unfold inj2. cbn [fst snd].
  assert (E : inj (p - 1) = fneg o (f1 o)).
  { rewrite <- (zh_1 _ _ Hh), <- (inj_neg o HR inj Hh). apply (pf_eq _ _ _ HP).
    pose proof (pf_prime _ _ _ HP) as Pp. apply prime_ge_2 in Pp.
    replace (p - 1) with (- (1) + 1 * p) by ring. rewrite Z.mod_add by lia. reflexivity. }
  rewrite E, (zh_0 _ _ Hh). unfold quad_ops. cbn [fneg f1 quad_neg q0 q1]. unfold quad_neg. cbn [q0 q1].
  f_equal. rewrite <- (zh_0 _ _ Hh) at 1. transitivity (inj (Z.opp 0)); [reflexivity|].
  rewrite (inj_neg o HR inj Hh), (zh_0 _ _ Hh). reflexivity.
Qed.

(** ** What the three engines have in common *)
Inductive crate_engine {F : Type} (o : fops F) (inj : Z -> F) :
  forall (p : Z) (sc : fconf) (c : Z) (o2 : fops (quad F)) (o12 : fops (quad (cubic (quad F))))
    (cj : quad (cubic (quad F)) -> quad (cubic (quad F)))
    (miller : list (aff F * aff (quad F)) -> quad (cubic (quad F)))
    (fexp : quad (cubic (quad F)) -> option (quad (cubic (quad F))))
    (pairing : aff F -> aff (quad F) -> option (quad (cubic (quad F)))), Prop :=
| eng_bn256 : prime_field (modulus bn256_fq) o inj ->
  crate_engine o inj (modulus bn256_fq) bn256_fr 1 (bn256_fq2 o) (bn256_fq12 o) (bn256_conj o)
    (bn256_miller o inj) (bn256_final_exp o inj) (bn256_pairing o inj)
| eng_bls12381 : prime_field (modulus bls12381_fq) o inj ->
  crate_engine o inj (modulus bls12381_fq) bls12381_fr 3 (bls_fq2 o) (bls_fq12 o) (bls_conj o)
    (bls_miller o) (bls_final_exp o inj) (bls_pairing o inj)
| eng_pluto : prime_field (modulus pluto_eris_fp) o inj ->
  crate_engine o inj (modulus pluto_eris_fp) pluto_eris_fq 1 (pluto_fp2 o) (pluto_fp12 o inj) (pluto_conj o inj)
    (pluto_miller o inj) (pluto_final_exp o inj) (pluto_pairing o inj).
Record engine_facts {F : Type} (p : Z) (sc : fconf) (c : Z) (o : fops F) (o2 : fops (quad F))
    (o12 : fops (quad (cubic (quad F)))) (cj : quad (cubic (quad F)) -> quad (cubic (quad F)))
    (miller : list (aff F * aff (quad F)) -> quad (cubic (quad F)))
    (fexp : quad (cubic (quad F)) -> option (quad (cubic (quad F))))
    (pairing : aff F -> aff (quad F) -> option (quad (cubic (quad F)))) : Prop := {
  en_p : 1 < p;
  en_field : field_laws o12;
  en_conj : forall x, cj x = fpowz o12 x (p ^ 6);
  en_fin : forall x, x <> f0 o12 -> fpowz o12 x (p ^ 12 - 1) = f1 o12;
  en_r : prime (modulus sc);
  en_rPhi : (modulus sc | p ^ 4 - p ^ 2 + 1);
  en_c : 0 < c < modulus sc;
  en_sc : In sc all_fields;
  en_top : modulus sc < 2 ^ (8 * Z.of_nat (size sc) - 1);
  en_miller : forall terms, miller terms = prod o12 (map (fun t => miller [t]) terms);
  en_dead : forall t, live o o2 t = false -> miller [t] = f1 o12;
  en_fexp : forall f, match fexp f with
    | Some x => f <> f0 o12 /\ x = fpowz o12 f ((p ^ 6 - 1) * (p ^ 2 + 1) * (c * ((p ^ 4 - p ^ 2 + 1) / modulus sc)))
    | None => f = f0 o12 end;
  en_pairing : forall P Q, pairing P Q = fexp (miller [(P, Q)]) }.


Section Ell.
Context {F : Type} (o : fops F) (o2 : fops (quad F)) (mnr : quad F -> quad F) (xi : quad F).
Hypothesis HR : ring_laws o2.
Hypothesis Hm : forall x, mnr x = fmul o2 xi x.
Lemma ell_034_spec f c p :
  ell_034 o o2 mnr f c p = fmul (fq12_ops o2 mnr) f
    (mk_quad (mk_cubic (scale2 o (fst (fst c)) (ay p)) (f0 o2) (f0 o2))
             (mk_cubic (scale2 o (snd (fst c)) (ax p)) (snd c) (f0 o2))).
Proof. destruct c as [[c0 c1] c2]. exact (mul_by_034_spec o2 mnr xi HR Hm f _ _ _). Qed.
Lemma ell_014_spec f c p :
  ell_014 o o2 mnr f c p = fmul (fq12_ops o2 mnr) f
    (mk_quad (mk_cubic (snd c) (scale2 o (snd (fst c)) (ax p)) (f0 o2))
             (mk_cubic (f0 o2) (scale2 o (fst (fst c)) (ay p)) (f0 o2))).
Proof. destruct c as [[c0 c1] c2]. exact (mul_by_014_spec o2 mnr xi HR Hm f _ _ _). Qed.
End Ell.

Lemma pow_multiplicative_prod {E} (o12 : fops E) (HR : ring_laws o12) e l : 0 <= e ->
  fpowz o12 (prod o12 l) e = prod o12 (map (fun x => fpowz o12 x e) l).
Proof.
  intros He. induction l as [|x l IH]; cbn [prod map fold_right]; [apply fpowz_one; exact HR|].
  rewrite fpowz_mul_base by (exact HR || exact He). unfold prod in IH. rewrite IH. reflexivity.
Qed.


(** The engine facts from the tower facts, for any parameters that pass the checks. *)
Section Build.
Context (t : tower_conf) {F : Type} (o : fops F) (inj : Z -> F) (o2 : fops (quad F)) (mnr2 : quad F -> quad F).
Context (T : tower_facts t o inj o2 mnr2).
Notation p := (modulus (t_field t)).
Notation o12 := (fq12_ops o2 mnr2).
Notation cj := (conj12 (fq6_ops o2 mnr2)).
Notation fr := (tower_frob12 o inj t o2).
Notation cyc := (cyclotomic_square o2 mnr2).
Hypothesis Hp : 1 < p.
Hypothesis Hc : forall x, cj x = fpowz o12 x (p ^ 6).
Let H12 := tf_12 _ _ _ _ _ T.
Lemma tower_fermat x : x <> f0 o12 -> fpowz o12 x (p ^ 12 - 1) = f1 o12.
Proof. exact (fermat o12 H12 _ (tf_12fin _ _ _ _ _ T) x). Qed.
Let Hf := tower_fermat.
Let Hfr := fun k x Hk => tf_frob12 _ _ _ _ _ T k x Hk.
Lemma build_bn expx u k :
  (forall g a, fpowz o12 g (p ^ 4 - p ^ 2 + 1) = f1 o12 -> expx (gp o12 p g a) = gp o12 p g (a * u)) ->
  bn_exponent p u mod (p ^ 4 - p ^ 2 + 1) = k mod (p ^ 4 - p ^ 2 + 1) -> 0 <= k ->
  forall f, match bn_final_exponentiation o12 cj fr cyc expx f with
  | Some x => f <> f0 o12 /\ x = fpowz o12 f ((p ^ 6 - 1) * (p ^ 2 + 1) * k) | None => f = f0 o12 end.
Proof. exact (bn_final_exp_spec o12 H12 p cj fr cyc Hp Hc Hfr (tf_cyclo _ _ _ _ _ T) Hf expx u k). Qed.
Lemma build_bls k :
  bls_exponent p (- bits_be bls_x) mod (p ^ 4 - p ^ 2 + 1) = k mod (p ^ 4 - p ^ 2 + 1) -> 0 <= k ->
  forall f, match bls_final_exponentiation o12 cj fr cyc f with
  | Some x => f <> f0 o12 /\ x = fpowz o12 f ((p ^ 6 - 1) * (p ^ 2 + 1) * k) | None => f = f0 o12 end.
Proof.
  apply (bls_final_exp_spec o12 H12 p cj fr cyc Hp Hc Hfr (tf_cyclo _ _ _ _ _ T) Hf (- bits_be bls_x) k).
  intros g a G. exact (bls_exp_spec o12 H12 p cj fr cyc Hp Hc Hfr (tf_cyclo _ _ _ _ _ T) g a G).
Qed.
Lemma build_bn256 k : 0 <= bn_x < 2 ^ Z.of_nat 64 ->
  bn_exponent p bn_x mod (p ^ 4 - p ^ 2 + 1) = k mod (p ^ 4 - p ^ 2 + 1) -> 0 <= k ->
  forall f, match bn_final_exponentiation o12 cj fr cyc (bn_exp_by_x o12 cyc) f with
  | Some x => f <> f0 o12 /\ x = fpowz o12 f ((p ^ 6 - 1) * (p ^ 2 + 1) * k) | None => f = f0 o12 end.
Proof.
  intros B. apply build_bn. intros g a G. exact (bn_exp_spec o12 H12 p cj fr cyc Hp Hc Hfr (tf_cyclo _ _ _ _ _ T) g a B G).
Qed.
Lemma build_pluto k : 0 <= neg_pluto_u < 2 ^ Z.of_nat 111 ->
  bn_exponent p (- neg_pluto_u) mod (p ^ 4 - p ^ 2 + 1) = k mod (p ^ 4 - p ^ 2 + 1) -> 0 <= k ->
  forall f, match bn_final_exponentiation o12 cj fr cyc (pluto_exp_by_x o12 cj cyc) f with
  | Some x => f <> f0 o12 /\ x = fpowz o12 f ((p ^ 6 - 1) * (p ^ 2 + 1) * k) | None => f = f0 o12 end.
Proof.
  intros B. apply build_bn. intros g a G. exact (pluto_exp_spec o12 H12 p cj fr cyc Hp Hc Hfr (tf_cyclo _ _ _ _ _ T) g a B G).
Qed.

Lemma build_miller (sc : fconf) (ml : list (aff F * aff (quad F)) -> quad (cubic (quad F))) Phi phi :
  separates (F := F) o12 Phi phi -> (forall terms, ml terms = mrun o o2 o12 Phi terms) ->
  (forall terms, ml terms = prod o12 (map (fun t => ml [t]) terms))
  /\ (forall t, live o o2 t = false -> ml [t] = f1 o12).
Proof.
  intros S M. pose proof (fl_rl _ H12) as HR. split.
  - intros terms. rewrite M, (mrun_product _ _ _ HR _ _ S). f_equal. apply map_ext. intros x. symmetry. apply M.
  - intros x L. rewrite M. apply (mrun_dead _ _ _ HR _ _ _ S L).
Qed.
Lemma conj_one : cj (f1 o12) = f1 o12.
Proof. rewrite Hc. apply fpowz_one. exact (fl_rl _ H12). Qed.
Lemma conj_prod l : cj (prod o12 l) = prod o12 (map cj l).
Proof.
  rewrite Hc, (pow_multiplicative_prod o12 (fl_rl _ H12)) by (apply Z.pow_nonneg; lia).
  f_equal. apply map_ext. intros x. symmetry. apply Hc.
Qed.
End Build.

Definition scalar_ok (p : Z) (sc : fconf) (c : Z) : bool :=
  (0 <? c) && (c <? modulus sc) && ((p ^ 4 - p ^ 2 + 1) mod modulus sc =? 0)
  && (modulus sc <? 2 ^ (8 * Z.of_nat (size sc) - 1)) && (1 <? p).
Lemma bn256_scalar_ok : scalar_ok (modulus bn256_fq) bn256_fr 1 = true.
Proof. vm_compute. reflexivity. Qed.
Lemma bls_scalar_ok : scalar_ok (modulus bls12381_fq) bls12381_fr 3 = true.
Proof. vm_compute. reflexivity. Qed.
Lemma pluto_scalar_ok : scalar_ok (modulus pluto_eris_fp) pluto_eris_fq 1 = true.
Proof. vm_compute. reflexivity. Qed.
Lemma scalar_ok_facts p sc c : scalar_ok p sc c = true ->
  0 < c < modulus sc /\ (modulus sc | p ^ 4 - p ^ 2 + 1)
  /\ modulus sc < 2 ^ (8 * Z.of_nat (size sc) - 1) /\ 1 < p.
Proof.
  unfold scalar_ok. intros E. apply andb_prop in E as (E & E5). apply andb_prop in E as (E & E4).
  apply andb_prop in E as (E & E3). apply andb_prop in E as (E1 & E2).
  apply Z.ltb_lt in E1, E2, E4, E5. apply Z.eqb_eq in E3. split; [lia|]. split; [|split; assumption].
  apply Z.mod_divide; [lia|exact E3].
Qed.

Notation bn256_k := (1 * ((modulus bn256_fq ^ 4 - modulus bn256_fq ^ 2 + 1) / modulus bn256_fr)) (only parsing).
Lemma bn256_exponent : bn_exponent (modulus bn256_fq) bn_x mod (modulus bn256_fq ^ 4 - modulus bn256_fq ^ 2 + 1)
  = bn256_k mod (modulus bn256_fq ^ 4 - modulus bn256_fq ^ 2 + 1).
Proof. vm_compute. reflexivity. Qed.
Lemma bn256_k_nonneg : 0 <= bn256_k.
Proof. vm_compute. discriminate. Qed.
Notation bls_k := (3 * ((modulus bls12381_fq ^ 4 - modulus bls12381_fq ^ 2 + 1) / modulus bls12381_fr)) (only parsing).
Lemma bls_exponent_ok : bls_exponent (modulus bls12381_fq) (- bits_be bls_x) mod (modulus bls12381_fq ^ 4 - modulus bls12381_fq ^ 2 + 1)
  = bls_k mod (modulus bls12381_fq ^ 4 - modulus bls12381_fq ^ 2 + 1).
Proof. vm_compute. reflexivity. Qed.
Lemma bls_k_nonneg : 0 <= bls_k.
Proof. vm_compute. discriminate. Qed.
Notation pluto_k := (1 * ((modulus pluto_eris_fp ^ 4 - modulus pluto_eris_fp ^ 2 + 1) / modulus pluto_eris_fq)) (only parsing).
Lemma pluto_exponent : bn_exponent (modulus pluto_eris_fp) (- neg_pluto_u) mod (modulus pluto_eris_fp ^ 4 - modulus pluto_eris_fp ^ 2 + 1)
  = pluto_k mod (modulus pluto_eris_fp ^ 4 - modulus pluto_eris_fp ^ 2 + 1).
Proof. vm_compute. reflexivity. Qed.
Lemma pluto_k_nonneg : 0 <= pluto_k.
Proof. vm_compute. discriminate. Qed.
Lemma bn_x_range : 0 <= bn_x < 2 ^ Z.of_nat 64.
Proof. vm_compute. split; congruence. Qed.
Lemma pluto_u_range : 0 <= neg_pluto_u < 2 ^ Z.of_nat 111.
Proof. vm_compute. split; congruence. Qed.

Section Engines.
Context {F : Type} (o : fops F) (inj : Z -> F).
Lemma bn256_conj_pow : prime_field (modulus bn256_fq) o inj -> forall x,
  bn256_conj o x = fpowz (bn256_fq12 o) x (modulus bn256_fq ^ 6).
Proof.
  intros HP. 
  apply (conj_pow bn256_tower o inj (bn256_fq2 o) (bn256_fq2_mnr o) (bn256_tower_facts o inj HP)
    (inj2_one o inj _ _ _ HP) (inj2_m1 o inj _ _ _ HP)); vm_compute; (reflexivity || lia).
Qed.
Lemma bls_conj_pow : prime_field (modulus bls12381_fq) o inj -> forall x,
  bls_conj o x = fpowz (bls_fq12 o) x (modulus bls12381_fq ^ 6).
Proof.
  intros HP. 
  apply (conj_pow bls12381_tower o inj (bls_fq2 o) (bls_fq2_mnr o) (bls_tower_facts o inj HP)
    (inj2_one o inj _ _ _ HP) (inj2_m1 o inj _ _ _ HP)); vm_compute; (reflexivity || lia).
Qed.
Lemma pluto_conj_pow : prime_field (modulus pluto_eris_fp) o inj -> forall x,
  pluto_conj o inj x = fpowz (pluto_fp12 o inj) x (modulus pluto_eris_fp ^ 6).
Proof.
  intros HP. 
  apply (conj_pow pluto_tower o inj (pluto_fp2 o) (pluto_mnr o inj) (pluto_tower_facts o inj HP)
    (inj2_one o inj _ _ _ HP) (inj2_m1 o inj _ _ _ HP)); vm_compute; (reflexivity || lia).
Qed.

Lemma bn256_engine_facts : prime_field (modulus bn256_fq) o inj ->
  engine_facts (modulus bn256_fq) bn256_fr 1 o (bn256_fq2 o) (bn256_fq12 o) (bn256_conj o)
    (bn256_miller o inj) (bn256_final_exp o inj) (bn256_pairing o inj).
Proof.
  intros HP. pose proof (bn256_tower_facts o inj HP) as T.
  pose proof (fl_rl _ (tf_12 _ _ _ _ _ T)) as HR.
  pose proof (bn256_conj_pow HP) as Hc.
  destruct (scalar_ok_facts _ _ _ bn256_scalar_ok) as (S1 & S2 & S3 & S4).
  destruct (bn_miller_sep o (bn256_fq2 o) (bn256_fq12 o) HR _ _
     (ell_034_spec o (bn256_fq2 o) (bn256_fq2_mnr o) _ (fl_rl _ (tf_2 _ _ _ _ _ T)) (tf_mnr _ _ _ _ _ T))
     six_u_plus_2_naf (twist_q1 o (bn256_fq2 o) (bn256_g2_frob inj 1) (inj2 inj bn256_xi_half))
     (twist_minusq2 (bn256_fq2 o) (bn256_g2_frob inj 2))) as (Phi & phi & S & M).
  destruct (build_miller bn256_tower o inj (bn256_fq2 o) (bn256_fq2_mnr o) T bn256_fr (bn256_miller o inj) Phi phi S M) as (M1 & M2).
  constructor.
  - exact S4.
  - exact (tf_12 _ _ _ _ _ T).
  - exact Hc.
  - exact (tower_fermat bn256_tower o inj _ _ T).
  - apply (proj1 (Forall_forall _ _) all_moduli_prime). in_fields.
  - exact S2.
  - exact S1.
  - in_fields.
  - exact S3.
  - exact M1.
  - exact M2.
  - exact (build_bn256 bn256_tower o inj (bn256_fq2 o) (bn256_fq2_mnr o) T S4 Hc bn256_k bn_x_range bn256_exponent bn256_k_nonneg).
  - intros. reflexivity.
Qed.
Lemma pluto_engine_facts : prime_field (modulus pluto_eris_fp) o inj ->
  engine_facts (modulus pluto_eris_fp) pluto_eris_fq 1 o (pluto_fp2 o) (pluto_fp12 o inj) (pluto_conj o inj)
    (pluto_miller o inj) (pluto_final_exp o inj) (pluto_pairing o inj).
Proof.
  intros HP. pose proof (pluto_tower_facts o inj HP) as T.
  pose proof (fl_rl _ (tf_12 _ _ _ _ _ T)) as HR.
  pose proof (pluto_conj_pow HP) as Hc.
  destruct (scalar_ok_facts _ _ _ pluto_scalar_ok) as (S1 & S2 & S3 & S4).
  destruct (bn_miller_sep o (pluto_fp2 o) (pluto_fp12 o inj) HR _ _
     (ell_034_spec o (pluto_fp2 o) (pluto_mnr o inj) _ (fl_rl _ (tf_2 _ _ _ _ _ T)) (tf_mnr _ _ _ _ _ T))
     neg_six_u_plus_2_naf
     (fun q => aff_neg (pluto_fp2 o) (twist_q1 o (pluto_fp2 o) (pluto_g2_frob inj 1) (inj2 inj pluto_xi_half) q))
     (fun q => aff_neg (pluto_fp2 o) (twist_minusq2 (pluto_fp2 o) (pluto_g2_frob inj 2) q))) as (Phi & phi & S & M).
  destruct (build_miller pluto_tower o inj (pluto_fp2 o) (pluto_mnr o inj) T pluto_eris_fq (pluto_miller o inj) Phi phi S M) as (M1 & M2).
  constructor.
  - exact S4.
  - exact (tf_12 _ _ _ _ _ T).
  - exact Hc.
  - exact (tower_fermat pluto_tower o inj _ _ T).
  - apply (proj1 (Forall_forall _ _) all_moduli_prime). in_fields.
  - exact S2.
  - exact S1.
  - in_fields.
  - exact S3.
  - exact M1.
  - exact M2.
  - exact (build_pluto pluto_tower o inj (pluto_fp2 o) (pluto_mnr o inj) T S4 Hc pluto_k pluto_u_range pluto_exponent pluto_k_nonneg).
  - intros. reflexivity.
Qed.
Lemma bls_engine_facts : prime_field (modulus bls12381_fq) o inj ->
  engine_facts (modulus bls12381_fq) bls12381_fr 3 o (bls_fq2 o) (bls_fq12 o) (bls_conj o)
    (bls_miller o) (bls_final_exp o inj) (bls_pairing o inj).
Proof.
  intros HP. pose proof (bls_tower_facts o inj HP) as T.
  pose proof (fl_rl _ (tf_12 _ _ _ _ _ T)) as HR.
  pose proof (bls_conj_pow HP) as Hc.
  destruct (scalar_ok_facts _ _ _ bls_scalar_ok) as (S1 & S2 & S3 & S4).
  destruct (bls_miller_sep o (bls_fq2 o) (bls_fq12 o) HR _ _
     (ell_014_spec o (bls_fq2 o) (bls_fq2_mnr o) _ (fl_rl _ (tf_2 _ _ _ _ _ T)) (tf_mnr _ _ _ _ _ T))
     bls_x (bls_conj o)) as (Phi & phi & S & M).
  constructor.
  - exact S4.
  - exact (tf_12 _ _ _ _ _ T).
  - exact Hc.
  - exact (tower_fermat bls12381_tower o inj _ _ T).
  - apply (proj1 (Forall_forall _ _) all_moduli_prime). in_fields.
  - exact S2.
  - exact S1.
  - in_fields.
  - exact S3.
  - intros terms. unfold bls_miller. rewrite M, (mrun_product _ _ _ HR _ _ S).
    etransitivity; [exact (conj_prod bls12381_tower o inj (bls_fq2 o) (bls_fq2_mnr o) T S4 Hc _)|].
    rewrite map_map. f_equal. apply map_ext. intros x. symmetry. apply M.
  - intros x L. unfold bls_miller. rewrite M. etransitivity; [apply f_equal; exact (mrun_dead _ _ _ HR _ _ _ S L)|].
    exact (conj_one bls12381_tower o inj (bls_fq2 o) (bls_fq2_mnr o) T Hc).
  - exact (build_bls bls12381_tower o inj (bls_fq2 o) (bls_fq2_mnr o) T S4 Hc bls_k bls_exponent_ok bls_k_nonneg).
  - intros. reflexivity.
Qed.
Theorem crate_engine_facts p sc c o2 o12 cj ml fe pr : crate_engine o inj p sc c o2 o12 cj ml fe pr ->
  engine_facts p sc c o o2 o12 cj ml fe pr.
Proof. intros [HP|HP|HP]; [exact (bn256_engine_facts HP)|exact (bls_engine_facts HP)|exact (pluto_engine_facts HP)]. Qed.
End Engines.
