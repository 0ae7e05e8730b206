(** Property theorems C39, C40, C42: Miller loops of several terms, the final
    exponentiations and the target groups of bn256, bls12-381 and pluto. *)
From Verif Require Import Base Algebra Pow Tower TowerFacts FiniteField Primality Word Limbs Field Params PrimeField
  TowerParams TowerInst SpecField FieldFacts FieldSerdeFacts Curve CurveGroup CurveInst Certs LimbField Serde SerdeInst
  PairingParams Pairing PairingFacts PairingInst Props_Field Props_Curve.
From Coq Require Import Permutation.
Local Open Scope Z_scope.

Lemma mul_zero_l {E} (o : fops E) (HR : ring_laws o) y : fmul o (f0 o) y = f0 o.
Proof.
  pose proof (Rmul_comm (rl_ring _ HR)) as MC. pose proof (Radd_0_l (rl_ring _ HR)) as A0.
  pose proof (Radd_assoc (rl_ring _ HR)) as AA. pose proof (Ropp_def (rl_ring _ HR)) as AN. pose proof (Rdistr_l (rl_ring _ HR)) as D.
  pose proof (Radd_comm (rl_ring _ HR)) as AC.
  assert (E1 : fadd o (fmul o (f0 o) y) (fmul o (f0 o) y) = fmul o (f0 o) y) by (rewrite <- D, A0; reflexivity).
  transitivity (fadd o (fadd o (fmul o (f0 o) y) (fmul o (f0 o) y)) (fneg o (fmul o (f0 o) y))).
  - rewrite <- AA, AN, AC, A0. reflexivity.
  - rewrite E1. apply AN.
Qed.
Section Props.
Context {F : Type} (o : fops F) (inj : Z -> F).
Context (p : Z) (sc : fconf) (c : Z) (o2 : fops (quad F)) (o12 : fops (quad (cubic (quad F)))).
Context (cj : quad (cubic (quad F)) -> quad (cubic (quad F))).
Context (ml : list (aff F * aff (quad F)) -> quad (cubic (quad F))).
Context (fe : quad (cubic (quad F)) -> option (quad (cubic (quad F)))).
Context (pr : aff F -> aff (quad F) -> option (quad (cubic (quad F)))).
Context (HE : crate_engine o inj p sc c o2 o12 cj ml fe pr).
Let EF := crate_engine_facts o inj p sc c o2 o12 cj ml fe pr HE.
Let H := en_field _ _ _ _ _ _ _ _ _ _ EF.
Let HR := fl_rl _ H.
Add Ring RPP : (rl_ring _ HR).
Notation one := (f1 o12).
Notation r := (modulus sc).
Notation "x ^^ e" := (fpowz o12 x e) (at level 30).

Definition fexp_e : Z := (p ^ 6 - 1) * (p ^ 2 + 1) * (c * ((p ^ 4 - p ^ 2 + 1) / r)).
Lemma r_pos : 0 < r.
Proof using HE. pose proof (en_r _ _ _ _ _ _ _ _ _ _ EF) as R. apply prime_ge_2 in R. lia. Qed.
Lemma fexp_e_val : fexp_e = c * ((p ^ 12 - 1) / r) /\ (r | p ^ 12 - 1).
Proof using HE.
  pose proof r_pos as R. destruct (en_rPhi _ _ _ _ _ _ _ _ _ _ EF) as (k & K).
  unfold fexp_e. rewrite K, Z.div_mul by lia.
  assert (E : p ^ 12 - 1 = ((p ^ 6 - 1) * (p ^ 2 + 1) * k) * r).
  { rewrite <- Z.mul_assoc, <- K. change 12 with (6 * 2). change 6 with (2 * 3). change 4 with (2 * 2). rewrite !Z.pow_mul_r by lia. ring. }
  rewrite E, Z.div_mul by lia. split; [ring|]. exists ((p ^ 6 - 1) * (p ^ 2 + 1) * k). reflexivity.
Qed.
Lemma p12_pos : 0 <= p ^ 12 - 1.
Proof using HE. pose proof (en_p _ _ _ _ _ _ _ _ _ _ EF). assert (1 <= p ^ 12) by (apply (Z.pow_le_mono_r p 0 12); lia). lia. Qed.
Lemma fexp_e_nonneg : 0 <= fexp_e.
Proof using HE.
  rewrite (proj1 fexp_e_val). pose proof (en_c _ _ _ _ _ _ _ _ _ _ EF). pose proof r_pos as R. pose proof p12_pos.
  apply Z.mul_nonneg_nonneg; [lia|]. apply Z.div_pos; lia.
Qed.
Lemma fe_some f : f <> f0 o12 -> fe f = Some (f ^^ fexp_e).
Proof using HE.
  intros Hf. pose proof (en_fexp _ _ _ _ _ _ _ _ _ _ EF f) as X. destruct (fe f) as [x|]; [|contradiction].
  destruct X as (_ & ->). reflexivity.
Qed.
Lemma fe_none : fe (f0 o12) = None.
Proof using HE.
  pose proof (en_fexp _ _ _ _ _ _ _ _ _ _ EF (f0 o12)) as X. destruct (fe (f0 o12)) as [x|]; [|reflexivity].
  destruct X as (X & _). contradiction.
Qed.
Lemma fe_order f x : fe f = Some x -> x ^^ r = one.
Proof using HE.
  intros E. pose proof (en_fexp _ _ _ _ _ _ _ _ _ _ EF f) as X. rewrite E in X. destruct X as (Hf & ->).
  fold fexp_e. destruct fexp_e_val as (Ev & (k & K)). pose proof r_pos as R. pose proof p12_pos as P12.
  pose proof (en_c _ _ _ _ _ _ _ _ _ _ EF) as Hc. pose proof fexp_e_nonneg.
  rewrite <- fpowz_mul by (exact HR || lia). rewrite Ev, K, Z.div_mul by lia.
  assert (0 <= k) by nia.
  replace (c * k * r) with ((p ^ 12 - 1) * c) by (rewrite K; ring).
  rewrite fpowz_mul by (exact HR || lia). rewrite (en_fin _ _ _ _ _ _ _ _ _ _ EF f Hf). apply fpowz_one. exact HR.
Qed.
Lemma fe_mul f g : fe (fmul o12 f g) =
  match fe f, fe g with Some x, Some y => Some (fmul o12 x y) | _, _ => None end.
Proof using HE.
  destruct (feqb_dec o12 H f (f0 o12)) as [-> | Hf].
  { rewrite fe_none. replace (fmul o12 (f0 o12) g) with (f0 o12) by ring. exact fe_none. }
  destruct (feqb_dec o12 H g (f0 o12)) as [-> | Hg].
  { rewrite fe_none. replace (fmul o12 f (f0 o12)) with (f0 o12) by ring. rewrite fe_none. destruct (fe f); reflexivity. }
  rewrite !fe_some; [|exact Hg|exact Hf|apply (mul_nonzero o12 H); assumption].
  rewrite fpowz_mul_base by (exact HR || exact fexp_e_nonneg). reflexivity.
Qed.
Lemma fe_one : fe one = Some one.
Proof using HE. rewrite fe_some by exact (fl_1_0 _ H). rewrite fpowz_one by exact HR. reflexivity. Qed.

(** product of results that may be panics *)
Definition opt_mul (x y : option (quad (cubic (quad F)))) :=
  match x, y with Some x, Some y => Some (fmul o12 x y) | _, _ => None end.

Lemma neg_cyclotomic x : x ^^ (p ^ 4 - p ^ 2 + 1) = one -> fmul o12 x (cj x) = one.
Proof using HE.
  intros G. pose proof (en_p _ _ _ _ _ _ _ _ _ _ EF) as Hp.
  rewrite (en_conj _ _ _ _ _ _ _ _ _ _ EF), <- fpowz_succ by (exact HR || apply Z.pow_nonneg; lia).
  assert (P : 0 <= p ^ 4 - p ^ 2 + 1). { change 4 with (2 + 2). rewrite Z.pow_add_r by lia. nia. }
  assert (P2 : 0 <= p ^ 2 + 1) by nia.
  replace (p ^ 6 + 1) with ((p ^ 4 - p ^ 2 + 1) * (p ^ 2 + 1)).
  2: { change 6 with (2 * 3). change 4 with (2 * 2). rewrite !Z.pow_mul_r by lia. ring. }
  rewrite fpowz_mul by (exact HR || assumption). rewrite G. apply fpowz_one. exact HR.
Qed.
Lemma gt_cyclotomic x : x ^^ r = one -> x ^^ (p ^ 4 - p ^ 2 + 1) = one.
Proof using HE.
  intros X. destruct (en_rPhi _ _ _ _ _ _ _ _ _ _ EF) as (k & K). pose proof r_pos as R.
  pose proof (en_p _ _ _ _ _ _ _ _ _ _ EF) as Hp.
  assert (P : 0 <= p ^ 4 - p ^ 2 + 1). { change 4 with (2 + 2). rewrite Z.pow_add_r by lia. nia. }
  rewrite K, Z.mul_comm. rewrite fpowz_mul by (exact HR || nia). rewrite X. apply fpowz_one. exact HR.
Qed.
Lemma gt_inverse x : x ^^ r = one -> fmul o12 x (cj x) = one /\ (cj x) ^^ r = one.
Proof using HE.
  intros X. pose proof (neg_cyclotomic x (gt_cyclotomic x X)) as N. split; [exact N|].
  transitivity (fmul o12 (x ^^ r) (cj x ^^ r)); [rewrite X; ring|].
  pose proof r_pos as R.
  rewrite <- fpowz_mul_base by (exact HR || lia). rewrite N. apply fpowz_one. exact HR.
Qed.

Lemma repr_bits_length l : length (repr_bits_be l) = (8 * length l)%nat.
Proof.
  unfold repr_bits_be. rewrite <- (rev_length l). induction (rev l) as [|b bs IH]; [reflexivity|].
  cbn [flat_map]. rewrite app_length, IH. change (length (byte_bits_be b)) with 8%nat. cbn [length]. lia.
Qed.
Lemma bv_cons k b bits : bits_val k (b :: bits) = bits_val (2 * k + (if b then 1 else 0)) bits.
Proof. reflexivity. Qed.
Lemma bits_val_shift bits : forall k, bits_val k bits = k * 2 ^ Z.of_nat (length bits) + bits_val 0 bits.
Proof.
  induction bits as [|b bits IH]; intros k; [cbn; ring|].
  rewrite !bv_cons, IH, (IH (2 * 0 + _)). cbn [length]. rewrite Nat2Z.inj_succ, Z.pow_succ_r by lia. ring.
Qed.
(** Dropping the top bit is harmless below [2^(8n-1)]. *)
Lemma skip_top l : is_bytes l -> le_int l < 2 ^ (8 * Z.of_nat (length l) - 1) ->
  bits_val 0 (skipn 1 (repr_bits_be l)) = le_int l.
Proof.
  intros Hl B. pose proof (repr_bits_length l) as L. rewrite <- (repr_bits_val l Hl) in *.
  destruct (repr_bits_be l) as [|b bits]; [reflexivity|]. cbn [skipn]. cbn [length] in L.
  rewrite !bv_cons in *. rewrite bits_val_shift in B. rewrite (bits_val_shift bits (2 * 0 + _)).
  replace (8 * Z.of_nat (length l) - 1) with (Z.of_nat (length bits)) in B by lia.
  assert (0 < 2 ^ Z.of_nat (length bits)) by (apply Z.pow_pos_nonneg; lia).
  pose proof (bits_val_nonneg bits 0 (Z.le_refl 0)). destruct b; [exfalso; nia|ring].
Qed.
Lemma gt_mul_spec x k v : represents (num_limbs sc) r k v -> gt_mul o12 x (to_repr sc k) = x ^^ v.
Proof using HE.
  intros Hk. pose proof (en_sc _ _ _ _ _ _ _ _ _ _ EF) as Hin.
  destruct (to_repr_spec sc (proj1 (Forall_forall _ _) all_fields_odd sc Hin) k v Hk) as (L & B & V).
  unfold gt_mul, gt_identity. change (f1 o12) with (x ^^ 0).
  etransitivity; [exact (gt_mul_loop o12 HR x _ 0 (Z.le_refl 0))|]. f_equal.
  rewrite <- V. apply skip_top; [exact B|]. rewrite V, L. pose proof (en_top _ _ _ _ _ _ _ _ _ _ EF).
  destruct Hk as (_ & (_ & Hv) & _). lia.
Qed.
End Props.

(** C39.  [fold_right]: the product of the single-term loops. *)
Theorem C39 : forall F (o : fops F) inj p sc c o2 o12 cj ml fe pr, crate_engine o inj p sc c o2 o12 cj ml fe pr ->
  (forall terms, ml terms = fold_right (fun t acc => fmul o12 (ml [t]) acc) (f1 o12) terms)
  /\ (forall P Q, aff_is_identity o P = true \/ aff_is_identity o2 Q = true -> ml [(P, Q)] = f1 o12)
  /\ (forall terms terms', Permutation terms terms' -> ml terms = ml terms').
Proof.
  intros F o inj p sc c o2 o12 cj ml fe pr HE. pose proof (crate_engine_facts _ _ _ _ _ _ _ _ _ _ _ HE) as EF.
  pose proof (fl_rl _ (en_field _ _ _ _ _ _ _ _ _ _ EF)) as HR.
  split; [|split].
  - intros terms. rewrite (en_miller _ _ _ _ _ _ _ _ _ _ EF terms). unfold prod.
    induction terms as [|t ts IH]; [reflexivity|]. cbn [map fold_right].
    rewrite IH. reflexivity.
  - intros P Q HI. apply (en_dead _ _ _ _ _ _ _ _ _ _ EF). unfold live. cbn [fst snd].
    destruct HI as [-> | ->]; [reflexivity|]. destruct (aff_is_identity o P); reflexivity.
  - intros ts ts' HP. rewrite (en_miller _ _ _ _ _ _ _ _ _ _ EF ts), (en_miller _ _ _ _ _ _ _ _ _ _ EF ts').
    apply (prod_perm o12 HR). apply Permutation_map. exact HP.
Qed.
Print Assumptions C39.
(** At the level of pairings ([None]: panic). *)
Theorem C39_pairing : forall F (o : fops F) inj p sc c o2 o12 cj ml fe pr, crate_engine o inj p sc c o2 o12 cj ml fe pr ->
  forall terms, fe (ml terms) = fold_right (fun t acc => opt_mul o12 (pr (fst t) (snd t)) acc) (Some (f1 o12)) terms.
Proof.
  intros F o inj p sc c o2 o12 cj ml fe pr HE terms. pose proof (crate_engine_facts _ _ _ _ _ _ _ _ _ _ _ HE) as EF.
  rewrite (proj1 (C39 F o inj p sc c o2 o12 cj ml fe pr HE)).
  induction terms as [|[P Q] ts IH]; cbn [fold_right fst snd]; [exact (fe_one _ _ _ _ _ _ _ _ _ _ _ HE)|].
  rewrite (fe_mul _ _ _ _ _ _ _ _ _ _ _ HE), IH, (en_pairing _ _ _ _ _ _ _ _ _ _ EF). reflexivity.
Qed.
Print Assumptions C39_pairing.

(** C40.  [c] is 1 for bn256 and pluto and 3 for bls12-381. *)
Theorem C40 : forall F (o : fops F) inj p sc c o2 o12 cj ml fe pr, crate_engine o inj p sc c o2 o12 cj ml fe pr ->
  let r := modulus sc in
  (r | p ^ 12 - 1) /\ 0 < c < r /\
  fe (f0 o12) = None /\
  (forall f, f <> f0 o12 -> fe f = Some (fpowz o12 f (c * ((p ^ 12 - 1) / r)))) /\
  (forall f x, fe f = Some x -> fpowz o12 x r = f1 o12) /\
  (forall f g x y, fe f = Some x -> fe g = Some y -> fe (fmul o12 f g) = Some (fmul o12 x y)).
Proof.
  intros F o inj p sc c o2 o12 cj ml fe pr HE r. pose proof (crate_engine_facts _ _ _ _ _ _ _ _ _ _ _ HE) as EF.
  destruct (fexp_e_val _ _ _ _ _ _ _ _ _ _ _ HE) as (Ev & D).
  split; [exact D|]. split; [exact (en_c _ _ _ _ _ _ _ _ _ _ EF)|]. split; [exact (fe_none _ _ _ _ _ _ _ _ _ _ _ HE)|].
  split; [|split].
  - intros f Hf. rewrite (fe_some _ _ _ _ _ _ _ _ _ _ _ HE f Hf), Ev. reflexivity.
  - exact (fe_order _ _ _ _ _ _ _ _ _ _ _ HE).
  - intros f g x y X Y. rewrite (fe_mul _ _ _ _ _ _ _ _ _ _ _ HE), X, Y. reflexivity.
Qed.
Print Assumptions C40.
(** The exponent is not a multiple of [r]. *)
Theorem C40_exponent : forall F (o : fops F) inj p sc c o2 o12 cj ml fe pr, crate_engine o inj p sc c o2 o12 cj ml fe pr ->
  (c * ((p ^ 12 - 1) / modulus sc)) mod modulus sc <> 0.
Proof. intros F o inj p sc c o2 o12 cj ml fe pr [HP|HP|HP]; vm_compute; discriminate. Qed.
Print Assumptions C40_exponent.

(** C42.  The group: the [x] with [x^r = 1], written additively in the crate. *)
Theorem C42 : forall F (o : fops F) inj p sc c o2 o12 cj ml fe pr, crate_engine o inj p sc c o2 o12 cj ml fe pr ->
  let r := modulus sc in let G x := fpowz o12 x r = f1 o12 in
  G (gt_identity o12)
  /\ (forall x y, G x -> G y -> G (gt_add o12 x y))
  /\ (forall x, G x -> G (gt_neg cj x) /\ gt_add o12 x (gt_neg cj x) = gt_identity o12)
  /\ (forall x y, G x -> G y -> G (gt_sub o12 cj x y) /\ gt_add o12 (gt_sub o12 cj x y) y = x)
  /\ (forall x, gt_double o12 x = gt_add o12 x x)
  /\ (forall x y z, gt_add o12 x (gt_add o12 y z) = gt_add o12 (gt_add o12 x y) z /\ gt_add o12 x y = gt_add o12 y x
       /\ gt_add o12 x (gt_identity o12) = x)
  /\ (forall x, gt_is_identity o12 x = true <-> x = gt_identity o12)
  /\ (forall x k v, represents (num_limbs sc) r k v -> gt_mul o12 x (to_repr sc k) = fpowz o12 x v)
  /\ (forall l, gt_sum o12 l = fold_right (fmul o12) (f1 o12) l).
Proof.
  intros F o inj p sc c o2 o12 cj ml fe pr HE r G. pose proof (crate_engine_facts _ _ _ _ _ _ _ _ _ _ _ HE) as EF.
  pose proof (en_field _ _ _ _ _ _ _ _ _ _ EF) as H. pose proof (fl_rl _ H) as HR.
  pose proof (r_pos _ _ _ _ _ _ _ _ _ _ _ HE) as R. fold r in R.
  pose proof (Rmul_comm (rl_ring _ HR)) as MC. pose proof (Rmul_assoc (rl_ring _ HR)) as MA.
  pose proof (Rmul_1_l (rl_ring _ HR)) as M1.
  assert (GM : forall x y, G x -> G y -> G (fmul o12 x y)).
  { intros x y X Y. unfold G in *. rewrite fpowz_mul_base by (exact HR || lia). rewrite X, Y. apply M1. }
  assert (GN : forall x, G x -> G (cj x) /\ fmul o12 x (cj x) = f1 o12).
  { intros x X. destruct (gt_inverse _ _ _ _ _ _ _ _ _ _ _ HE x X) as (A & B). exact (conj B A). }
  split; [apply fpowz_one; exact HR|]. split; [exact GM|]. split; [exact GN|]. split.
  { intros x y X Y. destruct (GN y Y) as (N1 & N2). unfold gt_sub, gt_add, gt_neg. split; [apply GM; assumption|].
    rewrite <- MA, (MC (cj y) y), N2, MC. apply M1. }
  split; [intros x; exact (rl_sqr _ HR x)|]. split.
  { intros x y z. split; [apply MA|]. split; [apply MC|]. unfold gt_add, gt_identity. rewrite MC. apply M1. }
  split; [intros x; apply (fl_eqb _ H)|]. split; [exact (gt_mul_spec _ _ _ _ _ _ _ _ _ _ _ HE)|].
  intros l. unfold gt_sum, gt_identity, gt_add.
  assert (A : forall l a, fold_left (fmul o12) l a = fmul o12 a (fold_right (fmul o12) (f1 o12) l)).
  { induction l0 as [|x l0 IH]; intros a; cbn [fold_left fold_right]; [rewrite MC, M1; reflexivity|]. rewrite IH, MA. reflexivity. }
  rewrite A. apply M1.
Qed.
Print Assumptions C42.
(** Negation is also right on the larger cyclotomic subgroup. *)
Theorem C42_neg_cyclotomic : forall F (o : fops F) inj p sc c o2 o12 cj ml fe pr,
  crate_engine o inj p sc c o2 o12 cj ml fe pr -> forall x,
  fpowz o12 x (p ^ 4 - p ^ 2 + 1) = f1 o12 -> gt_add o12 x (gt_neg cj x) = gt_identity o12.
Proof. intros F o inj p sc c o2 o12 cj ml fe pr HE. exact (neg_cyclotomic _ _ _ _ _ _ _ _ _ _ _ HE). Qed.
Print Assumptions C42_neg_cyclotomic.
(** [Gt::default()] is not in the group, and adding its negation does not give the identity. *)
Theorem C42_default_refuted : forall F (o : fops F) inj p sc c o2 o12 cj ml fe pr,
  crate_engine o inj p sc c o2 o12 cj ml fe pr ->
  fpowz o12 (gt_default o12) (modulus sc) <> f1 o12
  /\ forall y, gt_add o12 (gt_default o12) y <> gt_identity o12.
Proof.
  intros F o inj p sc c o2 o12 cj ml fe pr HE. pose proof (crate_engine_facts _ _ _ _ _ _ _ _ _ _ _ HE) as EF.
  pose proof (en_field _ _ _ _ _ _ _ _ _ _ EF) as H. pose proof (fl_rl _ H) as HR.
  pose proof (r_pos _ _ _ _ _ _ _ _ _ _ _ HE) as R. unfold gt_default, gt_add, gt_identity. split.
  - rewrite fpowz_zero by (exact HR || lia). intros X. exact (fl_1_0 _ H (eq_sym X)).
  - intros y X. apply (fl_1_0 _ H). rewrite <- X. exact (mul_zero_l _ HR y).
Qed.
Print Assumptions C42_default_refuted.

(** The hypotheses are met: the engines over the integers modulo p. *)
Example ex_engine_bn256 : let p := modulus bn256_fq in let o := zp_ops p in let inj := zp_inj p in
  crate_engine o inj p bn256_fr 1 (bn256_fq2 o) (bn256_fq12 o) (bn256_conj o)
    (bn256_miller o inj) (bn256_final_exp o inj) (bn256_pairing o inj).
Proof. apply eng_bn256. apply ex_field. in_fields. Qed.
Example ex_engine_bls : let p := modulus bls12381_fq in let o := zp_ops p in let inj := zp_inj p in
  crate_engine o inj p bls12381_fr 3 (bls_fq2 o) (bls_fq12 o) (bls_conj o)
    (bls_miller o) (bls_final_exp o inj) (bls_pairing o inj).
Proof. apply eng_bls12381. apply ex_field. in_fields. Qed.
Example ex_engine_pluto : let p := modulus pluto_eris_fp in let o := zp_ops p in let inj := zp_inj p in
  crate_engine o inj p pluto_eris_fq 1 (pluto_fp2 o) (pluto_fp12 o inj) (pluto_conj o inj)
    (pluto_miller o inj) (pluto_final_exp o inj) (pluto_pairing o inj).
Proof. apply eng_pluto. apply ex_field. in_fields. Qed.
