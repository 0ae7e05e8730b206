(** The Frobenius maps of the towers are p-th power maps; cyclotomic squaring. *)
From Verif Require Import Base Algebra Pow Tower TowerFacts FiniteField PrimeField.

Section Quad.
Context {F : Type} (p : Z) (o : fops F) (inj : Z -> F) (HP : prime_field p o inj).
Context (mnr : F -> F) (beta : F) (sq : quad F -> quad F).
Hypothesis Hp2 : 2 < p.
Hypothesis Hm : forall x, mnr x = fmul o beta x.
Hypothesis Hnr : forall x, fmul o x x <> beta.
Hypothesis Hsq : forall a, sq a = quad_mul o mnr a a.
Let H := pf_laws _ _ _ HP.
Let HR := fl_rl _ H.
Let Hh := pf_hom _ _ _ HP.
Let o2 := quad_ops o mnr sq.
Let H2 : field_laws o2 := quad_field_laws o mnr beta H Hm Hnr sq Hsq.
Let HR2 := fl_rl _ H2.
Add Ring FRfq : (rl_ring _ HR).
Add Ring FR2 : (rl_ring _ HR2).

Definition quad_inj (z : Z) : quad F := mk_quad (inj z) (f0 o).

Lemma quad_zhom : zhom o2 quad_inj.
Proof.
  constructor; unfold quad_inj, o2; cbn [quad_ops f0 f1 fadd fmul].
  - rewrite (zh_0 _ _ Hh). reflexivity.
  - rewrite (zh_1 _ _ Hh). reflexivity.
  - intros a b. rewrite (zh_add _ _ Hh). apply quad_ext; unfold quad_add; cbn [q0 q1]; ring.
  - intros a b. rewrite (zh_mul _ _ Hh), (quad_mul_school o mnr beta HR Hm).
    apply quad_ext; cbn [q0 q1]; ring.
Qed.

Lemma quad_char : quad_inj p = f0 o2.
Proof. unfold quad_inj. rewrite (pf_char _ _ _ HP). reflexivity. Qed.

Lemma quad_embed_mul a b : quad_mul o mnr (mk_quad a (f0 o)) (mk_quad b (f0 o))
  = mk_quad (fmul o a b) (f0 o).
Proof. rewrite (quad_mul_school o mnr beta HR Hm). apply quad_ext; cbn [q0 q1]; ring. Qed.

Lemma quad_embed_pow a e : fpowz o2 (mk_quad a (f0 o)) e = mk_quad (fpowz o a e) (f0 o).
Proof.
  destruct (Z_lt_le_dec e 0) as [Hn|Hn]. { destruct e; try lia. reflexivity. }
  revert e Hn. apply natlike_ind; [reflexivity|]. intros e He IH. unfold Z.succ.
  rewrite !fpowz_succ, IH by (assumption || lia). apply quad_embed_mul.
Qed.

Lemma beta_nonzero : beta <> f0 o.
Proof. intros E. apply (Hnr (f0 o)). rewrite E. ring. Qed.

Lemma beta_half : fpowz o beta ((p - 1) / 2) = fneg o (f1 o).
Proof.
  apply (euler_nonsquare o H p (prime_field_finite _ _ _ HP)).
  - apply (pf_two _ _ _ HP). exact Hp2.
  - exact beta_nonzero.
  - intros (y & E). apply (Hnr y). exact E.
Qed.

Lemma quad_frobenius_1 a : fpowz o2 a p = quad_conjugate o a.
Proof.
  pose (u := mk_quad (f0 o) (f1 o)).
  pose proof (half_card o H p (prime_field_finite _ _ _ HP) (pf_two _ _ _ HP Hp2)) as [Ep Eh].
  assert (Ea : a = fadd o2 (mk_quad (q0 a) (f0 o)) (fmul o2 (mk_quad (q1 a) (f0 o)) u)).
  { unfold o2, u. cbn [quad_ops fadd fmul]. rewrite (quad_mul_school o mnr beta HR Hm).
    unfold quad_add. apply quad_ext; cbn [q0 q1]; ring. }
  rewrite Ea at 1.
  rewrite (frobenius_add o2 HR2 quad_inj quad_zhom p (pf_prime _ _ _ HP) quad_char).
  rewrite (fpowz_mul_base o2 HR2), !quad_embed_pow,
    !(fermat_q o H p (prime_field_finite _ _ _ HP)).
  assert (Eu : fpowz o2 u p = mk_quad (f0 o) (fneg o (f1 o))).
  { rewrite Ep at 1. rewrite fpowz_succ, fpowz_mul by (assumption || lia).
    replace (fpowz o2 u 2) with (mk_quad beta (f0 o)).
    - rewrite quad_embed_pow, beta_half. unfold o2, u. cbn [quad_ops fmul].
      rewrite (quad_mul_school o mnr beta HR Hm). apply quad_ext; cbn [q0 q1]; ring.
    - rewrite fpowz_2. unfold o2, u. cbn [quad_ops fmul].
      rewrite (quad_mul_school o mnr beta HR Hm). apply quad_ext; cbn [q0 q1]; ring. }
  rewrite Eu. unfold o2. cbn [quad_ops fadd fmul]. rewrite (quad_mul_school o mnr beta HR Hm).
  unfold quad_add, quad_conjugate. apply quad_ext; cbn [q0 q1]; ring.
Qed.

Lemma quad_conj_conj a : quad_conjugate o (quad_conjugate o a) = a.
Proof. unfold quad_conjugate. apply quad_ext; cbn [q0 q1]; ring. Qed.

Lemma fq2_frobenius_succ k a : 0 <= k ->
  fq2_frobenius o (k + 1) a = quad_conjugate o (fq2_frobenius o k a).
Proof.
  intros Hk. unfold fq2_frobenius. pose proof (Z.mod_pos_bound k 2 ltac:(lia)) as B.
  assert (E : (k + 1) mod 2 = 1 - k mod 2).
  { rewrite Z.add_mod by lia. assert (C : k mod 2 = 0 \/ k mod 2 = 1) by lia.
    destruct C as [-> | ->]; reflexivity. }
  rewrite E. assert (C : k mod 2 = 0 \/ k mod 2 = 1) by lia.
  destruct C as [-> | ->]; cbn; [reflexivity|]. symmetry. apply quad_conj_conj.
Qed.

Theorem fq2_frobenius_pow k a : 0 <= k -> fq2_frobenius o k a = fpowz o2 a (p ^ k).
Proof.
  pose proof (pf_gt1 _ _ _ HP) as P1. revert k. apply natlike_ind.
  - reflexivity.
  - intros k Hk IH. unfold Z.succ. rewrite fq2_frobenius_succ, IH by exact Hk.
    rewrite <- quad_frobenius_1, <- fpowz_mul by (assumption || nia || apply Z.pow_nonneg; lia).
    f_equal. rewrite Z.pow_add_r by lia. ring.
Qed.
End Quad.

(** ** Sextic and dodecic levels over a field [G] of characteristic p with
    an endomorphism [cj] equal to the p-th power map. *)
Section Tower12.
Context {G : Type} (p : Z) (og : fops G) (Hg : field_laws og) (inj : Z -> G) (Hh : zhom og inj).
Context (mnr : G -> G) (xi : G) (cj : G -> G) (frob2 : Z -> G -> G).
Hypothesis Hpp : prime p.
Hypothesis Hchar : inj p = f0 og.
Hypothesis Hp6 : p mod 6 = 1.
Hypothesis Hm : forall x, mnr x = fmul og xi x.
Hypothesis Hcj : forall x, fpowz og x p = cj x.
Hypothesis Hf0 : forall x, frob2 0 x = x.
Hypothesis Hfs : forall k x, 0 <= k -> frob2 (k + 1) x = cj (frob2 k x).
Context (tab1 tab2 tab : list G).
Let HR := fl_rl _ Hg.
Let o6 := fq6_ops og mnr.
Let o12 := fq12_ops og mnr.
Let HR6 : ring_laws o6 := cubic_ring_laws og mnr xi HR Hm.
Let Hv : forall x, cubic_mul_by_v mnr x = fmul o6 (cubic_v og) x := cubic_mul_by_v_spec og mnr xi HR Hm.
Let HR12 : ring_laws o12 := quad_ring_laws o6 (cubic_mul_by_v mnr) (cubic_v og) HR6 Hv _
  (quad_square_mul o6 (cubic_mul_by_v mnr) (cubic_v og) HR6 Hv).
Notation "x *g y" := (fmul og x y) (at level 40, left associativity).
Notation "0g" := (f0 og). Notation "1g" := (f1 og).
Add Ring RG : (rl_ring _ HR).

(** Table conditions: entry 1 is the right power of xi, and each further entry
    follows from the previous one. *)
Definition tab_ok (n : nat) (t : list G) (g : G) : Prop :=
  nth 0 t 0g = 1g /\ nth 1 t 0g = g /\
  forall i, (i < n)%nat -> nth ((i + 1) mod n) t 0g = cj (nth i t 0g) *g g.
Let g12 := fpowz og xi ((p - 1) / 6).
Hypothesis Ht1 : tab_ok 6 tab1 (g12 *g g12).
Hypothesis Ht2 : tab_ok 6 tab2 (g12 *g g12 *g (g12 *g g12)).
Hypothesis Ht : tab_ok 12 tab g12.

Lemma p_gt1 : 1 < p. Proof. destruct Hpp; assumption. Qed.
Lemma p_6 : p - 1 = 6 * ((p - 1) / 6) /\ 0 <= (p - 1) / 6.
Proof.
  pose proof p_gt1. pose proof (Z.div_mod p 6 ltac:(lia)) as E. rewrite Hp6 in E.
  replace (p - 1) with ((p / 6) * 6) by lia. rewrite Z.div_mul by lia. lia.
Qed.

Lemma cj_mul a b : cj (a *g b) = cj a *g cj b.
Proof. rewrite <- !Hcj. apply (fpowz_mul_base og HR). Qed.
Lemma cj_1 : cj 1g = 1g.
Proof. rewrite <- Hcj. apply (fpowz_one og HR). Qed.
Lemma cj_pow a e : cj (fpowz og a e) = fpowz og (cj a) e.
Proof.
  destruct (Z_lt_le_dec e 0) as [Hn|Hn]. { destruct e; try lia. apply cj_1. }
  revert e Hn. apply natlike_ind; [apply cj_1|]. intros e He IH. unfold Z.succ.
  rewrite !fpowz_succ, cj_mul, IH by (assumption || lia). reflexivity.
Qed.

Lemma tab_idx n t g k : (2 <= n)%nat -> tab_ok n t g -> 0 <= k ->
  nth (Z.to_nat ((k + 1) mod Z.of_nat n)) t 0g = cj (nth (Z.to_nat (k mod Z.of_nat n)) t 0g) *g g.
Proof.
  intros Hn (_ & _ & Hr) Hk. pose proof (Z.mod_pos_bound k (Z.of_nat n) ltac:(lia)) as B.
  rewrite <- Hr by lia. f_equal. rewrite <- Zplus_mod_idemp_l.
  replace (k mod Z.of_nat n + 1) with (Z.of_nat (Z.to_nat (k mod Z.of_nat n) + 1)) by lia.
  rewrite <- Nat2Z.inj_mod, Nat2Z.id. reflexivity.
Qed.

(** *** Fp6 *)
Definition c6 (z : Z) : cubic G := mk_cubic (inj z) 0g 0g.

Lemma cubic_embed_mul a b : cubic_mul og mnr (mk_cubic a 0g 0g) (mk_cubic b 0g 0g)
  = mk_cubic (a *g b) 0g 0g.
Proof. rewrite (cubic_mul_school og mnr xi HR Hm). apply cubic_ext; cbn [k0 k1 k2]; ring. Qed.

Lemma cubic_embed_pow a e : fpowz o6 (mk_cubic a 0g 0g) e = mk_cubic (fpowz og a e) 0g 0g.
Proof.
  destruct (Z_lt_le_dec e 0) as [Hn|Hn]. { destruct e; try lia. reflexivity. }
  revert e Hn. apply natlike_ind; [reflexivity|]. intros e He IH. unfold Z.succ.
  rewrite !fpowz_succ, IH by (assumption || lia). apply cubic_embed_mul.
Qed.

Lemma c6_zhom : zhom o6 c6.
Proof.
  constructor; unfold c6, o6, fq6_ops; cbn [cubic_ops f0 f1 fadd fmul].
  - rewrite (zh_0 _ _ Hh). reflexivity.
  - rewrite (zh_1 _ _ Hh). reflexivity.
  - intros a b. rewrite (zh_add _ _ Hh). apply cubic_ext; unfold cubic_add; cbn [k0 k1 k2]; ring.
  - intros a b. rewrite (zh_mul _ _ Hh). symmetry. apply cubic_embed_mul.
Qed.

Lemma v_cubed e : 0 <= e -> fpowz o6 (cubic_v og) (3 * e) = mk_cubic (fpowz og xi e) 0g 0g.
Proof.
  intros He. rewrite fpowz_mul by (assumption || lia).
  replace (fpowz o6 (cubic_v og) 3) with (mk_cubic xi 0g 0g); [apply cubic_embed_pow|].
  change (fpowz o6 (cubic_v og) 3) with
    (cubic_mul og mnr (cubic_v og) (cubic_mul og mnr (cubic_v og) (cubic_v og))).
  rewrite !(cubic_mul_school og mnr xi HR Hm). apply cubic_ext; cbn [k0 k1 k2 cubic_v]; ring.
Qed.

Lemma v_pow_p : fpowz o6 (cubic_v og) p = mk_cubic 0g (g12 *g g12) 0g.
Proof.
  pose proof p_6 as [E Hn]. replace p with (3 * (2 * ((p - 1) / 6)) + 1) at 1 by lia.
  rewrite fpowz_succ, v_cubed by (assumption || lia).
  replace (fpowz og xi (2 * ((p - 1) / 6))) with (g12 *g g12).
  - change (fmul o6) with (cubic_mul og mnr). rewrite (cubic_mul_school og mnr xi HR Hm).
    apply cubic_ext; cbn [k0 k1 k2 cubic_v]; ring.
  - unfold g12. rewrite <- fpowz_add by (assumption || lia). f_equal. lia.
Qed.

Lemma fq6_frobenius_1 a :
  fpowz o6 a p = mk_cubic (cj (k0 a)) (cj (k1 a) *g (g12 *g g12))
                          (cj (k2 a) *g (g12 *g g12 *g (g12 *g g12))).
Proof.
  pose (v := cubic_v og).
  assert (Ea : a = fadd o6 (fadd o6 (mk_cubic (k0 a) 0g 0g) (fmul o6 (mk_cubic (k1 a) 0g 0g) v))
                       (fmul o6 (mk_cubic (k2 a) 0g 0g) (fmul o6 v v))).
  { change (fmul o6) with (cubic_mul og mnr). change (fadd o6) with (cubic_add og).
    unfold v. rewrite !(cubic_mul_school og mnr xi HR Hm).
    unfold cubic_add. apply cubic_ext; cbn [k0 k1 k2 cubic_v]; ring. }
  rewrite Ea at 1.
  assert (Hc6 : c6 p = f0 o6). { unfold c6. rewrite Hchar. reflexivity. }
  rewrite !(frobenius_add o6 HR6 c6 c6_zhom p Hpp Hc6).
  rewrite !(fpowz_mul_base o6 HR6), !cubic_embed_pow, !Hcj.
  change (fpowz o6 v p) with (fpowz o6 (cubic_v og) p). rewrite v_pow_p.
  change (fmul o6) with (cubic_mul og mnr). change (fadd o6) with (cubic_add og).
  rewrite !(cubic_mul_school og mnr xi HR Hm). unfold cubic_add.
  apply cubic_ext; cbn [k0 k1 k2]; ring.
Qed.

Lemma fq6_frobenius_succ k a : 0 <= k ->
  fq6_frobenius og frob2 tab1 tab2 (k + 1) a
  = fpowz o6 (fq6_frobenius og frob2 tab1 tab2 k a) p.
Proof.
  intros Hk. rewrite fq6_frobenius_1. unfold fq6_frobenius. cbn [k0 k1 k2].
  rewrite !Hfs by exact Hk. change 6 with (Z.of_nat 6).
  rewrite !(tab_idx 6 tab1 (g12 *g g12)), !(tab_idx 6 tab2 (g12 *g g12 *g (g12 *g g12)))
    by (lia || assumption).
  rewrite !cj_mul. apply cubic_ext; cbn [k0 k1 k2]; ring.
Qed.

Theorem fq6_frobenius_pow k a : 0 <= k ->
  fq6_frobenius og frob2 tab1 tab2 k a = fpowz o6 a (p ^ k).
Proof.
  pose proof p_gt1 as P1. revert k. apply natlike_ind.
  - change (p ^ 0) with 1. rewrite fpowz_1. unfold fq6_frobenius. rewrite !Hf0.
    change (Z.to_nat (0 mod 6)) with O. destruct Ht1 as (-> & _), Ht2 as (-> & _).
    apply cubic_ext; cbn [k0 k1 k2]; ring.
  - intros k Hk IH. unfold Z.succ. rewrite fq6_frobenius_succ, IH by exact Hk.
    rewrite <- fpowz_mul by (assumption || nia || apply Z.pow_nonneg; lia).
    f_equal. rewrite Z.pow_add_r by lia. ring.
Qed.

(** *** Fp12 *)
Definition c12 (z : Z) : quad (cubic G) := mk_quad (c6 z) (cubic_zero og).
Add Ring R6 : (rl_ring _ HR6).

Lemma q12_school a b : fmul o12 a b
  = mk_quad (fadd o6 (fmul o6 (q0 a) (q0 b)) (fmul o6 (cubic_v og) (fmul o6 (q1 a) (q1 b))))
            (fadd o6 (fmul o6 (q0 a) (q1 b)) (fmul o6 (q1 a) (q0 b))).
Proof. exact (quad_mul_school o6 (cubic_mul_by_v mnr) (cubic_v og) HR6 Hv a b). Qed.

Lemma q12_embed_mul a b : fmul o12 (mk_quad a (f0 o6)) (mk_quad b (f0 o6)) = mk_quad (fmul o6 a b) (f0 o6).
Proof. rewrite q12_school. apply quad_ext; cbn [q0 q1]; ring. Qed.

Lemma q12_embed_pow a e : fpowz o12 (mk_quad a (f0 o6)) e = mk_quad (fpowz o6 a e) (f0 o6).
Proof.
  destruct (Z_lt_le_dec e 0) as [Hn|Hn]. { destruct e; try lia. reflexivity. }
  revert e Hn. apply natlike_ind; [reflexivity|]. intros e He IH. unfold Z.succ.
  rewrite !fpowz_succ, IH by (assumption || lia). apply q12_embed_mul.
Qed.

Lemma c12_zhom : zhom o12 c12.
Proof.
  change c12 with (fun z => mk_quad (c6 z) (f0 o6)). constructor.
  - rewrite (zh_0 _ _ c6_zhom). reflexivity.
  - rewrite (zh_1 _ _ c6_zhom). reflexivity.
  - intros a b. rewrite (zh_add _ _ c6_zhom). change (fadd o12) with (quad_add o6).
    unfold quad_add. apply quad_ext; cbn [q0 q1]; ring.
  - intros a b. rewrite (zh_mul _ _ c6_zhom). symmetry. apply q12_embed_mul.
Qed.

Definition w12 : quad (cubic G) := mk_quad (f0 o6) (f1 o6).

Lemma w_pow_p : fpowz o12 w12 p = mk_quad (f0 o6) (mk_cubic g12 0g 0g).
Proof.
  pose proof p_6 as [E Hn]. replace p with (2 * (3 * ((p - 1) / 6)) + 1) at 1 by lia.
  rewrite fpowz_succ, fpowz_mul by (assumption || lia).
  replace (fpowz o12 w12 2) with (mk_quad (cubic_v og) (f0 o6)).
  - rewrite q12_embed_pow, v_cubed by exact Hn. rewrite q12_school. unfold w12.
    fold g12. apply quad_ext; cbn [q0 q1]; ring.
  - rewrite fpowz_2, q12_school. unfold w12. apply quad_ext; cbn [q0 q1]; ring.
Qed.

Lemma fq12_frobenius_1 a :
  fpowz o12 a p = mk_quad (fpowz o6 (q0 a) p) (fmul o6 (fpowz o6 (q1 a) p) (mk_cubic g12 0g 0g)).
Proof.
  assert (Ea : a = fadd o12 (mk_quad (q0 a) (f0 o6)) (fmul o12 (mk_quad (q1 a) (f0 o6)) w12)).
  { rewrite q12_school. change (fadd o12) with (quad_add o6). unfold quad_add, w12.
    apply quad_ext; cbn [q0 q1]; ring. }
  rewrite Ea at 1.
  assert (Hc : c12 p = f0 o12). { unfold c12, c6. rewrite Hchar. reflexivity. }
  rewrite (frobenius_add o12 HR12 c12 c12_zhom p Hpp Hc).
  rewrite (fpowz_mul_base o12 HR12), !q12_embed_pow, w_pow_p, q12_school.
  change (fadd o12) with (quad_add o6). unfold quad_add. apply quad_ext; cbn [q0 q1]; ring.
Qed.

Lemma cubic_scale a g : fmul o6 a (mk_cubic g 0g 0g) = mk_cubic (k0 a *g g) (k1 a *g g) (k2 a *g g).
Proof.
  change (fmul o6) with (cubic_mul og mnr). rewrite (cubic_mul_school og mnr xi HR Hm).
  apply cubic_ext; cbn [k0 k1 k2]; ring.
Qed.

Lemma fq12_frobenius_scale k a :
  fq12_frobenius og frob2 tab1 tab2 tab k a
  = mk_quad (fq6_frobenius og frob2 tab1 tab2 k (q0 a))
            (fmul o6 (fq6_frobenius og frob2 tab1 tab2 k (q1 a))
                     (mk_cubic (nth (Z.to_nat (k mod 12)) tab 0g) 0g 0g)).
Proof. unfold fq12_frobenius. rewrite cubic_scale. reflexivity. Qed.

Theorem fq12_frobenius_pow k a : 0 <= k ->
  fq12_frobenius og frob2 tab1 tab2 tab k a = fpowz o12 a (p ^ k).
Proof.
  pose proof p_gt1 as P1. revert k. apply natlike_ind.
  - change (p ^ 0) with 1. rewrite fpowz_1, fq12_frobenius_scale.
    rewrite !fq6_frobenius_pow by lia. change (p ^ 0) with 1. rewrite !fpowz_1.
    change (Z.to_nat (0 mod 12)) with O. destruct Ht as (-> & _).
    apply quad_ext; cbn [q0 q1]; [reflexivity|]. change (mk_cubic 1g 0g 0g) with (f1 o6). ring.
  - intros k Hk IH. unfold Z.succ.
    replace (p ^ (k + 1)) with (p ^ k * p) by (rewrite Z.pow_add_r by lia; ring).
    rewrite fpowz_mul by (assumption || lia || apply Z.pow_nonneg; lia).
    rewrite <- IH, fq12_frobenius_1, !fq12_frobenius_scale. cbn [q0 q1].
    rewrite !fq6_frobenius_succ by exact Hk. f_equal.
    rewrite (fpowz_mul_base o6 HR6), cubic_embed_pow, Hcj.
    change 12 with (Z.of_nat 12). rewrite (tab_idx 12 tab g12) by (lia || assumption).
    rewrite <- cubic_embed_mul. change (cubic_mul og mnr) with (fmul o6). ring.
Qed.

(** *** Cyclotomic squaring *)
Notation "x +g y" := (fadd og x y) (at level 50, left associativity).
Notation "x -g y" := (fsub og x y) (at level 50, left associativity).

(** The p^2-power map scales the coefficient of w^i by gam^i. *)
Definition phi2 (g : G) (f : quad (cubic G)) : quad (cubic G) :=
  mk_quad (mk_cubic (k0 (q0 f)) (g *g g *g k1 (q0 f)) (g *g g *g (g *g g) *g k2 (q0 f)))
          (mk_cubic (g *g k0 (q1 f)) (g *g (g *g g) *g k1 (q1 f))
                    (g *g (g *g g *g (g *g g)) *g k2 (q1 f))).

Lemma cyclotomic_square_phi2 g f : g *g g = g -g 1g ->
  fmul o12 (phi2 g (phi2 g f)) f = phi2 g f ->
  cyclotomic_square og mnr f = fmul o12 f f.
Proof.
  intros Hg2 E. rewrite q12_school in E |- *.
  destruct f as [[a0 a1 a2] [b0 b1 b2]]. unfold phi2 in E. cbn [q0 q1 k0 k1 k2] in E.
  change (fmul o6) with (cubic_mul og mnr) in *. change (fadd o6) with (cubic_add og) in *.
  rewrite !(cubic_mul_school og mnr xi HR Hm) in E |- *. unfold cubic_add in *.
  cbn [q0 q1 k0 k1 k2 cubic_v] in E |- *.
  injection E as E0 E2 E4 E1 E3 E5.
  apply (f_equal (fun x => (1g +g 1g) *g x)) in E0.
  apply (f_equal (fun x => (1g +g 1g) *g ((g -g 1g) *g x))) in E1.
  apply (f_equal (fun x => (1g +g 1g) *g (g *g x))) in E2.
  apply (f_equal (fun x => (1g +g 1g) *g x)) in E3.
  apply (f_equal (fun x => (1g +g 1g) *g ((g -g 1g) *g x))) in E4.
  apply (f_equal (fun x => (1g +g 1g) *g (g *g x))) in E5.
  unfold cyclotomic_square, fp4_square. cbn [q0 q1 k0 k1 k2].
  rewrite !Hm, !(rl_sqr _ HR), !(rl_dbl _ HR).
  assert (Z : forall x y, x = y -> x -g y = 0g) by (intros x y ->; ring).
  apply Z in E0, E1, E2, E3, E4, E5.
  apply quad_ext; cbn [q0 q1]; apply cubic_ext; cbn [k0 k1 k2]; apply (sub_zero_eq og Hg).
  - etransitivity; [|exact E0]. ring [Hg2].
  - apply (neg_zero_iff og Hg). etransitivity; [|exact E2]. ring [Hg2].
  - etransitivity; [|exact E4]. ring [Hg2].
  - etransitivity; [|exact E1]. ring [Hg2].
  - etransitivity; [|exact E3]. ring [Hg2].
  - apply (neg_zero_iff og Hg). etransitivity; [|exact E5]. ring [Hg2].
Qed.

Hypothesis Hcc : forall x, cj (cj x) = x.
Let gam := cj g12 *g g12.
Hypothesis Hgam : gam *g gam = gam -g 1g.

Lemma frob_2_phi2 f : fpowz o12 f (p ^ 2) = phi2 gam f.
Proof.
  rewrite <- fq12_frobenius_pow by lia.
  unfold fq12_frobenius, fq6_frobenius, phi2.
  change (Z.to_nat (2 mod 6)) with 2%nat. change (Z.to_nat (2 mod 12)) with 2%nat.
  assert (F2 : forall x, frob2 2 x = x).
  { intros x. change 2 with (0 + 1 + 1). rewrite !Hfs, Hf0 by lia. apply Hcc. }
  rewrite !F2. destruct Ht1 as (_ & E1 & R1), Ht2 as (_ & E2 & R2), Ht as (_ & E3 & R3).
  specialize (R1 1%nat ltac:(lia)). specialize (R2 1%nat ltac:(lia)). specialize (R3 1%nat ltac:(lia)).
  change ((1 + 1) mod 6)%nat with 2%nat in *. change ((1 + 1) mod 12)%nat with 2%nat in *.
  rewrite R1, R2, R3, E1, E2, E3, !cj_mul. unfold gam.
  apply quad_ext; cbn [q0 q1]; apply cubic_ext; cbn [k0 k1 k2]; ring.
Qed.

(** In the image of the easy part, [cyclotomic_square] is squaring. *)
Theorem cyclotomic_square_correct f :
  fpowz o12 f (p ^ 4 - p ^ 2 + 1) = f1 o12 -> cyclotomic_square og mnr f = fmul o12 f f.
Proof.
  intros E. pose proof p_gt1 as P1. apply (cyclotomic_square_phi2 gam); [exact Hgam|].
  rewrite <- !frob_2_phi2. rewrite <- fpowz_mul by (assumption || apply Z.pow_nonneg; lia).
  rewrite <- Z.pow_add_r by lia. change (2 + 2) with 4.
  assert (P2 : p ^ 2 <= p ^ 4) by (apply Z.pow_le_mono_r; lia).
  assert (P0 : 0 <= p ^ 2) by (apply Z.pow_nonneg; lia).
  replace (p ^ 4) with (p ^ 2 + (p ^ 4 - p ^ 2)) at 1 by lia.
  rewrite fpowz_add by (assumption || lia).
  rewrite fpowz_succ in E by (assumption || lia).
  pose proof (rl_ring _ HR12) as RT.
  rewrite <- (Rmul_assoc RT), (Rmul_comm RT _ f), E, (Rmul_comm RT), (Rmul_1_l RT). reflexivity.
Qed.
End Tower12.
