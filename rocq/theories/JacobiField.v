(** The Legendre symbol of field elements: the Montgomery factor is a square, and for
    a prime modulus the symbol tells squares from non-squares. *)
From Verif Require Import Base Word Limbs Bytes Field SpecField FieldFacts LimbsFacts Algebra Pow FiniteField PrimeField.
From Verif Require Import Inverse InverseFacts InvertFacts LimbField.
From Verif Require Import SpecJacobi JacSymFacts Jacobi JacobiLint JacobiInner JacobiLoop.

(** ** The symbol *)
Lemma js_coprime a n : Z.gcd a n = 1 -> jacobi_symbol a n = 1 \/ jacobi_symbol a n = -1.
Proof. intros G. unfold jacobi_symbol. rewrite G. destruct (gauss_parity a n); [right|left]; reflexivity. Qed.
Lemma js_square y n : 0 < n -> Z.odd n = true -> Z.gcd y n = 1 -> jacobi_symbol (y * y) n = 1.
Proof.
  intros Hn Ho G. rewrite jacobi_symbol_mul by assumption. destruct (js_coprime y n G) as [-> | ->]; reflexivity.
Qed.
Lemma js_mod a n : n <> 0 -> jacobi_symbol (a mod n) n = jacobi_symbol a n.
Proof.
  intros Hn. rewrite (Z.div_mod a n Hn) at 2. rewrite Z.add_comm, Z.mul_comm, jacobi_symbol_period. reflexivity.
Qed.

(** The symbol is multiplicative in the lower argument: with [js_legendre] this is
    the textbook definition, the product of the Legendre symbols of the prime factors. *)
Lemma js_odd_arg a n : 0 < n -> Z.odd n = true -> exists a', 0 < a' /\ Z.odd a' = true /\ exists q, a' = a + q * n.
Proof.
  intros Hn Ho. pose proof (Z.mod_pos_bound a n Hn) as B. pose proof (Z.div_mod a n ltac:(lia)) as D.
  destruct (Z.odd (a mod n)) eqn:E.
  - exists (a mod n). split; [assert (a mod n <> 0) by (intros Z; rewrite Z in E; discriminate); lia|]. split; [exact E|].
    exists (- (a / n)). lia.
  - exists (a mod n + n). split; [lia|]. split; [rewrite Z.odd_add, E, Ho; reflexivity|]. exists (1 - a / n). lia.
Qed.
Lemma bit1_mul m n : Z.odd m = true -> Z.odd n = true -> Z.testbit (m * n) 1 = xorb (Z.testbit m 1) (Z.testbit n 1).
Proof.
  intros Hm Hn. apply Z.odd_spec in Hm, Hn. destruct Hm as [p ->], Hn as [q ->].
  replace ((2 * p + 1) * (2 * q + 1)) with (2 * (2 * p * q + p + q) + 1) by ring.
  assert (T : forall z, Z.testbit (2 * z + 1) 1 = Z.odd z).
  { intros z. change 1 with (Z.succ 0) at 2. rewrite Z.testbit_odd_succ by lia. apply Z.bit0_odd. }
  rewrite !T, !Z.odd_add. replace (2 * p * q) with (2 * (p * q)) by ring. rewrite Z.odd_mul. destruct (Z.odd p), (Z.odd q); reflexivity.
Qed.
Lemma gcd_mul_1 a m n : Z.gcd a m = 1 -> Z.gcd a n = 1 -> Z.gcd a (m * n) = 1.
Proof. intros H1 H2. apply Zgcd_1_rel_prime. apply Zgcd_1_rel_prime in H1, H2. now apply rel_prime_mult. Qed.
Lemma gcd_mul_l1 a m n : 0 < m -> Z.gcd a (m * n) = 1 -> Z.gcd a m = 1.
Proof.
  intros Hm H. apply Zgcd_1_rel_prime. apply Zgcd_1_rel_prime in H. apply rel_prime_sym.
  apply rel_prime_div with (m * n); [now apply rel_prime_sym|]. exists n. ring.
Qed.
Theorem js_lower_mul a m n : 0 < m -> 0 < n -> Z.odd m = true -> Z.odd n = true ->
  jacobi_symbol a (m * n) = jacobi_symbol a m * jacobi_symbol a n.
Proof.
  intros Hm Hn Om On. assert (Omn : Z.odd (m * n) = true) by (rewrite Z.odd_mul, Om, On; reflexivity).
  assert (Hmn : 0 < m * n) by nia.
  destruct (js_odd_arg a (m * n) Hmn Omn) as (a' & Pa & Oa & q & E).
  assert (E0 : jacobi_symbol a (m * n) = jacobi_symbol a' (m * n)) by (rewrite E; symmetry; apply jacobi_symbol_period).
  assert (E1 : jacobi_symbol a m = jacobi_symbol a' m).
  { rewrite E. replace (q * (m * n)) with (q * n * m) by ring. symmetry. apply jacobi_symbol_period. }
  assert (E2 : jacobi_symbol a n = jacobi_symbol a' n).
  { rewrite E. replace (q * (m * n)) with (q * m * n) by ring. symmetry. apply jacobi_symbol_period. }
  rewrite E0, E1, E2. clear E0 E1 E2 E q.
  assert (SW : forall x y, 0 < x -> 0 < y -> Z.odd x = true -> Z.odd y = true ->
    jacobi_symbol x y = sgn_of (Z.testbit x 1 && Z.testbit y 1) * jacobi_symbol y x).
  { intros x y Px Py Ox Oy. pose proof (jm_swap x y (or_introl Px) Ox Oy) as S. unfold jm in S.
    rewrite !Z.abs_eq in S by lia. exact S. }
  destruct (Z.eq_dec (Z.gcd a' m) 1) as [G1|G1].
  - rewrite (SW a' (m * n)), (SW a' m), (SW a' n) by assumption.
    assert (G1' : Z.gcd m a' = 1) by (rewrite Z.gcd_comm; exact G1).
    rewrite jacobi_symbol_mul by assumption. rewrite bit1_mul by assumption.
    assert (S : sgn_of (Z.testbit a' 1 && xorb (Z.testbit m 1) (Z.testbit n 1))
              = sgn_of (Z.testbit a' 1 && Z.testbit m 1) * sgn_of (Z.testbit a' 1 && Z.testbit n 1)).
    { destruct (Z.testbit a' 1), (Z.testbit m 1), (Z.testbit n 1); reflexivity. }
    rewrite S. ring.
  - assert (G2 : Z.gcd a' (m * n) <> 1) by (intros G; apply G1; apply (gcd_mul_l1 a' m n Hm G)).
    unfold jacobi_symbol. rewrite (proj2 (Z.eqb_neq _ _) G1), (proj2 (Z.eqb_neq _ _) G2). ring.
Qed.

(** For a prime the symbol is the Legendre symbol. *)
Theorem js_legendre p x : prime p -> Z.odd p = true -> 0 <= x < p ->
  (x = 0 -> jacobi_symbol x p = 0) /\
  (x <> 0 -> (exists y, (y * y) mod p = x) -> jacobi_symbol x p = 1) /\
  (x <> 0 -> (forall y, (y * y) mod p <> x) -> jacobi_symbol x p = -1).
Proof.
  intros Hp Ho Hx. pose proof (prime_ge_2 p Hp) as P2. split; [|split].
  - intros ->. unfold jacobi_symbol. rewrite Z.gcd_0_l, Z.abs_eq by lia.
    rewrite (proj2 (Z.eqb_neq p 1)) by lia. reflexivity.
  - intros Nx (y & E). rewrite <- E, js_mod by lia. apply js_square; [lia|exact Ho|].
    rewrite Z.gcd_comm. apply Zgcd_1_rel_prime, prime_rel_prime; [exact Hp|]. intros [q D]. apply Nx.
    rewrite <- E, D. replace (q * p * (q * p)) with (q * q * p * p) by ring. apply Z_mod_mult.
  - intros Nx N. assert (G : Z.gcd x p = 1) by (apply Zgcd_1_rel_prime, rel_prime_le_prime; [exact Hp|lia]).
    destruct (js_coprime x p G) as [J|J]; [exfalso|exact J].
    pose proof (jacobi_symbol_euler x p Hp Ho) as D. rewrite J in D.
    pose proof (zp_prime_field p Hp) as PF. set (o := zp_ops p) in *. set (inj := zp_inj p) in *.
    assert (P2' : 2 < p) by (destruct (Z.eq_dec p 2) as [-> |]; [discriminate|lia]).
    assert (Nz : inj x <> f0 o).
    { intros Z. apply (pf_zero_iff p o inj PF) in Z. rewrite Z.mod_small in Z by lia. lia. }
    assert (E : fpowz o (inj x) ((p - 1) / 2) = f1 o).
    { rewrite (pf_pow p o inj PF) by (apply Z.div_pos; lia). rewrite <- (zh_1 _ _ (pf_hom _ _ _ PF)).
      apply (pf_eq _ _ _ PF). rewrite Z.mod_mod by lia. apply Zmod_eq_iff; [lia|exact D]. }
    apply (euler o (pf_laws _ _ _ PF) p (prime_field_finite _ _ _ PF) (pf_two _ _ _ PF P2') _ Nz) in E.
    apply (pf_square_iff p o inj PF) in E. destruct E as [y E]. apply (N y). rewrite E. apply Z.mod_small. lia.
Qed.

(** ** The number of limbs chosen by the macro *)
Lemma jacobi_loop_spec : forall c fuel k j, 0 <= j < Z.of_nat fuel -> modulus c < 2 ^ (64 * (k + j) - 31) ->
  exists L, jacobi_loop c fuel k = Some L /\ k <= L <= k + j /\ modulus c < 2 ^ (64 * L - 31).
Proof.
  intros c. induction fuel as [|fuel IH]; intros k j Hj Hm; [lia|]. cbn [jacobi_loop].
  destruct (Z.ltb_spec (modulus c) (2 ^ (64 * k - 31))) as [H|H].
  - exists k. repeat split; auto; lia.
  - destruct (Z.eq_dec j 0) as [-> |Hn]; [rewrite Z.add_0_r in Hm; lia|].
    destruct (IH (k + 1) (j - 1)) as (L & E & R & B); [lia|now replace (k + 1 + (j - 1)) with (k + j) by lia|].
    exists L. repeat split; auto; lia.
Qed.
Lemma jacobi_constant_spec c : odd_conf c ->
  exists L, jacobi_constant c = Some L /\ Z.of_nat (num_limbs c) <= L <= Z.of_nat (num_limbs c) + 1 /\
    modulus c < 2 ^ (64 * L - 31).
Proof.
  intros Hc. pose proof (num_limbs_pos c Hc) as Hn. pose proof (p_lt_R c Hc) as Hp. pose proof (p_gt1 c Hc) as P1.
  unfold jacobi_constant.
  destruct (jacobi_loop_spec c (2 * num_limbs c + 2) 1 (Z.of_nat (num_limbs c))) as (L & E & R & B).
  - lia.
  - eapply Z.lt_le_trans; [apply Hp|]. rewrite W_pow, <- Z.pow_mul_r by lia. apply Z.pow_le_mono_r; lia.
  - exists L. split; [exact E|]. split; [|exact B]. split; [|lia].
    unfold num_limbs, num_bits. set (lg := Z.log2 (modulus c)).
    assert (lg < 64 * L - 31) by (apply Z.log2_lt_pow2; [lia|exact B]).
    pose proof (Z.log2_nonneg (modulus c)) as L0. fold lg in L0. replace (lg + 1 - 1) with lg by ring.
    assert (0 <= lg / 64) by (apply Z.div_pos; lia). rewrite Z2Nat.id by lia.
    assert (lg / 64 < L) by (apply Z.div_lt_upper_bound; lia). lia.
Qed.

Lemma fe_legendre_raw c a : odd_conf c -> canonical (num_limbs c) (modulus c) a ->
  fe_legendre c a = JVal (jacobi_symbol (eval a) (modulus c)).
Proof.
  intros Hc (A1 & A2 & A3). unfold fe_legendre. destruct (jacobi_constant_spec c Hc) as (L & -> & HL & HB).
  destruct (modulus_limbs_spec c Hc) as (M1 & M2 & M3). pose proof (num_limbs_pos c Hc) as Hn.
  pose proof (jo_lim_spec (Z.to_nat L) ltac:(lia)) as [EL PL].
  assert (EJ : jo_lim (Z.to_nat L) = 2 ^ (64 * L - 31)).
  { unfold jo_lim. rewrite Wn_pow2, Z2Nat.id by lia. rewrite <- Z.pow_sub_r by lia. reflexivity. }
  rewrite (jacobi_spec (Z.to_nat L) a (modulus_limbs c)); rewrite ?M3; try assumption; try lia.
  - reflexivity.
  - apply Hc.
Qed.

(** The limbs hold [x * 2^(64 n)]; the factor is the square of [2^(32 n)]. *)
Theorem fe_legendre_symbol c a x : odd_conf c -> represents (num_limbs c) (modulus c) a x ->
  fe_legendre c a = JVal (jacobi_symbol x (modulus c)).
Proof.
  intros Hc (Ca & Bx & E). rewrite (fe_legendre_raw c a Hc Ca). f_equal. pose proof (p_gt1 c Hc) as P1.
  rewrite E, js_mod by lia. set (k := num_limbs c).
  assert (ER : W ^ Z.of_nat k = 2 ^ (32 * Z.of_nat k) * 2 ^ (32 * Z.of_nat k)).
  { rewrite W_pow, <- Z.pow_mul_r, <- Z.pow_add_r by lia. f_equal. ring. }
  assert (G2 : Z.gcd (2 ^ (32 * Z.of_nat k)) (modulus c) = 1).
  { apply Zgcd_1_rel_prime. apply rel_prime_sym. apply rel_prime_Zpower_r; [lia|]. apply rel_prime_sym, Zgcd_1_rel_prime.
    apply gcd_2_odd. apply Hc. }
  assert (G : Z.gcd (W ^ Z.of_nat k) (modulus c) = 1).
  { rewrite ER, Z.gcd_comm. apply gcd_mul_1; rewrite Z.gcd_comm; exact G2. }
  rewrite Z.mul_comm, jacobi_symbol_mul; [|lia|apply Hc|exact G].
  rewrite ER, js_square; [ring|lia|apply Hc|exact G2].
Qed.
