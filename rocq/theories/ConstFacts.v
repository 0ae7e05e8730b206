(** Multiplicative orders, and the constants generated by the field macro. *)
From Verif Require Import Base Word Limbs SpecField LimbsFacts Bytes Field FieldFacts Algebra PrimeField.
From Verif Require Import Primality GenCerts Params Certs.

(** ** Orders modulo [p] *)
(** [n] is the least positive exponent with [a^n = 1 mod p]. *)
Definition has_order (p a n : Z) : Prop :=
  0 < n /\ a ^ n mod p = 1 /\ forall k, 0 < k < n -> a ^ k mod p <> 1.

Lemma congr1_iff p x : 1 < p -> congr1 p x <-> x mod p = 1.
Proof.
  intros Hp. unfold congr1. rewrite <- Z.mod_divide by lia. split; intros E.
  - replace x with (x - 1 + 1) by lia. rewrite Zplus_mod, E, Z.add_0_l, Zmod_mod. apply Z.mod_small. lia.
  - rewrite Zminus_mod, E, (Z.mod_small 1), Z.sub_diag by lia. apply Z.mod_0_l. lia.
Qed.

Lemma order_of_factors p a n : 1 < p -> 0 < n -> a ^ n mod p = 1 ->
  (forall q, prime q -> (q | n) -> a ^ (n / q) mod p <> 1) -> has_order p a n.
Proof.
  intros Hp Hn E H. split; [exact Hn|]. split; [exact E|]. intros k Hk Ek.
  set (d := Z.gcd n k).
  assert (Hd : congr1 p (a ^ d)).
  { apply (congr1_gcd p a (Z.to_nat k)); try lia; apply congr1_iff; auto. }
  assert (D1 : (d | n)) by apply Z.gcd_divide_l. assert (D2 : (d | k)) by apply Z.gcd_divide_r.
  assert (D0 : 0 < d). { pose proof (Z.gcd_nonneg n k). unfold d in *. destruct (Z.eq_dec (Z.gcd n k) 0) as [G|G]; [apply Z.gcd_eq_0 in G|]; lia. }
  assert (D3 : d <= k) by (apply Z.divide_pos_le; [lia|exact D2]).
  destruct D1 as (h & Hh). assert (1 < h) by (clear - Hh D3 Hk D0; nia).
  destruct (prime_divisor_exists h) as (q & Hq & (m & Hm)); [lia|].
  assert (1 < q) by (destruct Hq; assumption). assert (0 < m) by (clear - Hm H0 H1; nia).
  apply (H q Hq). { exists (m * d). rewrite Hh, Hm. ring. }
  replace (n / q) with (d * m).
  2:{ rewrite Hh, Hm. replace (m * q * d) with (d * m * q) by ring. symmetry. apply Z.div_mul. lia. }
  rewrite Z.pow_mul_r by lia. apply congr1_iff; [exact Hp|]. apply congr1_pow; [lia|exact Hd].
Qed.

Lemma prime_in_qprod qs : Forall (fun qe => prime (fst qe) /\ 0 <= snd qe) qs ->
  forall q, prime q -> (q | qprod qs) -> In q (map fst qs).
Proof.
  induction 1 as [|[r e] qs [Hr He] _ IH]; intros q Hq D; cbn [qprod fold_right map fst snd In] in *.
  - exfalso. assert (1 < q) by (destruct Hq; assumption).
    apply Z.divide_1_r_nonneg in D; lia.
  - apply prime_mult in D; [|exact Hq]. destruct D as [D|D]; [left|right; apply IH; assumption].
    symmetry. apply (prime_div_prime q r); auto. clear IH. revert D. pattern e. apply natlike_ind; [| |exact He].
    + intros D. exfalso. assert (1 < q) by (destruct Hq; assumption). rewrite Z.pow_0_r in D. apply Z.divide_1_r_nonneg in D; lia.
    + intros x Hx IHx D. rewrite Z.pow_succ_r in D by exact Hx. apply prime_mult in D; [|exact Hq]. tauto.
Qed.

(** Boolean check that [a] has order [qprod qs] modulo [p]. *)
Definition order_check (p a : Z) (qs : list (Z * Z)) : bool :=
  (1 <? p) && forallb (fun qe => existsb (Z.eqb (fst qe)) all_primes && (0 <=? snd qe)) qs &&
  (bpow a (qprod qs) p =? 1) && forallb (fun qe => negb (bpow a (qprod qs / fst qe) p =? 1)) qs.
Lemma order_check_spec p a qs : order_check p a qs = true -> has_order p a (qprod qs).
Proof.
  unfold order_check. rewrite !andb_true_iff. intros [[[H1 H2] H3] H4].
  apply Z.ltb_lt in H1. apply Z.eqb_eq in H3. rewrite forallb_forall in H2, H4.
  assert (HQ : Forall (fun qe => prime (fst qe) /\ 0 <= snd qe) qs).
  { apply Forall_forall. intros qe Hq. specialize (H2 qe Hq). apply andb_true_iff in H2.
    destruct H2 as [E P]. apply existsb_exists in E. destruct E as (x & Hx & E).
    apply Z.eqb_eq in E. subst x. split; [|apply Z.leb_le; exact P].
    pose proof all_primes_prime as Hk. rewrite Forall_forall in Hk. apply Hk. exact Hx. }
  assert (P0 : 0 < qprod qs).
  { clear H2 H3 H4. induction HQ as [|[q e] l [Hq He] _ IH]; cbn [qprod fold_right fst snd] in *; [lia|].
    assert (1 < q) by (destruct Hq; assumption). apply Z.mul_pos_pos; [apply Z.pow_pos_nonneg; lia|exact IH]. }
  rewrite bpow_spec in H3 by lia.
  apply order_of_factors; auto. intros q Hq D E.
  apply prime_in_qprod in D; auto. apply in_map_iff in D. destruct D as (qe & <- & Hin).
  specialize (H4 qe Hin). assert (1 < fst qe) by (destruct Hq; assumption).
  rewrite bpow_spec in H4 by (try (apply Z.div_pos; lia); lia). rewrite E in H4. discriminate.
Qed.

(** ** The derived constants *)
Lemma two_adic_spec : forall t, let '(s, d) := two_adic t in
  0 <= s /\ Zpos t = 2 ^ s * Zpos d /\ Z.odd (Zpos d) = true.
Proof.
  induction t as [t IH|t IH|]; cbn [two_adic].
  - repeat split; lia.
  - destruct (two_adic t) as [s d]. destruct IH as (H1 & H2 & H3). split; [lia|]. split; [|exact H3].
    rewrite Z.pow_add_r, Z.pow_1_r by lia. rewrite (Pos2Z.inj_xO t). lia.
  - repeat split; lia.
Qed.

Section Consts.
Variable c : fconf.
Hypothesis Hc : odd_conf c.
Notation p := (modulus c).
Notation repr := (represents (num_limbs c) (modulus c)).
Notation S := (two_adicity c).
Notation t := (odd_part c).

Lemma adicity : 1 <= S /\ 0 < t /\ p - 1 = 2 ^ S * t /\ Z.odd t = true.
Proof.
  pose proof (p_gt1 c Hc) as P1. destruct Hc as [_ Ho].
  unfold two_adicity, odd_part. pose proof (two_adic_spec (Z.to_pos (p - 1))) as H.
  destruct (two_adic _) as [s d]. cbn [fst snd]. destruct H as (H1 & H2 & H3).
  rewrite Z2Pos.id in H2 by lia. repeat split; auto; try lia.
  destruct (Z.eq_dec s 0) as [->|]; [|lia]. exfalso.
  rewrite Z.pow_0_r, Z.mul_1_l in H2. rewrite <- H2, Z.odd_sub, Ho in H3. discriminate.
Qed.

Lemma const_repr z : repr (to_token c (mont c z)) (z mod p).
Proof. apply (token_mont_repr c Hc). Qed.

Hypothesis Hp : prime p.
(** The generator literal is a quadratic non-residue. *)
Hypothesis Hg : mul_gen c ^ ((p - 1) / 2) mod p = p - 1.

Lemma p_gt2 : 2 < p.
Proof.
  pose proof (p_gt1 c Hc). destruct Hc as [_ Ho]. destruct (Z.eq_dec p 2) as [E|]; [|lia].
  rewrite E in Ho. discriminate.
Qed.
Lemma half_adicity : (p - 1) / 2 = 2 ^ (S - 1) * t.
Proof.
  destruct adicity as (H1 & H2 & H3 & H4). rewrite H3.
  replace S with (S - 1 + 1) at 1 by lia. rewrite Z.pow_add_r, Z.pow_1_r by lia.
  replace (2 ^ (S - 1) * 2 * t) with (2 ^ (S - 1) * t * 2) by ring. apply Z.div_mul. lia.
Qed.
Lemma root_half : root_of_unity_int c ^ (2 ^ (S - 1)) mod p = p - 1.
Proof.
  destruct adicity as (H1 & H2 & H3 & H4). pose proof p_gt2 as P2.
  unfold root_of_unity_int. rewrite modpow_spec, <- Zpower_mod, <- Z.pow_mul_r by lia.
  rewrite Z.mul_comm, <- half_adicity. exact Hg.
Qed.
Lemma root_order : has_order p (root_of_unity_int c) (2 ^ S).
Proof.
  destruct adicity as (H1 & H2 & H3 & H4). pose proof p_gt2 as P2. pose proof root_half as E.
  assert (D : 2 ^ S = 2 ^ (S - 1) * 2).
  { replace S with (S - 1 + 1) at 1 by lia. rewrite Z.pow_add_r, Z.pow_1_r by lia. reflexivity. }
  apply order_of_factors; try lia.
  - rewrite D, Z.pow_mul_r, Zpower_mod, E by lia.
    replace ((p - 1) ^ 2) with (1 + (p - 2) * p) by ring. rewrite Z_mod_plus_full. apply Z.mod_small. lia.
  - intros q Hq Dq. assert (q = 2).
    { apply prime_div_prime; auto using prime_2. clear - Hq Dq H1.
      assert (0 <= S) by lia. revert Dq. pattern (two_adicity c). apply natlike_ind; [| |assumption].
      - intros D. exfalso. assert (1 < q) by (destruct Hq; assumption). rewrite Z.pow_0_r in D. apply Z.divide_1_r_nonneg in D; lia.
      - intros x Hx IHx D. rewrite Z.pow_succ_r in D by exact Hx. apply prime_mult in D; [|exact Hq]. tauto. }
    subst q. rewrite D, Z.div_mul, E by lia. lia.
Qed.
Lemma root_bound : 0 < root_of_unity_int c < p.
Proof.
  pose proof p_gt2 as P2. destruct adicity as (H1 & H2 & H3 & H4).
  assert (B : 0 <= root_of_unity_int c < p) by (unfold root_of_unity_int; rewrite modpow_spec by lia; apply Z.mod_pos_bound; lia).
  destruct (Z.eq_dec (root_of_unity_int c) 0) as [E|]; [|lia]. exfalso.
  pose proof root_half as R. rewrite E, Z.pow_0_l, Z.mod_0_l in R by (try (apply Z.pow_pos_nonneg); lia). lia.
Qed.
Lemma root_inverse : (root_of_unity_int c * root_of_unity_inv_int c) mod p = 1.
Proof. apply modpow_inverse; auto. apply root_bound. Qed.
Lemma two_inverse : (2 * two_inv_int c) mod p = 1.
Proof. apply modpow_inverse; auto. pose proof p_gt2. lia. Qed.
End Consts.

Lemma modpow_bound b e m : 0 < m -> 0 <= e -> 0 <= modpow b e m < m.
Proof. intros. rewrite modpow_spec by lia. apply Z.mod_pos_bound. lia. Qed.

(** ** The crate's constants *)
Definition generator_nonresidue (c : fconf) : bool :=
  bpow (mul_gen c) ((modulus c - 1) / 2) (modulus c) =? modulus c - 1.
Lemma all_generators_nonresidue : forallb generator_nonresidue all_fields = true.
Proof. vm_cast_no_check (eq_refl true). Qed.
Lemma generator_half c : In c all_fields -> mul_gen c ^ ((modulus c - 1) / 2) mod modulus c = modulus c - 1.
Proof.
  intros Hin. pose proof all_generators_nonresidue as H. rewrite forallb_forall in H. specialize (H c Hin).
  apply Z.eqb_eq in H.
  assert (P : 1 < modulus c).
  { pose proof all_moduli_prime as A. rewrite Forall_forall in A. destruct (A c Hin). assumption. }
  rewrite bpow_spec in H; [exact H|lia|]. apply Z.div_pos; lia.
Qed.
Lemma generators_primitive : forall c qs, In (c, qs) factored -> has_order (modulus c) (mul_gen c) (modulus c - 1).
Proof.
  assert (A : forallb (fun cq => order_check (modulus (fst cq)) (mul_gen (fst cq)) (snd cq)
     && (qprod (snd cq) =? modulus (fst cq) - 1)) factored = true) by (vm_cast_no_check (eq_refl true)).
  intros c qs Hin. rewrite forallb_forall in A. specialize (A _ Hin). cbn [fst snd] in A.
  apply andb_true_iff in A. destruct A as [A1 A2]. apply Z.eqb_eq in A2. rewrite <- A2.
  apply order_check_spec. exact A1.
Qed.
Lemma zetas_cube : forall c, In c all_fields -> (zeta c * zeta c + zeta c + 1) mod modulus c = 0 /\ 1 < zeta c < modulus c.
Proof.
  assert (A : forallb (fun c => ((zeta c * zeta c + zeta c + 1) mod modulus c =? 0) && (1 <? zeta c) && (zeta c <? modulus c)) all_fields = true)
    by (vm_compute; reflexivity).
  intros c Hin. rewrite forallb_forall in A. specialize (A c Hin). rewrite !andb_true_iff in A. destruct A as [[A1 A2] A3].
  apply Z.eqb_eq in A1. split; [exact A1|]. lia.
Qed.
Lemma zeta_order : forall c, In c all_fields -> has_order (modulus c) (zeta c) 3.
Proof.
  intros c Hin. destruct (zetas_cube c Hin) as [E B].
  apply order_of_factors; try lia.
  - replace (zeta c ^ 3) with ((zeta c * zeta c + zeta c + 1) * (zeta c - 1) + 1) by ring.
    rewrite Zplus_mod, Zmult_mod, E, Z.mul_0_l, Z.mod_0_l, Z.add_0_l, Zmod_mod by lia. apply Z.mod_small. lia.
  - intros q Hq D. assert (q = 3) by (apply prime_div_prime; auto using prime_3). subst q.
    change (3 / 3) with 1. rewrite Z.pow_1_r, Z.mod_small by lia. lia.
Qed.
