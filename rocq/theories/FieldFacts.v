(** Facts about the prime-field model: macro constants, operators, integer
    conversions. *)
From Verif Require Import Base Word Limbs Bytes Field SpecField LimbsFacts.

(** * Modular helpers *)
Lemma modpow_pos_spec : forall e b m, m <> 0 -> modpow_pos b e m = b ^ Zpos e mod m.
Proof.
  induction e as [e IH|e IH|]; intros b m Hm; cbn [modpow_pos].
  - rewrite IH by auto. rewrite <- Zmult_mod, Zmult_mod_idemp_l.
    f_equal. rewrite Pos2Z.inj_xI. rewrite Z.pow_add_r, Z.pow_mul_r, Z.pow_1_r by lia.
    rewrite Z.pow_mul_l || idtac. replace (b ^ 2) with (b * b) by ring.
    rewrite Z.pow_mul_l. reflexivity.
  - rewrite IH by auto. rewrite <- Zmult_mod. f_equal.
    rewrite Pos2Z.inj_xO. rewrite Z.pow_mul_r by lia.
    replace (b ^ 2) with (b * b) by ring. now rewrite Z.pow_mul_l.
  - now rewrite Z.pow_1_r.
Qed.
Lemma modpow_spec : forall b e m, m <> 0 -> 0 <= e -> modpow b e m = b ^ e mod m.
Proof.
  intros b [|e|e] m Hm He; cbn [modpow]; auto; try lia. now apply modpow_pos_spec.
Qed.

Lemma mod_cancel : forall a x y p, rel_prime a p -> 1 < p ->
  (a * x) mod p = (a * y) mod p -> x mod p = y mod p.
Proof.
  intros a x y p Hr Hp H. apply Zmod_eq_iff in H; [|lia]. apply Zmod_eq_iff; [lia|].
  replace (a * x - a * y) with (a * (x - y)) in H by ring.
  apply Gauss with a; auto. now apply rel_prime_sym.
Qed.

Lemma odd_rel_prime_W : forall p n, Z.odd p = true -> rel_prime (W ^ Z.of_nat n) p.
Proof.
  intros p n Hp. apply rel_prime_sym. rewrite W_pow, <- Z.pow_mul_r by lia.
  destruct (Z.eq_dec (64 * Z.of_nat n) 0) as [->|Hn].
  { apply rel_prime_1 || (apply rel_prime_sym, rel_prime_1). }
  apply rel_prime_Zpower_r; [lia|].
  apply rel_prime_sym. apply prime_rel_prime; [apply prime_2|].
  intros [k Hk]. rewrite Hk, Z.odd_mul in Hp. rewrite andb_false_r in Hp. discriminate.
Qed.

(** * Limb decomposition *)
Lemma big_to_limbs_spec : forall n e, 0 <= e < Wn n ->
  length (big_to_limbs e n) = n /\ words (big_to_limbs e n) /\ eval (big_to_limbs e n) = e.
Proof.
  induction n as [|n IH]; intros e He.
  - rewrite Wn_0 in He. cbn. repeat split; try constructor. lia.
  - rewrite Wn_S in He. cbn [big_to_limbs eval length].
    pose proof W_pos.
    assert (E1 : Z.land e (W - 1) = e mod W).
    { change (W - 1) with (Z.ones 64). rewrite Z.land_ones by lia. reflexivity. }
    assert (E2 : Z.shiftr e 64 = e / W) by (rewrite Z.shiftr_div_pow2 by lia; reflexivity).
    rewrite E1, E2.
    destruct (IH (e / W)) as (I1 & I2 & I3).
    { split; [apply Z.div_pos; lia|]. apply Z.div_lt_upper_bound; lia. }
    rewrite I1, I3. repeat split; auto.
    + apply words_cons. split; auto. apply Z.mod_pos_bound; auto.
    + pose proof (Z.div_mod e W). lia.
Qed.

(** * inv64 *)
Lemma inv64_loop_spec : forall i m0 x k, 0 <= k -> x = m0 ^ k mod W ->
  inv64_loop m0 i x = m0 ^ (2 ^ Z.of_nat i * (k + 1) - 1) mod W.
Proof.
  induction i as [|i IH]; intros m0 x k Hk E; cbn [inv64_loop].
  - rewrite E. f_equal. f_equal. lia.
  - rewrite IH with (k := 2 * k + 1); [|lia|].
    + f_equal. f_equal. rewrite Nat2Z.inj_succ, Z.pow_succ_r by lia. lia.
    + unfold wmul. rewrite E, Zmult_mod_idemp_l, <- Zmult_mod_idemp_l, <- Zmult_mod.
      rewrite Zmult_mod_idemp_l. f_equal.
      rewrite Z.pow_add_r, Z.pow_1_r by lia. f_equal.
      replace (2 * k) with (k + k) by lia. now rewrite Z.pow_add_r.
Qed.

Lemma odd_pow2k : forall k m, Z.odd m = true ->
  (2 ^ (Z.of_nat k + 1) | m ^ (2 ^ Z.of_nat k) - 1).
Proof.
  induction k as [|k IH]; intros m Hm.
  - change (2 ^ (Z.of_nat 0 + 1)) with 2. change (2 ^ Z.of_nat 0) with 1. rewrite Z.pow_1_r.
    rewrite Zodd_mod in Hm. apply Zeq_bool_eq in Hm.
    exists (m / 2). pose proof (Z.div_mod m 2). lia.
  - destruct (IH m Hm) as [q Hq]. rewrite Nat2Z.inj_succ.
    replace (2 ^ Z.succ (Z.of_nat k)) with (2 ^ Z.of_nat k + 2 ^ Z.of_nat k)
      by (rewrite Z.pow_succ_r by lia; lia).
    assert (0 <= 2 ^ Z.of_nat k) by (apply Z.pow_nonneg; lia).
    rewrite (Z.pow_add_r m) by lia.
    set (x := m ^ 2 ^ Z.of_nat k) in *.
    replace (2 ^ (Z.succ (Z.of_nat k) + 1)) with (2 * 2 ^ (Z.of_nat k + 1)).
    2:{ rewrite <- Z.pow_succ_r by lia. f_equal; lia. }
    replace (x * x - 1) with ((x - 1) * (x - 1 + 2)) by ring. rewrite Hq.
    assert (H2 : 2 ^ (Z.of_nat k + 1) = 2 * 2 ^ Z.of_nat k).
    { rewrite Z.pow_add_r by lia. lia. }
    exists (q * (q * 2 ^ Z.of_nat k + 1)). rewrite H2. ring.
Qed.

Lemma odd_pow_inv : forall k m0 M, Z.odd m0 = true -> 2 ^ (Z.of_nat k + 1) = M ->
  (m0 * m0 ^ (2 ^ Z.of_nat k * (0 + 1) - 1)) mod M = 1.
Proof.
  intros k m0 M Hm EM.
  assert (0 < 2 ^ Z.of_nat k) by (apply Z.pow_pos_nonneg; lia).
  rewrite <- Z.pow_succ_r by lia.
  replace (Z.succ (2 ^ Z.of_nat k * (0 + 1) - 1)) with (2 ^ Z.of_nat k) by lia.
  destruct (odd_pow2k k m0 Hm) as [q Hq]. rewrite EM in Hq.
  replace (m0 ^ 2 ^ Z.of_nat k) with (1 + q * M) by lia.
  rewrite Z_mod_plus_full. apply Z.mod_small.
  rewrite Z.pow_add_r in EM by lia. lia.
Qed.

Lemma neg_inv_mod : forall m0 y M, 1 < M -> (m0 * y) mod M = 1 ->
  (m0 * ((- (y mod M)) mod M)) mod M = M - 1.
Proof.
  intros m0 y M HM E. rewrite Zmult_mod_idemp_r.
  replace (m0 * - (y mod M)) with (- (m0 * (y mod M))) by ring.
  rewrite <- Zmult_mod_idemp_r in E.
  pose proof (Z.div_mod (m0 * (y mod M)) M ltac:(lia)) as D. rewrite E in D.
  apply Zmod_unique_pos with (- (m0 * (y mod M) / M) - 1); lia.
Qed.

Lemma inv64_core : forall i m0, Z.odd m0 = true -> 2 ^ (Z.of_nat i + 1) = W ->
  (m0 * wneg (inv64_loop m0 i 1)) mod W = W - 1.
Proof.
  intros i m0 Hm Hi. rewrite inv64_loop_spec with (k := 0); [|lia|reflexivity].
  apply neg_inv_mod; [rewrite W_val; lia|]. now apply odd_pow_inv.
Qed.

(** * Well-formed configurations *)
Definition odd_conf (c : fconf) : Prop := 1 < modulus c /\ Z.odd (modulus c) = true.

Section Facts.
Variable c : fconf.
Hypothesis Hc : odd_conf c.

Notation p := (modulus c).
Notation n := (num_limbs c).
Notation Rn := (Wn n).

Lemma p_gt1 : 1 < p. Proof. apply Hc. Qed.
Lemma p_ge3 : 3 <= p.
Proof. destruct Hc as [H1 H2]. destruct (Z.eq_dec p 2) as [E|E]; [rewrite E in H2; discriminate|lia]. Qed.

Lemma num_limbs_pos : (1 <= n)%nat.
Proof.
  unfold num_limbs, num_bits. pose proof p_gt1.
  assert (0 <= Z.log2 p) by apply Z.log2_nonneg.
  assert (0 <= (Z.log2 p + 1 - 1) / 64) by (apply Z.div_pos; lia). lia.
Qed.

Lemma p_lt_R : 0 < p < Rn.
Proof.
  pose proof p_gt1. split; [lia|].
  unfold num_limbs, num_bits.
  pose proof (Z.log2_nonneg p).
  set (L := Z.log2 p) in *.
  assert (HL : p < 2 ^ (L + 1)).
  { pose proof (Z.log2_spec p ltac:(lia)). fold L in H1. rewrite Z.add_1_r. lia. }
  assert (0 <= (L + 1 - 1) / 64) by (apply Z.div_pos; lia).
  rewrite Z2Nat.id by lia.
  rewrite W_pow, <- Z.pow_mul_r by lia.
  apply Z.lt_le_trans with (2 ^ (L + 1)); auto.
  apply Z.pow_le_mono_r; [lia|].
  pose proof (Z.div_mod (L + 1 - 1) 64 ltac:(lia)).
  pose proof (Z.mod_pos_bound (L + 1 - 1) 64 ltac:(lia)). lia.
Qed.

Lemma modulus_limbs_spec :
  length (modulus_limbs c) = n /\ words (modulus_limbs c) /\ eval (modulus_limbs c) = p.
Proof. apply big_to_limbs_spec. pose proof p_lt_R. lia. Qed.

Lemma ml_nonempty : modulus_limbs c <> [].
Proof.
  destruct modulus_limbs_spec as (H & _ & _). pose proof num_limbs_pos.
  intro E. rewrite E in H. cbn in H. lia.
Qed.

Lemma hd_odd : Z.odd (hd 0 (modulus_limbs c)) = true.
Proof.
  destruct modulus_limbs_spec as (H1 & H2 & H3). pose proof ml_nonempty.
  destruct (modulus_limbs c) as [|x l]; [contradiction|]. cbn [hd eval] in *.
  destruct Hc as [_ Ho]. rewrite <- H3, Z.odd_add, Z.odd_mul in Ho.
  change (Z.odd W) with false in Ho. cbn in Ho. now rewrite xorb_false_r in Ho.
Qed.

Lemma inv64_spec : (hd 0 (modulus_limbs c) * inv64 c) mod W = W - 1.
Proof. apply inv64_core; [apply hd_odd|reflexivity]. Qed.

Lemma R_coprime : rel_prime Rn p.
Proof. apply odd_rel_prime_W, Hc. Qed.

Notation canon := (canonical n p).
Notation repr := (represents n p).

(** * The representation relation *)
Lemma canon_bound : forall a, canon a -> 0 <= eval a < p.
Proof. intros a (H1 & H2 & H3). pose proof (eval_bound _ H2). lia. Qed.

Lemma canon_inj : forall a b, canon a -> canon b -> eval a = eval b -> a = b.
Proof. intros a b (A1 & A2 & _) (B1 & B2 & _) E. apply eval_inj; auto; lia. Qed.

Lemma repr_canon : forall a v, repr a v -> canon a.
Proof. now intros a v []. Qed.
Lemma repr_bound : forall a v, repr a v -> 0 <= v < p.
Proof. now intros a v (_ & H & _). Qed.

Lemma repr_unique : forall a v w, repr a v -> repr a w -> v = w.
Proof.
  intros a v w (A1 & A2 & A3) (B1 & B2 & B3).
  apply (Zmod_small_unique v w p); auto.
  apply mod_cancel with Rn; [apply R_coprime|apply p_gt1|].
  rewrite !(Z.mul_comm Rn). congruence.
Qed.

Lemma repr_inj : forall a b v, repr a v -> repr b v -> a = b.
Proof.
  intros a b v (A1 & A2 & A3) (B1 & B2 & B3). apply canon_inj; auto. congruence.
Qed.

Lemma repr_intro : forall a v, canon a -> eval a mod p = (v * Rn) mod p -> repr a (v mod p).
Proof.
  intros a v Ha E. pose proof p_gt1. split; [auto|]. split.
  - apply Z.mod_pos_bound; lia.
  - rewrite Zmult_mod_idemp_l, <- E. symmetry. apply Z.mod_small, canon_bound; auto.
Qed.

Lemma repr_intro_eq : forall a v, canon a -> 0 <= v < p -> eval a mod p = (v * Rn) mod p -> repr a v.
Proof. intros a v Ha Hv E. rewrite <- (Z.mod_small v p) by auto. now apply repr_intro. Qed.

Lemma token_canon : forall e, 0 <= e < p -> canon (to_token c e) /\ eval (to_token c e) = e.
Proof.
  intros e He. unfold to_token. pose proof p_lt_R.
  destruct (big_to_limbs_spec n e) as (A & B & C); [lia|].
  unfold canonical. repeat split; auto; lia.
Qed.

Lemma mont_range : forall v, 0 <= mont c v < p.
Proof. intro v. apply Z.mod_pos_bound. pose proof p_gt1; lia. Qed.

Lemma token_mont_repr : forall v, repr (to_token c (mont c v)) (v mod p).
Proof.
  intro v. destruct (token_canon (mont c v)) as [A B]; [apply mont_range|].
  apply repr_intro; auto. rewrite B. unfold mont, r1.
  rewrite Zmod_mod, Zmult_mod_idemp_r. reflexivity.
Qed.

(** * Operators *)
Lemma fe_add_repr : forall a b x y, repr a x -> repr b y -> repr (fe_add c a b) ((x + y) mod p).
Proof.
  intros a b x y Ha Hb. destruct modulus_limbs_spec as (M1 & M2 & M3).
  destruct (limbs_add_spec (modulus_limbs c) a b) as [Q1 Q2]; auto.
  { rewrite M1, M3. apply Ha. } { rewrite M1, M3. apply Hb. }
  rewrite M1, M3 in *. apply repr_intro; auto. unfold fe_add. rewrite Q2, Zmod_mod.
  destruct Ha as (_ & _ & ->). destruct Hb as (_ & _ & ->).
  rewrite <- Zplus_mod. f_equal. ring.
Qed.

Lemma fe_sub_repr : forall a b x y, repr a x -> repr b y -> repr (fe_sub c a b) ((x - y) mod p).
Proof.
  intros a b x y Ha Hb. destruct modulus_limbs_spec as (M1 & M2 & M3).
  destruct (limbs_sub_spec (modulus_limbs c) a b) as [Q1 Q2]; auto.
  { rewrite M1, M3. apply Ha. } { rewrite M1, M3. apply Hb. }
  rewrite M1, M3 in *. apply repr_intro; auto. unfold fe_sub. rewrite Q2, Zmod_mod.
  destruct Ha as (_ & _ & ->). destruct Hb as (_ & _ & ->).
  rewrite <- Zminus_mod. f_equal. ring.
Qed.

Lemma fe_neg_repr : forall a x, repr a x -> repr (fe_neg c a) ((- x) mod p).
Proof.
  intros a x Ha. destruct modulus_limbs_spec as (M1 & M2 & M3). pose proof p_gt1.
  destruct (limbs_neg_spec (modulus_limbs c) a) as [Q1 Q2]; auto; try lia.
  { rewrite M1, M3. apply Ha. }
  rewrite M1, M3 in *. apply repr_intro; auto. unfold fe_neg. rewrite Q2, Zmod_mod.
  destruct Ha as (_ & _ & ->).
  replace (- x * Rn) with (0 - x * Rn) by ring.
  replace (- ((x * Rn) mod p)) with (0 - ((x * Rn) mod p)) by ring.
  now rewrite Zminus_mod_idemp_r.
Qed.

Lemma fe_double_repr : forall a x, repr a x -> repr (fe_double c a) ((2 * x) mod p).
Proof.
  intros a x Ha. replace (2 * x) with (x + x) by ring. now apply fe_add_repr.
Qed.

(** Multiplication also works when the first factor is not reduced. *)
Lemma fe_mul_wide : forall a b, length a = n -> words a -> length b = n -> words b ->
  eval a * eval b < p * Rn ->
  canon (fe_mul c a b) /\ (Rn * eval (fe_mul c a b)) mod p = (eval a * eval b) mod p.
Proof.
  intros a b La Wa Lb Wb Hlt. destruct modulus_limbs_spec as (M1 & M2 & M3).
  destruct (mul_wide_spec a b) as (P1 & P2 & P3); auto.
  { intro E. rewrite E in Lb. cbn in Lb. pose proof num_limbs_pos. lia. }
  destruct (montgomery_reduce_spec (modulus_limbs c) (inv64 c) (mul_wide a b)) as [Q1 Q2]; auto.
  - apply ml_nonempty.
  - apply inv64_spec.
  - lia.
  - rewrite P1, M1, M3. lia.
  - rewrite M1, M3, P1 in *. split; auto.
Qed.

Lemma fe_mul_repr : forall a b x y, repr a x -> repr b y -> repr (fe_mul c a b) ((x * y) mod p).
Proof.
  intros a b x y Ha Hb.
  pose proof (canon_bound a (repr_canon _ _ Ha)). pose proof (canon_bound b (repr_canon _ _ Hb)).
  destruct Ha as ((A1 & A2 & A3) & A4 & A5). destruct Hb as ((B1 & B2 & B3) & B4 & B5).
  pose proof p_lt_R.
  destruct (fe_mul_wide a b) as [Q1 Q2]; auto; [nia|].
  apply repr_intro; auto.
  apply mod_cancel with Rn; [apply R_coprime|apply p_gt1|].
  rewrite Q2, A5, B5, <- Zmult_mod. f_equal. ring.
Qed.

Lemma fe_square_repr : forall a x, repr a x -> repr (fe_square c a) ((x * x) mod p).
Proof.
  intros a x Ha. pose proof (canon_bound a (repr_canon _ _ Ha)).
  destruct Ha as ((A1 & A2 & A3) & A4 & A5).
  destruct modulus_limbs_spec as (M1 & M2 & M3). pose proof p_lt_R.
  destruct (square_wide_spec a) as (P1 & P2 & P3); auto.
  { intro E. rewrite E in A1. cbn in A1. pose proof num_limbs_pos. lia. }
  destruct (montgomery_reduce_spec (modulus_limbs c) (inv64 c) (square_wide a)) as [Q1 Q2]; auto.
  - apply ml_nonempty.
  - apply inv64_spec.
  - lia.
  - rewrite P1, M1, M3. nia.
  - rewrite M1, M3, P1 in *. apply repr_intro; auto.
    apply mod_cancel with Rn; [apply R_coprime|apply p_gt1|].
    unfold fe_square, limbs_square. rewrite Q2, A5, <- Zmult_mod. f_equal. ring.
Qed.

Lemma fe_from_mont_spec : forall a v, repr a v ->
  length (fe_from_mont c a) = n /\ words (fe_from_mont c a) /\ eval (fe_from_mont c a) = v.
Proof.
  intros a v Ha. destruct modulus_limbs_spec as (M1 & M2 & M3). pose proof p_gt1.
  destruct Ha as ((A1 & A2 & A3) & A4 & A5).
  destruct (from_mont_spec (modulus_limbs c) (inv64 c) a) as [Q1 Q2]; auto; try lia.
  - apply ml_nonempty.
  - apply inv64_spec.
  - rewrite M1, M3 in *. unfold fe_from_mont.
    pose proof (canon_bound _ Q1). destruct Q1 as (R1 & R2 & R3).
    repeat split; auto.
    apply (Zmod_small_unique _ v p); auto.
    apply mod_cancel with Rn; [apply R_coprime|apply p_gt1|].
    rewrite Q2, A5, Zmod_mod. f_equal. ring.
Qed.

Lemma canon_repr : forall a, canon a -> exists v, repr a v.
Proof.
  intros a Ha. destruct modulus_limbs_spec as (M1 & M2 & M3). pose proof p_gt1.
  destruct Ha as (A1 & A2 & A3).
  destruct (from_mont_spec (modulus_limbs c) (inv64 c) a) as [Q1 Q2]; auto; try lia.
  - apply ml_nonempty.
  - apply inv64_spec.
  - rewrite M1, M3 in *. exists (eval (from_mont (modulus_limbs c) (inv64 c) a)).
    pose proof (canon_bound _ Q1).
    apply repr_intro_eq; auto. { repeat split; auto. }
    rewrite Z.mul_comm. auto.
Qed.

(** * Constants *)
Lemma fe_zero_repr : repr (fe_zero c) 0.
Proof.
  pose proof p_gt1. unfold fe_zero. apply repr_intro_eq; [|lia|].
  - split; [apply repeat_length|]. split; [apply words_repeat0|]. rewrite eval_repeat0. lia.
  - rewrite eval_repeat0. reflexivity.
Qed.

Lemma r1_range : 0 <= r1 c < p. Proof. apply Z.mod_pos_bound; pose proof p_gt1; lia. Qed.
Lemma r2_range : 0 <= r2 c < p. Proof. apply Z.mod_pos_bound; pose proof p_gt1; lia. Qed.
Lemma r3_range : 0 <= r3 c < p. Proof. apply Z.mod_pos_bound; pose proof p_gt1; lia. Qed.

Lemma fe_one_repr : repr (fe_one c) 1.
Proof.
  pose proof p_gt1. destruct (token_canon (r1 c) r1_range) as [A B].
  apply repr_intro_eq; [exact A|lia|]. unfold fe_one, R. rewrite B. unfold r1.
  rewrite Zmod_mod, Z.mul_1_l. reflexivity.
Qed.

Lemma r2_eq : r2 c = (Rn * Rn) mod p.
Proof. unfold r2, r1. now rewrite <- Zmult_mod. Qed.
Lemma r3_eq : r3 c = (Rn * Rn * Rn) mod p.
Proof.
  unfold r3, r1. rewrite (Zmult_mod (Rn * Rn) Rn p).
  rewrite (Zmult_mod Rn Rn p). rewrite <- (Zmult_mod_idemp_l (_ * _)). reflexivity.
Qed.

Lemma R2_canon : canon (R2 c). Proof. apply token_canon, r2_range. Qed.
Lemma R3_canon : canon (R3 c). Proof. apply token_canon, r3_range. Qed.

(** * Conversions from unreduced limbs *)
Lemma mul_R2_repr : forall a, length a = n -> words a -> repr (fe_mul c a (R2 c)) (eval a mod p).
Proof.
  intros a La Wa. destruct (token_canon (r2 c) r2_range) as [A B].
  pose proof (eval_bound _ Wa). rewrite La in H.
  pose proof r2_range. pose proof p_lt_R.
  destruct (fe_mul_wide a (R2 c)) as [Q1 Q2]; auto.
  { apply A. } { apply A. } { unfold R2. rewrite B. nia. }
  apply repr_intro; auto.
  apply mod_cancel with Rn; [apply R_coprime|apply p_gt1|].
  rewrite Q2. unfold R2. rewrite B, r2_eq, Zmult_mod_idemp_r. f_equal. ring.
Qed.

Lemma R2_mul_repr : forall a, length a = n -> words a -> repr (fe_mul c (R2 c) a) (eval a mod p).
Proof.
  intros a La Wa. destruct (token_canon (r2 c) r2_range) as [A B].
  pose proof (eval_bound _ Wa). rewrite La in H.
  pose proof r2_range. pose proof p_lt_R.
  destruct (fe_mul_wide (R2 c) a) as [Q1 Q2]; auto.
  { apply A. } { apply A. } { unfold R2. rewrite B. nia. }
  apply repr_intro; auto.
  apply mod_cancel with Rn; [apply R_coprime|apply p_gt1|].
  rewrite Q2. unfold R2. rewrite B, r2_eq, Zmult_mod_idemp_l. f_equal. ring.
Qed.

Lemma mul_R3_repr : forall a, length a = n -> words a ->
  repr (fe_mul c a (R3 c)) ((eval a * Rn) mod p).
Proof.
  intros a La Wa. destruct (token_canon (r3 c) r3_range) as [A B].
  pose proof (eval_bound _ Wa). rewrite La in H.
  pose proof r3_range. pose proof p_lt_R.
  destruct (fe_mul_wide a (R3 c)) as [Q1 Q2]; auto.
  { apply A. } { apply A. } { unfold R3. rewrite B. nia. }
  apply repr_intro; auto.
  apply mod_cancel with Rn; [apply R_coprime|apply p_gt1|].
  rewrite Q2. unfold R3. rewrite B, r3_eq, Zmult_mod_idemp_r. f_equal. ring.
Qed.

Lemma words_firstn : forall k l, words l -> words (firstn k l).
Proof. intros k l H. unfold words in *. apply Forall_forall. intros x Hx.
  rewrite Forall_forall in H. apply H. rewrite <- (firstn_skipn k l). apply in_or_app; auto. Qed.

Lemma from_u64_repr : forall v, 0 <= v < W -> repr (from_u64 c v) (v mod p).
Proof.
  intros v Hv. unfold from_u64. pose proof num_limbs_pos.
  set (l := firstn n (v :: repeat 0 n)).
  assert (El : l = v :: repeat 0 (n - 1)).
  { unfold l. replace n with (S (n - 1)) at 1 by lia. cbn [firstn]. f_equal.
    replace n with ((n - 1) + 1)%nat at 2 by lia. rewrite repeat_app.
    rewrite firstn_app, repeat_length, Nat.sub_diag. cbn [firstn]. rewrite app_nil_r.
    apply firstn_all2. rewrite repeat_length. lia. }
  assert (E : eval l = v). { rewrite El. cbn [eval]. rewrite eval_repeat0. lia. }
  rewrite <- E. apply mul_R2_repr.
  - rewrite El. cbn [length]. rewrite repeat_length. lia.
  - rewrite El. apply words_cons. split; [auto|apply words_repeat0].
Qed.

Lemma from_bool_repr : forall b, repr (from_bool c b) (if b then 1 else 0).
Proof.
  intro b. pose proof p_gt1. assert (1 < W) by (rewrite W_val; lia).
  replace (if b then 1 else 0) with ((if b then 1 else 0) mod p) by (destruct b; apply Z.mod_small; lia).
  apply (from_u64_repr (if b then 1 else 0)). destruct b; lia.
Qed.

(** [from_u128] keeps both words only if there are two limbs. *)
Lemma from_u128_repr : forall v, (2 <= n)%nat -> 0 <= v < W * W -> repr (from_u128 c v) (v mod p).
Proof.
  intros v Hn Hv. unfold from_u128. pose proof W_pos.
  rewrite Z.shiftr_div_pow2 by lia. change (2 ^ 64) with W.
  assert (0 <= v / W < W).
  { split; [apply Z.div_pos; lia|apply Z.div_lt_upper_bound; lia]. }
  pose proof (Z.mod_pos_bound v W W_pos).
  set (l := firstn n (v mod W :: v / W :: repeat 0 n)).
  assert (El : l = v mod W :: v / W :: repeat 0 (n - 2)).
  { unfold l. replace n with (S (S (n - 2))) at 1 by lia. cbn [firstn]. do 2 f_equal.
    replace n with ((n - 2) + 2)%nat at 2 by lia. rewrite repeat_app.
    rewrite firstn_app, repeat_length, Nat.sub_diag. cbn [firstn]. rewrite app_nil_r.
    apply firstn_all2. rewrite repeat_length. lia. }
  assert (eval l = v) as E.
  { rewrite El. cbn [eval]. rewrite eval_repeat0. pose proof (Z.div_mod v W). lia. }
  rewrite <- E. apply R2_mul_repr.
  - rewrite El. cbn [length]. rewrite repeat_length. lia.
  - rewrite El. apply words_cons. split; auto. apply words_cons. split; auto. apply words_repeat0.
Qed.

(** * Comparison with a limb constant *)
Lemma sbb_fold : forall l m b, snd (sbb_list l m b) =
  fold_left (fun borrow lm => snd (sbb (fst lm) (snd lm) borrow)) (combine l m) b.
Proof.
  induction l as [|x l IH]; intros [|y m] b; cbn [sbb_list combine fold_left]; auto.
  cbn [fst snd]. destruct (sbb x y b) as [d b1]. cbn [snd].
  rewrite <- IH. destruct (sbb_list l m b1). reflexivity.
Qed.

Lemma borrow_lt : forall l m, length l = length m -> words l -> words m ->
  (Z.land (fold_left (fun borrow lm => snd (sbb (fst lm) (snd lm) borrow)) (combine l m) 0 mod 256) 1 =? 1)
  = (eval l <? eval m).
Proof.
  intros l m HL Hl Hm. rewrite <- sbb_fold. destruct (sbb_list l m 0) as [d b] eqn:E. cbn [snd].
  apply sbb_list_spec with (vc := 0) in E; auto; [|left; auto].
  destruct E as (v & B & Q1 & Q2 & Q3).
  pose proof (eval_bound _ Q2). pose proof (eval_bound _ Hl). pose proof (eval_bound _ Hm).
  rewrite Q3 in H. rewrite <- HL in H1.
  destruct B as [[-> ->]|[-> ->]].
  - change (Z.land (0 mod 256) 1 =? 1) with false. symmetry. apply Z.ltb_ge. lia.
  - change (Z.land ((W - 1) mod 256) 1 =? 1) with true. symmetry. apply Z.ltb_lt. lia.
Qed.

Lemma is_less_than_modulus_spec : forall l, length l = n -> words l ->
  is_less_than_modulus c l = (eval l <? p).
Proof.
  intros l Hl Wl. destruct modulus_limbs_spec as (M1 & M2 & M3).
  unfold is_less_than_modulus. rewrite borrow_lt; auto; [|lia]. now rewrite M3.
Qed.

Lemma half_spec : p = 2 * (Z.shiftr (p - 1) 1) + 1.
Proof.
  rewrite Z.shiftr_div_pow2 by lia. change (2 ^ 1) with 2.
  destruct Hc as [_ Ho]. rewrite Zodd_mod in Ho. apply Zeq_bool_eq in Ho.
  pose proof (Z.div_mod p 2). pose proof (Z.div_mod (p - 1) 2).
  pose proof (Z.mod_pos_bound (p - 1) 2). lia.
Qed.

Lemma lexicographically_largest_spec : forall a v, repr a v ->
  lexicographically_largest c a = ((p - 1) / 2 <=? v).
Proof.
  intros a v Ha. unfold lexicographically_largest.
  destruct (fe_from_mont_spec a v Ha) as (F1 & F2 & F3).
  pose proof half_spec. pose proof p_lt_R. pose proof p_ge3.
  destruct (big_to_limbs_spec n (Z.shiftr (p - 1) 1)) as (H1' & H2' & H3'); [lia|].
  unfold half_modulus. rewrite borrow_lt; auto; [|lia].
  rewrite F3, H3'. rewrite Z.shiftr_div_pow2 in * by lia. change (2 ^ 1) with 2 in *.
  destruct (Z.ltb_spec v ((p - 1) / 2)); destruct (Z.leb_spec ((p - 1) / 2) v); cbn; auto; lia.
Qed.

Lemma fe_eqb_spec : forall a b, length a = n -> length b = n -> (fe_eqb a b = true <-> a = b).
Proof.
  intros a b La Lb. rewrite <- Lb in La. clear Lb. unfold fe_eqb.
  revert b La. induction a as [|x a IH]; intros [|y b] La; try discriminate; cbn; [intuition|].
  rewrite andb_true_iff, IH by (cbn in La; lia). rewrite Z.eqb_eq. split; [intros [-> ->]; auto|].
  injection 1; auto.
Qed.


Lemma fe_eqb_repr : forall a b x y, repr a x -> repr b y -> (fe_eqb a b = true <-> x = y).
Proof.
  intros a b x y Ha Hb. rewrite fe_eqb_spec.
  - split; intro E.
    + subst b. apply repr_unique with a; auto.
    + subst y. apply repr_inj with x; auto.
  - apply Ha.
  - apply Hb.
Qed.

Lemma fe_square_is_mul : forall a, canon a -> fe_square c a = fe_mul c a a.
Proof.
  intros a Ha. destruct (canon_repr a Ha) as [v Hv].
  apply repr_inj with ((v * v) mod p); [now apply fe_square_repr|now apply fe_mul_repr].
Qed.

Lemma fe_sum_repr : forall l xs, Forall2 repr l xs ->
  repr (fe_sum c l) (fold_right Z.add 0 xs mod p).
Proof.
  assert (G : forall l xs, Forall2 repr l xs -> forall a v, repr a v ->
    repr (fold_left (fe_add c) l a) ((v + fold_right Z.add 0 xs) mod p)).
  { induction 1 as [|b y l xs Hb Hl IH]; intros a v Ha; cbn [fold_left fold_right].
    - rewrite Z.add_0_r, Z.mod_small by (apply (repr_bound _ _ Ha)). auto.
    - replace ((v + (y + fold_right Z.add 0 xs)) mod p)
        with (((v + y) mod p + fold_right Z.add 0 xs) mod p).
      + apply IH. now apply fe_add_repr.
      + rewrite Zplus_mod_idemp_l. f_equal. ring. }
  intros l xs H. apply (G l xs H (fe_zero c) 0). apply fe_zero_repr.
Qed.

Lemma fe_product_repr : forall l xs, Forall2 repr l xs ->
  repr (fe_product c l) (fold_right Z.mul 1 xs mod p).
Proof.
  assert (G : forall l xs, Forall2 repr l xs -> forall a v, repr a v ->
    repr (fold_left (fe_mul c) l a) ((v * fold_right Z.mul 1 xs) mod p)).
  { induction 1 as [|b y l xs Hb Hl IH]; intros a v Ha; cbn [fold_left fold_right].
    - rewrite Z.mul_1_r, Z.mod_small by (apply (repr_bound _ _ Ha)). auto.
    - replace ((v * (y * fold_right Z.mul 1 xs)) mod p)
        with (((v * y) mod p * fold_right Z.mul 1 xs) mod p).
      + apply IH. now apply fe_mul_repr.
      + rewrite Zmult_mod_idemp_l. f_equal. ring. }
  intros l xs H. rewrite <- (Z.mul_1_l (fold_right _ _ _)).
  apply (G l xs H (fe_one c) 1). apply fe_one_repr.
Qed.

Lemma neg_mod : forall x, 0 < x < p -> (- x) mod p = p - x.
Proof. intros x Hx. apply Zmod_unique_pos with (-1); lia. Qed.

Lemma lex_largest_partial : forall a x, repr a x -> x <> (p - 1) / 2 ->
  (lexicographically_largest c a = true <-> (- x) mod p < x).
Proof.
  intros a x Ha Hx. rewrite (lexicographically_largest_spec a x Ha).
  pose proof (repr_bound _ _ Ha). pose proof half_spec as Hh. pose proof p_ge3.
  rewrite Z.shiftr_div_pow2 in Hh by lia. change (2 ^ 1) with 2 in Hh.
  rewrite Z.leb_le. destruct (Z.eq_dec x 0) as [->|Hx0].
  - rewrite Z.mod_0_l by lia. lia.
  - rewrite neg_mod by lia. lia.
Qed.
End Facts.

Lemma represents_onto_lemma : forall c x, odd_conf c -> 0 <= x < modulus c ->
  exists! a, represents (num_limbs c) (modulus c) a x.
Proof.
  intros c x Hc Hx. exists (to_token c (mont c x)).
  assert (H : represents (num_limbs c) (modulus c) (to_token c (mont c x)) x).
  { rewrite <- (Z.mod_small x (modulus c)) at 2 by auto. now apply token_mont_repr. }
  split; auto. intros b Hb. apply (repr_inj c) with (v := x); auto.
Qed.

Lemma lex_largest_refuted : forall c, odd_conf c -> exists a x,
  represents (num_limbs c) (modulus c) a x /\
  lexicographically_largest c a = true /\
  lexicographically_largest c (fe_neg c a) = true /\
  ~ (- x) mod modulus c < x.
Proof.
  intros c Hc. pose proof (p_ge3 c Hc). pose proof (half_spec c Hc) as Hh.
  rewrite Z.shiftr_div_pow2 in Hh by lia. change (2 ^ 1) with 2 in Hh.
  set (x := (modulus c - 1) / 2) in *.
  destruct (represents_onto_lemma c x Hc ltac:(lia)) as (a & Ha & _).
  exists a, x. split; auto.
  rewrite (lexicographically_largest_spec c Hc a x Ha).
  rewrite (lexicographically_largest_spec c Hc _ _ (fe_neg_repr c Hc a x Ha)).
  fold x. rewrite (neg_mod c) by lia. rewrite !Z.leb_le. lia.
Qed.

