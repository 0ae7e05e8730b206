(** Facts about [mul_512] and the scalar decomposition of [endo!]. *)
From Verif Require Import Base Word Limbs LimbsFacts Bytes BytesFacts Field SpecField Params FieldFacts FieldSerdeFacts.
From Verif Require Import Endo.

(** * mul_512 *)
Definition val4 (a : arr4) : Z := let '(a0, a1, a2, a3) := a in eval [a0; a1; a2; a3].
Definition words4 (a : arr4) : Prop := let '(a0, a1, a2, a3) := a in words [a0; a1; a2; a3].

Lemma mac_eq : forall a b c d r q, mac a b c d = (r, q) ->
  0 <= a < W -> 0 <= b < W -> 0 <= c < W -> 0 <= d < W ->
  r + W * q = a + b * c + d /\ 0 <= r < W /\ 0 <= q < W.
Proof.
  unfold mac; intros a b c d r q E Ha Hb Hc Hd. injection E as <- <-.
  pose proof W_pos. pose proof (Z.div_mod (a + b * c + d) W ltac:(lia)) as D.
  pose proof (Z.mod_pos_bound (a + b * c + d) W ltac:(lia)).
  assert (0 <= a + b * c + d < W * W) by nia.
  split; [lia|]. split; [lia|]. split.
  - apply Z.div_pos; lia.
  - apply Z.div_lt_upper_bound; lia.
Qed.
Lemma macx_eq : forall a b c r q, macx a b c = (r, q) ->
  0 <= a < W -> 0 <= b < W -> 0 <= c < W ->
  r + W * q = a + b * c /\ 0 <= r < W /\ 0 <= q < W.
Proof.
  unfold macx; intros a b c r q E Ha Hb Hc.
  pose proof W_pos.
  assert (E' : mac a b c 0 = (r, q)) by (unfold mac; rewrite Z.add_0_r; exact E).
  apply mac_eq in E'; try lia.
Qed.

Lemma words4_iff : forall a b c d, words [a; b; c; d] <->
  0 <= a < W /\ 0 <= b < W /\ 0 <= c < W /\ 0 <= d < W.
Proof.
  intros. rewrite !words_cons. split; [tauto|]. intros (?&?&?&?). repeat split; try tauto. constructor.
Qed.

Lemma val4_bound : forall a, words4 a -> 0 <= val4 a < W * W * W * W.
Proof.
  intros [[[a0 a1] a2] a3] H. unfold words4 in H. rewrite words4_iff in H. unfold val4. cbn [eval].
  rewrite W_val in *. lia.
Qed.

Theorem mul_512_spec : forall a b, words4 a -> words4 b ->
  let '(lo, hi) := mul_512 a b in
  words4 lo /\ words4 hi /\ val4 lo + W * W * W * W * val4 hi = val4 a * val4 b.
Proof.
  intros [[[a0 a1] a2] a3] [[[b0 b1] b2] b3] Ha Hb.
  unfold words4 in Ha, Hb. rewrite words4_iff in Ha, Hb.
  destruct Ha as (A0 & A1 & A2 & A3). destruct Hb as (B0 & B1 & B2 & B3).
  unfold mul_512. pose proof W_pos.
  repeat match goal with
  | |- context [let '(_, _) := macx ?x ?y ?z in _] =>
      let r := fresh "r" in let q := fresh "q" in let E := fresh "E" in
      destruct (macx x y z) as [r q] eqn:E; apply macx_eq in E; [|lia|lia|lia]; destruct E as (E & ? & ?)
  | |- context [let '(_, _) := mac ?x ?y ?z ?w in _] =>
      let r := fresh "r" in let q := fresh "q" in let E := fresh "E" in
      destruct (mac x y z w) as [r q] eqn:E; apply mac_eq in E; [|lia|lia|lia|lia]; destruct E as (E & ? & ?)
  end.
  unfold words4, val4. rewrite !words4_iff. split; [tauto|]. split; [tauto|].
  cbn [eval]. rewrite W_val in *. lia.
Qed.

Lemma lattice_id : forall p z k c1 c2 b1 b2 A1 A2, p <> 0 ->
  (z * b1 - A1) mod p = 0 -> (z * b2 - A2) mod p = 0 ->
  (k + (c2 * b2 - c1 * b1) * z) mod p = (k + c2 * A2 - c1 * A1) mod p /\
  (k + c2 * A2 - c1 * A1 - z * (c2 * b2 - c1 * b1)) mod p = k mod p.
Proof.
  intros p z k c1 c2 b1 b2 A1 A2 Hp H1 H2.
  apply Z.mod_divide in H1; [|exact Hp]. apply Z.mod_divide in H2; [|exact Hp].
  destruct H1 as [z1 H1]. destruct H2 as [z2 H2].
  replace A1 with (z * b1 - z1 * p) by lia. replace A2 with (z * b2 - z2 * p) by lia. split.
  - replace (k + c2 * (z * b2 - z2 * p) - c1 * (z * b1 - z1 * p))
      with (k + (c2 * b2 - c1 * b1) * z + (c1 * z1 - c2 * z2) * p) by ring.
    now rewrite Z_mod_plus_full.
  - replace (k + c2 * (z * b2 - z2 * p) - c1 * (z * b1 - z1 * p) - z * (c2 * b2 - c1 * b1))
      with (k + (c1 * z1 - c2 * z2) * p) by ring.
    now rewrite Z_mod_plus_full.
Qed.

(** * Reading a scalar *)
Section Read.
Variable c : fconf.
Hypothesis Hc : odd_conf c.
Hypothesis Hn : num_limbs c = 4%nat.
Notation p := (modulus c).
Notation repr := (represents (num_limbs c) (modulus c)).

Lemma to_limbs4_spec : forall a v, repr a v -> words4 (to_limbs4 c a) /\ val4 (to_limbs4 c a) = v.
Proof.
  intros a v Ha. destruct (to_repr_spec c Hc a v Ha) as (T1 & T2 & T3).
  unfold size in T1. rewrite Hn in T1.
  destruct (endian_from_bytes_spec false 4 (to_repr c a) T2 T1) as (E1 & E2 & E3 & E4).
  cbn [endian_from_bytes map seq] in E1, E2, E3. cbn [bytes_int] in E3.
  unfold to_limbs4, words4, val4. split; [exact E2|]. now rewrite E3.
Qed.

Lemma is_neg_spec : forall a v, repr a v -> endo_is_neg c a = (W * W * W <=? v).
Proof.
  intros a v Ha. destruct (to_limbs4_spec a v Ha) as (L1 & L2). unfold endo_is_neg.
  destruct (to_limbs4 c a) as [[[e0 e1] e2] e3]. unfold words4, val4 in L1, L2.
  rewrite words4_iff in L1. destruct L1 as (A0 & A1 & A2 & A3). cbn [eval] in L2.
  assert (HF : 0 <= 0xffffffffffffffff < W) by (rewrite W_val; lia). pose proof W_pos.
  destruct (sbb 0xffffffffffffffff e0 0) as [d0 c0] eqn:E0.
  apply sbb_spec with (vc := 0) in E0; [|lia|lia|left; auto]. destruct E0 as (v0 & I0 & Q0 & R0).
  destruct (sbb 0xffffffffffffffff e1 c0) as [d1 c1] eqn:E1.
  apply sbb_spec with (vc := v0) in E1; [|lia|lia|auto]. destruct E1 as (v1 & I1 & Q1 & R1).
  destruct (sbb 0xffffffffffffffff e2 c1) as [d2 c2] eqn:E2.
  apply sbb_spec with (vc := v1) in E2; [|lia|lia|auto]. destruct E2 as (v2 & I2 & Q2 & R2).
  destruct (sbb 0 e3 c2) as [d3 c3] eqn:E3.
  apply sbb_spec with (vc := v2) in E3; [|lia|lia|auto]. destruct E3 as (v3 & I3 & Q3 & R3).
  clear I0 I1 I2. rewrite W_val in *. destruct I3 as [[-> ->] | [-> ->]].
  - change (negb (Z.land 0 1 =? 0)) with false. symmetry. apply Z.leb_gt. lia.
  - change (negb (Z.land (18446744073709551616 - 1) 1 =? 0)) with true. symmetry. apply Z.leb_le. lia.
Qed.

Lemma lower_spec : forall a v, repr a v -> get_lower_128 c a = v mod (W * W).
Proof.
  intros a v Ha. destruct (to_limbs4_spec a v Ha) as (L1 & L2). unfold get_lower_128.
  destruct (to_limbs4 c a) as [[[e0 e1] e2] e3]. unfold words4, val4 in L1, L2.
  rewrite words4_iff in L1. destruct L1 as (A0 & A1 & A2 & A3). cbn [eval] in L2.
  pose proof W_pos.
  assert (D : Z.lor e0 (Z.shiftl e1 64) = e0 + W * e1).
  { replace (W * e1) with (Z.shiftl e1 64).
    2:{ rewrite Z.shiftl_mul_pow2 by lia. change (2 ^ 64) with 18446744073709551616. rewrite <- W_val. ring. }
    assert (L : Z.land e0 (Z.shiftl e1 64) = 0).
    { apply Z.bits_inj'. intros i Hi. rewrite Z.land_spec, Z.bits_0, Z.shiftl_spec by lia.
      destruct (Z.lt_ge_cases i 64) as [C|C].
      - rewrite (Z.testbit_neg_r e1) by lia. apply andb_false_r.
      - rewrite <- (Z.mod_small e0 (2 ^ 64)) by (rewrite W_val in A0; exact A0).
        rewrite Z.mod_pow2_bits_high by lia. reflexivity. }
    rewrite <- (Z.lxor_lor _ _ L). symmetry. apply Z.add_nocarry_lxor. exact L. }
  rewrite D. apply Z.mod_unique_pos with (e2 + W * e3); nia.
Qed.

(** A scalar congruent to a small signed integer is read back exactly. *)
Lemma signed_read : forall a K, repr a (K mod p) -> - (W * W) < K < W * W -> 2 * (W * W * W) < p ->
  endo_is_neg c a = (K <? 0) /\
  get_lower_128 c (if endo_is_neg c a then fe_neg c a else a) = Z.abs K.
Proof.
  intros a K Ha HK Hp. assert (W * W < W * W * W) by (rewrite W_val; lia).
  assert (E : K mod p = if K <? 0 then p + K else K).
  { destruct (Z.ltb_spec K 0).
    - symmetry. apply Z.mod_unique_pos with (-1); lia.
    - apply Z.mod_small. lia. }
  assert (N : endo_is_neg c a = (K <? 0)).
  { rewrite (is_neg_spec _ _ Ha), E. destruct (Z.ltb_spec K 0).
    - apply Z.leb_le. lia.
    - apply Z.leb_gt. lia. }
  split; [exact N|]. rewrite N. destruct (Z.ltb_spec K 0) as [L|L].
  - pose proof (fe_neg_repr c Hc a _ Ha) as Hb. rewrite (lower_spec _ _ Hb), E.
    replace ((- (p + K)) mod p) with (- K).
    2:{ apply Z.mod_unique_pos with (-1); lia. }
    rewrite Z.mod_small by lia. lia.
  - rewrite (lower_spec _ _ Ha), E, Z.mod_small by lia. lia.
Qed.

(** * The lattice argument
    [A1], [A2] are the short residues of [zeta*b1], [zeta*b2]; the rounding
    errors [E1], [E2] of the two divisions by 2^256 contribute linearly. *)
Definition lattice_ok (q : endo_params) (A1 A2 : Z) : Prop :=
  (zeta c * val4 (eb1 q) - A1) mod p = 0 /\ (zeta c * val4 (eb2 q) - A2) mod p = 0 /\
  forall k c1 c2, 0 <= k < p ->
    0 <= val4 (gamma2 q) * k - W * W * W * W * c1 < W * W * W * W ->
    0 <= val4 (gamma1 q) * k - W * W * W * W * c2 < W * W * W * W ->
    0 <= c1 * val4 (eb1 q) < W * W * W * W /\ 0 <= c2 * val4 (eb2 q) < W * W * W * W /\
    - (W * W) < c2 * val4 (eb2 q) - c1 * val4 (eb1 q) < W * W /\
    - (W * W) < k + c2 * A2 - c1 * A1 < W * W.
Definition params_words (q : endo_params) : Prop :=
  words4 (gamma1 q) /\ words4 (gamma2 q) /\ words4 (eb1 q) /\ words4 (eb2 q).

Lemma lo4_spec : forall x, words4 (fst x) -> length (lo4 x) = 4%nat /\ words (lo4 x) /\ eval (lo4 x) = val4 (fst x).
Proof. intros [[[[a0 a1] a2] a3] hi] H. auto. Qed.

(** The high half of the product with a scalar is the quotient by 2^256, and the
    low half of the second product is the whole product. *)
Lemma high_half : forall g k, words4 g -> words4 k ->
  words4 (snd (mul_512 g k)) /\
  0 <= val4 g * val4 k - W * W * W * W * val4 (snd (mul_512 g k)) < W * W * W * W.
Proof.
  intros g k Hg Hk. pose proof (mul_512_spec g k Hg Hk) as M.
  destruct (mul_512 g k) as [lo hi]. destruct M as (M1 & M2 & M3). cbn [snd]. split; [exact M2|].
  pose proof (val4_bound _ M1). lia.
Qed.
Lemma low_half : forall g k, words4 g -> words4 k -> 0 <= val4 g * val4 k < W * W * W * W ->
  length (lo4 (mul_512 g k)) = num_limbs c /\ words (lo4 (mul_512 g k)) /\ eval (lo4 (mul_512 g k)) = val4 g * val4 k.
Proof.
  intros g k Hg Hk B. pose proof (mul_512_spec g k Hg Hk) as M.
  destruct (mul_512 g k) as [lo hi]. destruct M as (M1 & M2 & M3).
  destruct (lo4_spec (lo, hi) M1) as (L1 & L2 & L3). rewrite Hn. split; [exact L1|]. split; [exact L2|].
  rewrite L3. cbn [fst].
  pose proof (val4_bound _ M1). pose proof (val4_bound _ M2).
  revert M3 B H H0. generalize (val4 g * val4 k) (val4 lo) (val4 hi). rewrite W_val. intros. lia.
Qed.

Theorem decompose_spec : forall q A1 A2, params_words q -> lattice_ok q A1 A2 -> 2 * (W * W * W) < p ->
  forall a k, repr a k -> exists k1 k2,
  decompose_scalar c q a = (Z.abs k1, k1 <? 0, Z.abs k2, k2 <? 0) /\
  - (W * W) < k1 < W * W /\ - (W * W) < k2 < W * W /\ (k1 - zeta c * k2) mod p = k.
Proof.
  intros q A1 A2 (G1 & G2 & B1 & B2) (Z1 & Z2 & LK) Hp a k Ha.
  assert (Hk : 0 <= k < p) by (apply (repr_bound c a k Ha)).
  assert (Hp0 : p <> 0) by lia.
  destruct (to_limbs4_spec a k Ha) as (T1 & T2).
  destruct (high_half _ _ G2 T1) as (W1 & H1). destruct (high_half _ _ G1 T1) as (W2 & H2).
  rewrite T2 in H1, H2.
  set (c1 := snd (mul_512 (gamma2 q) (to_limbs4 c a))) in *.
  set (c2 := snd (mul_512 (gamma1 q) (to_limbs4 c a))) in *.
  destruct (LK k (val4 c1) (val4 c2) Hk H1 H2) as (P1 & P2 & K2 & K1).
  destruct (low_half _ _ W1 B1 P1) as (X1 & X2 & X3). destruct (low_half _ _ W2 B2 P2) as (Y1 & Y2 & Y3).
  pose proof (mul_R2_repr c Hc _ X1 X2) as Q1. rewrite X3 in Q1.
  pose proof (mul_R2_repr c Hc _ Y1 Y2) as Q2. rewrite Y3 in Q2.
  pose proof (fe_sub_repr c Hc _ _ _ _ Q2 Q1) as R2. rewrite <- Zminus_mod in R2.
  pose proof (fe_mul_repr c Hc _ _ _ _ R2 (token_mont_repr c Hc (zeta c))) as R3. rewrite <- Zmult_mod in R3.
  pose proof (fe_add_repr c Hc _ _ _ _ Ha R3) as R1. rewrite Zplus_mod_idemp_r in R1.
  set (k2 := val4 c2 * val4 (eb2 q) - val4 c1 * val4 (eb1 q)) in *.
  set (k1 := k + val4 c2 * A2 - val4 c1 * A1) in *.
  destruct (lattice_id p (zeta c) k (val4 c1) (val4 c2) (val4 (eb1 q)) (val4 (eb2 q)) A1 A2 Hp0 Z1 Z2) as (E1 & D).
  fold k1 k2 in E1, D.
  rewrite E1 in R1.
  exists k1, k2. split; [|split; [exact K1|split; [exact K2|]]].
  - unfold decompose_scalar. fold c1 c2.
    destruct (signed_read _ _ R1 K1 Hp) as (S1 & S2). destruct (signed_read _ _ R2 K2 Hp) as (S3 & S4).
    unfold from_raw, ZETA. f_equal; [f_equal; [f_equal|]|]; assumption.
  - rewrite D. apply Z.mod_small. exact Hk.
Qed.
End Read.
