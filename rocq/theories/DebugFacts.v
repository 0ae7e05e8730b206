(** No operation of the overflow-checked build panics, and its results are those of the
    release build. *)
From Verif Require Import Msm Base Word Limbs SpecField LimbsFacts Field FieldFacts Inverse InverseFacts ConvertFacts
  Divstep InvertFacts Jacobi JacobiLint Debug.

Lemma ck_ok lo hi x : lo <= x < hi -> ck lo hi x = Some x.
Proof.
  intros [A B]. unfold ck. apply Z.leb_le in A. apply Z.ltb_lt in B. now rewrite A, B.
Qed.
Lemma ck_some lo hi x y : ck lo hi x = Some y -> y = x /\ lo <= x < hi.
Proof.
  unfold ck. destruct (Z.leb_spec lo x); destruct (Z.ltb_spec x hi); cbn [andb]; try discriminate.
  intros E. injection E as E. lia.
Qed.
Lemma i64c_ok x : - H63 <= x < H63 -> i64c x = Some x. Proof. intros H. now apply ck_ok. Qed.
Lemma u64c_ok x : 0 <= x < W -> u64c x = Some x. Proof. intros H. now apply ck_ok. Qed.
Lemma u128c_ok x : 0 <= x < W * W -> u128c x = Some x. Proof. intros H. now apply ck_ok. Qed.
Lemma i128c_ok x : Z.abs x <= B62 * B62 -> i128c x = Some x.
Proof.
  intros H. apply ck_ok.
  assert (E : B62 * B62 < 170141183460469231731687303715884105728) by reflexivity. lia.
Qed.
Lemma shc_ok w n : 0 <= n < w -> shc w n = Some n. Proof. intros H. now apply ck_ok. Qed.
Lemma shiftr_top x : 0 <= x < W * W -> Z.shiftr x 64 mod W = x / W.
Proof.
  intros H. pose proof W_pos. rewrite shiftr_word, Z.mod_small; [reflexivity|].
  split; [apply Z.div_pos; lia|apply Z.div_lt_upper_bound; lia].
Qed.

(** ** src/arithmetic.rs *)
Lemma adc_d_ok a b c : 0 <= a < W -> 0 <= b < W -> 0 <= c < W -> adc_d a b c = Some (adc a b c).
Proof.
  intros Ha Hb Hc. assert (K : 3 < W) by reflexivity. unfold adc_d, adc.
  rewrite u128c_ok by nia. cbn [obind]. rewrite u128c_ok by nia. cbn [obind]. rewrite shiftr_top by nia. reflexivity.
Qed.
Lemma sbb_d_ok a b c : 0 <= a < W -> 0 <= b < W -> 0 <= c < W -> sbb_d a b c = Some (sbb a b c).
Proof.
  intros Ha Hb Hc. assert (K : 3 < W) by reflexivity. unfold sbb_d, sbb.
  assert (S : 0 <= Z.shiftr c 63 <= 1).
  { rewrite Z.shiftr_div_pow2 by lia. split; [apply Z.div_pos; [lia|reflexivity]|].
    apply Z.lt_succ_r, Z.div_lt_upper_bound; [reflexivity|]. exact (proj2 Hc). }
  rewrite u128c_ok by nia. cbn [obind]. rewrite shiftr_top; [reflexivity|]. apply Z.mod_pos_bound. nia.
Qed.
Lemma mac_d_ok a b c e : 0 <= a < W -> 0 <= b < W -> 0 <= c < W -> 0 <= e < W -> mac_d a b c e = Some (mac a b c e).
Proof.
  intros Ha Hb Hc He. unfold mac_d, mac.
  rewrite u128c_ok by nia. cbn [obind]. rewrite u128c_ok by nia. cbn [obind].
  rewrite u128c_ok by nia. cbn [obind]. rewrite shiftr_top by nia. reflexivity.
Qed.
Lemma macx_d_ok a b c : 0 <= a < W -> 0 <= b < W -> 0 <= c < W -> macx_d a b c = Some (macx a b c).
Proof.
  intros Ha Hb Hc. unfold macx_d, macx.
  rewrite u128c_ok by nia. cbn [obind]. rewrite u128c_ok by nia. cbn [obind]. rewrite shiftr_top by nia. reflexivity.
Qed.

(** ** The chunk integers *)
Lemma add_loop_d_ok : forall a b c, chunks a -> chunks b -> 0 <= c <= 1 ->
  cint_add_loop_d a b c = Some (cint_add_loop a b c).
Proof.
  induction a as [|x a IH]; intros [|y b] c Ha Hb Hc; try reflexivity. cbn [cint_add_loop_d cint_add_loop].
  inversion Ha as [|? ? Hx Ha']; inversion Hb as [|? ? Hy Hb']; subst.
  pose proof B62_pos as HB. pose proof B62_W.
  rewrite u64c_ok by lia. cbn [obind]. rewrite u64c_ok by lia. cbn [obind].
  rewrite (Z.mod_small (x + y + c) W) by lia. rewrite shiftr62.
  rewrite IH; [reflexivity|assumption|assumption|].
  split; [apply Z.div_pos; lia|]. apply Z.lt_succ_r, Z.div_lt_upper_bound; lia.
Qed.
Lemma cint_add_d_ok a b : chunks a -> chunks b -> cint_add_d a b = Some (cint_add a b).
Proof. intros. apply add_loop_d_ok; auto; lia. Qed.
Lemma neg_loop_d_ok : forall a c, chunks a -> 0 <= c <= 1 -> cint_neg_loop_d a c = Some (cint_neg_loop a c).
Proof.
  induction a as [|x a IH]; intros c Ha Hc; [reflexivity|]. cbn [cint_neg_loop_d cint_neg_loop].
  inversion Ha as [|? ? Hx Ha']; subst. pose proof B62_pos as HB. pose proof B62_W.
  rewrite lxor_mask62 by auto. rewrite u64c_ok by lia. cbn [obind].
  rewrite (Z.mod_small (B62 - 1 - x + c) W) by lia. rewrite shiftr62.
  rewrite IH; [reflexivity|assumption|].
  split; [apply Z.div_pos; lia|]. apply Z.lt_succ_r, Z.div_lt_upper_bound; lia.
Qed.
Lemma cint_neg_d_ok a : chunks a -> cint_neg_d a = Some (cint_neg a).
Proof. intros. apply neg_loop_d_ok; auto; lia. Qed.
Lemma mul_loop_d_ok (neg : bool) : forall a k c, chunks a -> 0 <= k < H63 -> 0 <= c <= k ->
  cint_mul_loop_d a k (if neg then MASK62 else 0) c = Some (cint_mul_loop a k (if neg then MASK62 else 0) c).
Proof.
  induction a as [|x a IH]; intros k c Ha Hk Hc; [reflexivity|]. cbn [cint_mul_loop_d cint_mul_loop].
  inversion Ha as [|? ? Hx Ha']; subst. pose proof B62_pos as HB. pose proof B62_W as HBW. rewrite H63_B62 in Hk.
  set (mask := if neg then MASK62 else 0) in *. set (y := Z.lxor x mask).
  assert (Ey : y = if neg then B62 - 1 - x else x).
  { unfold y, mask. destruct neg; [now apply lxor_mask62|apply Z.lxor_0_r]. }
  assert (Hy : 0 <= y < B62) by (rewrite Ey; destruct neg; lia).
  rewrite u128c_ok by (rewrite <- HBW; clear - Hy Hk HB; nia). cbn [obind].
  rewrite u128c_ok by (rewrite <- HBW; clear - Hy Hk HB Hc; nia). cbn [obind].
  rewrite shiftr62.
  assert (Hq : 0 <= (c + y * k) / B62 <= k).
  { split; [apply Z.div_pos; nia|]. apply Z.div_le_upper_bound; nia. }
  rewrite (Z.mod_small (_ / B62) W) by lia.
  rewrite IH; [reflexivity|assumption|rewrite H63_B62; lia|exact Hq].
Qed.
Lemma cint_mul_i64_d_ok a k : chunks a -> - H63 < k < H63 -> cint_mul_i64_d a k = Some (cint_mul_i64 a k).
Proof.
  intros Ha Hk. unfold cint_mul_i64_d, cint_mul_i64. destruct (Z.ltb_spec k 0).
  - rewrite i64c_ok by lia. cbn [obind]. rewrite i64w_id by lia.
    apply (mul_loop_d_ok true); [exact Ha|lia|].
    rewrite Z.mod_small; [lia|]. rewrite <- B62_W. rewrite H63_B62 in Hk. lia.
  - apply (mul_loop_d_ok false); [exact Ha|lia|lia].
Qed.

(** ** [jump] *)
(** At the head of the loop: [m] zeros of [g] are known. *)
Record dj (steps delta f g : Z) (t : matrix) (m : Z) : Prop := {
  dj_s : 0 <= steps <= 62;
  dj_m : 0 <= m <= steps;
  dj_f : Z.odd f = true /\ Z.abs f <= B62;
  dj_g : (2 ^ m | g) /\ Z.abs g <= 2 ^ m * B62;
  dj_t0 : norm1 (t00 t) (t01 t) <= 2 ^ (62 - steps);
  dj_t1 : norm1 (t10 t) (t11 t) <= 2 ^ (62 - steps + m);
  dj_d : - B62 - (62 - steps) <= delta <= B62 + (62 - steps) }.

Lemma ctz_ge g m : g <> 0 -> 0 <= m -> (2 ^ m | g) -> m <= ctz128 g.
Proof.
  intros Hg Hm [q E]. destruct (ctz_spec g Hg) as (h & Eh & Ho & Hn).
  destruct (Z.le_gt_cases m (ctz128 g)) as [|C]; [assumption|]. exfalso.
  set (z := ctz128 g) in *.
  assert (EP : 2 ^ m = 2 ^ z * (2 * 2 ^ (m - z - 1))).
  { rewrite <- Z.pow_succ_r, <- Z.pow_add_r by lia. f_equal. lia. }
  assert (P : 0 < 2 ^ z) by (apply Z.pow_pos_nonneg; lia).
  assert (Eq : h = 2 * (q * 2 ^ (m - z - 1))).
  { apply (Z.mul_reg_l _ _ (2 ^ z)); [lia|]. rewrite <- Eh, E, EP. ring. }
  rewrite Eq, odd_2x in Ho. discriminate.
Qed.
Lemma p62_le k : k <= 62 -> 2 ^ k <= B62.
Proof. intros Hk. rewrite B62_pow. apply Z.pow_le_mono_r; lia. Qed.
Lemma pow_le a b : 0 <= a <= b -> 1 <= 2 ^ a <= 2 ^ b.
Proof.
  intros H. split; [|apply Z.pow_le_mono_r; lia]. apply (Z.pow_le_mono_r 2 0 a); lia.
Qed.

Lemma jump_loop_d_ok : forall fuel steps delta f g t m, dj steps delta f g t m ->
  jump_loop_d fuel steps delta f g t = Some (jump_loop fuel steps delta f g t).
Proof.
  induction fuel as [|fuel IH]; intros steps delta f g t m J; [reflexivity|].
  cbn [jump_loop_d jump_loop]. destruct J as [Js Jm [Jfo Jf] [Jd Jg] Jt0 Jt1 Jdl].
  pose proof half62_pos as HB1. pose proof B62_even as HB2. pose proof B62_pos as HB3.
  assert (HB4 : 62 < B62) by reflexivity.
  set (z := Z.min steps (ctz128 g)).
  assert (Hctz : m <= z /\ 0 <= z <= steps /\ exists h, g = 2 ^ z * h).
  { destruct (Z.eq_dec g 0) as [Eg|Hg].
    - unfold z. rewrite Eg. cbn [ctz128]. split; [lia|]. split; [lia|]. exists 0. ring.
    - pose proof (ctz_ge g m Hg (proj1 Jm) Jd) as C. destruct (ctz_spec g Hg) as (h & Eh & Ho & Hn).
      split; [lia|]. split; [lia|]. exists (2 ^ (ctz128 g - z) * h).
      rewrite Z.mul_assoc, <- Z.pow_add_r by lia. rewrite Eh at 1. f_equal. f_equal. lia. }
  destruct Hctz as (Hmz & Hz & h & Eg). assert (Zodd : z < steps -> Z.odd h = true).
  { intros Hlt. destruct (Z.eq_dec g 0) as [E0|Hg]; [unfold z in Hlt; rewrite E0 in Hlt; cbn [ctz128] in Hlt; lia|].
    destruct (ctz_spec g Hg) as (h' & Eh & Ho & Hn). assert (ctz128 g = z) by lia.
    rewrite H in Eh. assert (P : 0 < 2 ^ z) by (apply Z.pow_pos_nonneg; lia).
    assert (h = h') by (apply (Z.mul_reg_l _ _ (2 ^ z)); [lia|congruence]). congruence. }
  assert (P : 0 < 2 ^ z) by (apply Z.pow_pos_nonneg; lia).
  assert (Eu : Z.shiftr g z = h).
  { rewrite Z.shiftr_div_pow2 by lia. rewrite Eg, Z.mul_comm, Z.div_mul by lia. reflexivity. }
  assert (Bh : Z.abs h <= B62).
  { pose proof (pow_le m z ltac:(lia)) as PM. rewrite Eg, Z.abs_mul, (Z.abs_eq (2 ^ z)) in Jg by lia.
    clear - Jg PM HB3. nia. }
  clearbody z.
  rewrite i64c_ok by (rewrite H63_B62; lia). cbn [obind].
  rewrite (i64c_ok (delta + z)) by (rewrite H63_B62; lia). cbn [obind].
  rewrite !shc_ok by lia. cbn [obind].
  rewrite (i64w_id (delta + z)) by (rewrite H63_B62; lia). rewrite Eu.
  set (s1 := steps - z).
  assert (K1 : 2 ^ (62 - s1) = 2 ^ z * 2 ^ (62 - steps)).
  { rewrite <- Z.pow_add_r by lia. f_equal. unfold s1. lia. }
  assert (Hk1 : 2 ^ (62 - s1) <= B62) by (apply p62_le; unfold s1; lia).
  assert (Hb0 : norm1 (2 ^ z * t00 t) (2 ^ z * t01 t) <= 2 ^ (62 - s1)).
  { unfold norm1 in *. rewrite !Z.abs_mul, (Z.abs_eq (2 ^ z)), <- Z.mul_add_distr_l, K1 by (clear - P; lia).
    apply Z.mul_le_mono_nonneg_l; [clear - P; lia|assumption]. }
  assert (Hb1 : norm1 (t10 t) (t11 t) <= 2 ^ (62 - s1)).
  { eapply Z.le_trans; [exact Jt1|]. apply Z.pow_le_mono_r; unfold s1; lia. }
  assert (Hw00 : i64w (Z.shiftl (t00 t) z) = 2 ^ z * t00 t).
  { rewrite Z.shiftl_mul_pow2, Z.mul_comm by lia. apply i64w_id, (abs_i64 _ _ Hk1). apply norm1_l in Hb0. tauto. }
  assert (Hw01 : i64w (Z.shiftl (t01 t) z) = 2 ^ z * t01 t).
  { rewrite Z.shiftl_mul_pow2, Z.mul_comm by lia. apply i64w_id, (abs_i64 _ _ Hk1). apply norm1_l in Hb0. tauto. }
  rewrite Hw00, Hw01. cbn [t00 t01 t10 t11]. clear Hw00 Hw01.
  destruct (Z.eqb_spec s1 0) as [E0|E0]; [reflexivity|].
  specialize (Zodd ltac:(unfold s1 in E0; lia)).
  set (r0 := 2 ^ z * t00 t) in *. set (r1 := 2 ^ z * t01 t) in *.
  assert (HS : exists d2 f2 g2 t2,
    (if 0 <? delta + z then
       d <- i64c (- (delta + z)); f' <- i64c (- f); m0 <- i64c (- r0); m1 <- i64c (- r1);
       Some (d, i64w h, f', mk_mat (t10 t) (t11 t) m0 m1)
     else Some (delta + z, f, h, mk_mat r0 r1 (t10 t) (t11 t))) = Some (d2, f2, g2, t2) /\
    (if 0 <? delta + z then
       (i64w (- (delta + z)), i64w h, i64w (- f), mk_mat (t10 t) (t11 t) (i64w (- r0)) (i64w (- r1)))
     else (delta + z, f, h, mk_mat r0 r1 (t10 t) (t11 t))) = (d2, f2, g2, t2) /\
    - B62 - (62 - s1) <= d2 <= 0 /\ Z.odd f2 = true /\ Z.abs f2 <= B62 /\ Z.abs g2 <= B62 /\
    norm1 (t00 t2) (t01 t2) <= 2 ^ (62 - s1) /\ norm1 (t10 t2) (t11 t2) <= 2 ^ (62 - s1)).
  { assert (AF : - H63 <= - f < H63) by (rewrite H63_B62; clear - Jf HB3; lia).
    assert (AH : - H63 <= h < H63) by (rewrite H63_B62; clear - Bh HB3; lia).
    destruct (Z.ltb_spec 0 (delta + z)) as [Hp|Hp].
    - pose proof (norm1_l _ _ _ Hb0) as [Hr0 Hr1].
      assert (A0 : - H63 <= - r0 < H63) by (apply (abs_i64 _ _ Hk1); now rewrite Z.abs_opp).
      assert (A1 : - H63 <= - r1 < H63) by (apply (abs_i64 _ _ Hk1); now rewrite Z.abs_opp).
      assert (A2 : - H63 <= - (delta + z) < H63) by (rewrite H63_B62; lia).
      rewrite !i64c_ok by assumption. cbn [obind]. rewrite !i64w_id by assumption.
      do 4 eexists. split; [reflexivity|]. split; [reflexivity|]. cbn [t00 t01 t10 t11].
      split; [unfold s1; lia|]. split; [exact Zodd|]. split; [exact Bh|]. split; [rewrite Z.abs_opp; exact Jf|].
      split; [exact Hb1|]. unfold norm1 in *. rewrite !Z.abs_opp. exact Hb0.
    - do 4 eexists. split; [reflexivity|]. split; [reflexivity|]. cbn [t00 t01 t10 t11].
      split; [unfold s1; lia|]. tauto. }
  destruct HS as (d2 & f2 & g2 & t2 & -> & -> & Hd2 & Of2 & Bf2 & Bg2 & N0 & N1). cbn [obind].
  rewrite (i64c_ok (1 - d2)) by (rewrite H63_B62; unfold s1 in Hd2; lia). cbn [obind].
  set (mm := Z.min (Z.min s1 (1 - d2)) 5).
  assert (Hmm : 1 <= mm <= 5 /\ mm <= s1 /\ mm <= 1 - d2) by (unfold mm, s1 in *; lia).
  rewrite (shc_ok 64 mm) by lia. cbn [obind].
  assert (PM : 2 <= 2 ^ mm <= 32).
  { split; [apply (Z.pow_le_mono_r 2 1 mm); lia|]. change 32 with (2 ^ 5). apply Z.pow_le_mono_r; lia. }
  assert (E1 : i64w (Z.shiftl 1 mm) = Z.shiftl 1 mm).
  { apply i64w_id. rewrite Z.shiftl_1_l. rewrite H63_B62. lia. }
  rewrite E1, i64c_ok by (rewrite Z.shiftl_1_l, H63_B62; lia). cbn [obind].
  set (w := Z.land (i64w (i64w g2 * Z.lxor (i64w (f2 * 3)) 28)) (Z.shiftl 1 mm - 1)).
  assert (Ew : w = i64w (i64w g2 * Z.lxor (i64w (f2 * 3)) 28) mod 2 ^ mm).
  { unfold w. rewrite Z.shiftl_1_l. replace (2 ^ mm - 1) with (Z.ones mm) by (rewrite Z.ones_equiv; lia).
    apply Z.land_ones. lia. }
  assert (Hw : 0 <= w < 2 ^ mm) by (rewrite Ew; apply Z.mod_pos_bound; lia).
  assert (Hdvd : (2 ^ mm | g2 + w * f2)).
  { assert (D5 : (2 ^ mm | 32)) by (change 32 with (2 ^ 5); apply pow_divide; lia).
    set (f3 := i64w (f2 * 3)) in *.
    assert (H3 : (32 | f3 - 3 * f2)).
    { unfold f3. replace (3 * f2) with (f2 * 3) by ring. change 32 with (2 ^ 5). apply i64w_cong_le. lia. }
    pose proof (neg_inv_32 f2 f3 Of2 H3) as Hinv. apply (Z.divide_trans _ _ _ D5) in Hinv.
    set (v := Z.lxor f3 28) in *.
    assert (Hwc : (2 ^ mm | w - g2 * v)).
    { rewrite Ew. set (y := i64w (i64w g2 * v)).
      assert (Y1 : (2 ^ mm | y - i64w g2 * v)) by (apply i64w_cong_le; lia).
      assert (Y2 : (2 ^ mm | i64w g2 - g2)) by (apply i64w_cong_le; lia).
      replace (y mod 2 ^ mm - g2 * v) with ((- (y / 2 ^ mm)) * 2 ^ mm + (y - i64w g2 * v) + (i64w g2 - g2) * v).
      - apply Z.divide_add_r; [apply Z.divide_add_r|]; auto; [apply Z.divide_factor_r|now apply Z.divide_mul_l].
      - pose proof (Z.div_mod y (2 ^ mm) ltac:(clear - PM; lia)) as Dy. clear - Dy. lia. }
    replace (g2 + w * f2) with (g2 * (v * f2 + 1) + (w - g2 * v) * f2) by ring.
    apply Z.divide_add_r; [now apply Z.divide_mul_r|now apply Z.divide_mul_l]. }
  assert (HPk1 : 0 < 2 ^ (62 - s1)) by (apply Z.pow_pos_nonneg; unfold s1; clear - Js Hz; lia).
  assert (Hkm : 2 ^ (62 - s1) * 2 ^ mm <= B62) by (rewrite <- Z.pow_add_r by (unfold s1; clear - Js Hz Hmm; lia); apply p62_le; clear - Hmm; lia).
  destruct (row_bound (t00 t2) (t01 t2) (t10 t2) (t11 t2) w _ _ Hw N0 N1 HPk1) as (Hrow & R1 & R2 & R3 & R4).
  assert (Hp0 : - H63 <= t00 t2 * w < H63 /\ - H63 <= t01 t2 * w < H63).
  { split; (apply (abs_i64 _ (2 ^ (62 - s1) * 2 ^ mm)); [assumption|assumption]). }
  assert (Hp1 : - H63 <= t00 t2 * w + t10 t2 < H63 /\ - H63 <= t01 t2 * w + t11 t2 < H63).
  { split; (apply (abs_i64 _ (2 ^ (62 - s1) * 2 ^ mm)); [assumption|assumption]). }
  rewrite (i64w_id (t00 t2 * w)), (i64w_id (t01 t2 * w)) by tauto.
  rewrite (i64w_id (t00 t2 * w + t10 t2)), (i64w_id (t01 t2 * w + t11 t2)) by tauto.
  rewrite (i64c_ok (t00 t2 * w)), (i64c_ok (t01 t2 * w)) by tauto. cbn [obind].
  rewrite (i64c_ok (t00 t2 * w + t10 t2)), (i64c_ok (t01 t2 * w + t11 t2)) by tauto. cbn [obind].
  assert (Bwf : Z.abs (w * f2) <= (2 ^ mm - 1) * B62).
  { rewrite Z.abs_mul, (Z.abs_eq w) by lia. clear - Hw Bf2 HB3. nia. }
  assert (Bg : Z.abs (g2 + w * f2) <= 2 ^ mm * B62) by (clear - Bwf Bg2; lia).
  assert (BB : 2 ^ mm * B62 <= B62 * B62) by (apply Z.mul_le_mono_nonneg_r; clear - PM HB4; lia).
  rewrite (i128c_ok (w * f2)) by (clear - Bwf BB HB3; lia). cbn [obind].
  rewrite (i128c_ok (g2 + w * f2)) by (clear - Bg BB; lia). cbn [obind].
  assert (E128 : i128w (g2 + w * f2) = g2 + w * f2).
  { apply swrap_id; [reflexivity|]. assert (E : B62 * B62 < 170141183460469231731687303715884105728) by reflexivity.
    clear - E Bg BB. lia. }
  rewrite E128. apply (IH _ _ _ _ _ mm).
  constructor; cbn [t00 t01 t10 t11].
  - unfold s1. clear - Js Hz. lia.
  - clear - Hmm. lia.
  - split; assumption.
  - split; [exact Hdvd|exact Bg].
  - exact N0.
  - rewrite Z.pow_add_r; [exact Hrow|unfold s1; clear - Js Hz; lia|clear - Hmm; lia].
  - clear - Hd2 HB3 Hmm Js Hz. unfold s1 in *. lia.
Qed.
Lemma jump_d_ok f g delta : 0 <= cint_lowest f < B62 -> 0 <= cint_lowest g < B62 -> Z.odd (cint_lowest f) = true ->
  - B62 <= delta <= B62 -> jump_d f g delta = Some (jump f g delta).
Proof.
  intros Hf Hg Ho Hd. unfold jump_d, jump. apply (jump_loop_d_ok _ _ _ _ _ _ 0).
  constructor; cbn [t00 t01 t10 t11]; try (lia || (split; [assumption|lia])).
  - split; [apply Z.divide_1_l|]. change (2 ^ 0) with 1. lia.
  - unfold norm1. cbn. lia.
  - unfold norm1. cbn. lia.
Qed.

(** ** [convert] *)
Lemma convert_loop_d_ok I O total input : (1 <= I <= 64)%nat -> (1 <= O <= 64)%nat -> (total <= length input * I)%nat ->
  forall fuel output bits, (total <= length output * O)%nat ->
  convert_loop_d fuel I O total input output bits = Some (convert_loop fuel I O total input output bits) /\
  length (convert_loop fuel I O total input output bits) = length output.
Proof.
  intros HI HO Ht. induction fuel as [|fuel IH]; intros output bits Ho; cbn [convert_loop_d convert_loop]; [auto|].
  destruct (Nat.ltb_spec bits total) as [Hb|Hb]; [|auto].
  assert (Bi : (bits / I < length input)%nat) by (apply Nat.div_lt_upper_bound; lia).
  assert (Bo : (bits / O < length output)%nat) by (apply Nat.div_lt_upper_bound; lia).
  pose proof (Nat.mod_upper_bound bits I ltac:(lia)) as Mi. pose proof (Nat.mod_upper_bound bits O ltac:(lia)) as Mo.
  rewrite (nth_error_nth' input 0 Bi), (nth_error_nth' output 0 Bo). cbn [obind].
  rewrite (shc_ok 64 (Z.of_nat (bits mod I))) by lia. cbn [obind].
  rewrite (shc_ok 64 (Z.of_nat (bits mod O))) by lia. cbn [obind].
  rewrite (proj2 (Nat.leb_le (bits mod I) I)) by lia. rewrite (proj2 (Nat.leb_le (bits mod O) O)) by lia. cbn [assertd obind].
  set (out' := set_nth (bits / O) _ output).
  destruct (IH out' (bits + Nat.min (I - bits mod I) (O - bits mod O))%nat) as [E1 E2].
  { unfold out'. rewrite set_nth_length. exact Ho. }
  split; [exact E1|]. rewrite E2. unfold out'. apply set_nth_length.
Qed.
Lemma convert_d_ok I O S input : (1 <= I <= 64)%nat -> (1 <= O <= 64)%nat ->
  convert_d I O S input = Some (convert I O S input).
Proof.
  intros HI HO. unfold convert_d, convert. set (total := Nat.min (length input * I) (S * O)).
  assert (HS : (total <= S * O)%nat) by (unfold total; lia).
  destruct (convert_loop_d_ok I O total input HI HO ltac:(unfold total; lia) total (repeat 0 S) 0) as [E1 E2].
  { rewrite repeat_length. exact HS. }
  rewrite E1. cbn [obind]. rewrite (proj2 (Nat.leb_le O 64)) by lia. cbn [assertd obind].
  rewrite shc_ok by lia. cbn [obind]. rewrite E2, repeat_length.
  rewrite (proj2 (Nat.leb_le _ S)); [reflexivity|].
  pose proof (Nat.div_mod total O ltac:(lia)) as D. destruct (Nat.ltb_spec 0 (total mod O)); nia.
Qed.
Lemma by_new_d_ok L m adj : m <> [] -> by_new_d L m adj = Some (by_new L m adj).
Proof.
  intros Hm. unfold by_new_d, by_new. rewrite !convert_d_ok by lia. cbn [obind].
  destruct m; [contradiction|reflexivity].
Qed.

(** ** Loops *)
Lemma run_until_sim {S R R'} (step : S -> S + R) (step' : S -> S + R') (h : R -> R') (Inv : S -> Prop) :
  (forall s, Inv s -> step' s = match step s with inl s2 => inl s2 | inr r => inr (h r) end) ->
  (forall s s2, Inv s -> step s = inl s2 -> Inv s2) ->
  forall n s, Inv s ->
  run_until n step' s = match run_until n step s with inl s2 => inl s2 | inr r => inr (h r) end /\
  (forall s2, run_until n step s = inl s2 -> Inv s2).
Proof.
  intros H1 H2. induction n as [|n IH]; intros s Hs; cbn [run_until].
  - split; [now apply H1|]. intros s2. now apply H2.
  - destruct (IH s Hs) as [E1 E2]. rewrite E1. destruct (run_until n step s) as [s2|r].
    + apply IH. now apply E2.
    + split; [reflexivity|]. discriminate.
Qed.

(** ** The inverter *)
Section Inv.
Context (L : nat) (v : inverter) (M A : Z).
Context (HL : (1 <= L)%nat) (HM : 1 < M) (HMo : Z.odd M = true) (HMT : 4 * B62 * M < T L).
Context (Hmod : cin L (by_modulus v) M).
Context (Hinv : 0 <= by_inverse v < B62 /\ (B62 | by_inverse v * M - 1)).

Lemma norm_lt ta tb : norm1 ta tb <= B62 -> - H63 < ta < H63 /\ - H63 < tb < H63.
Proof.
  intros H. destruct (norm1_l _ _ _ H). rewrite H63_B62. pose proof B62_pos. lia.
Qed.
Lemma fg_row_d_ok f g F G ta tb : cin L f F -> cin L g G -> norm1 ta tb <= B62 ->
  by_fg_row_d f g ta tb = Some (cint_shift (cint_add (cint_mul_i64 f ta) (cint_mul_i64 g tb))).
Proof.
  intros Hf Hg Hn. destruct (norm_lt _ _ Hn) as [Ba Bb]. unfold by_fg_row_d.
  pose proof (cin_mul L f F ta Hf Ba) as (_ & C1 & _). pose proof (cin_mul L g G tb Hg Bb) as (_ & C2 & _).
  rewrite (cint_mul_i64_d_ok f ta) by (try exact Ba; apply Hf). cbn [obind].
  rewrite (cint_mul_i64_d_ok g tb) by (try exact Bb; apply Hg). cbn [obind].
  rewrite cint_add_d_ok by assumption. reflexivity.
Qed.
Lemma b2z_01 b : b2z b = 0 \/ b2z b = 1. Proof. destruct b; auto. Qed.
Lemma de_row_d_ok d e D E ta tb : cin L d D -> cin L e E -> norm1 ta tb <= B62 ->
  by_de_row_d v d e ta tb = Some (by_de_row v d e ta tb).
Proof.
  intros Hd He Hn. destruct (norm_lt _ _ Hn) as [Ba Bb]. unfold by_de_row_d, by_de_row.
  destruct (norm1_l _ _ _ Hn) as [Ha Hb]. pose proof B62_pos as HB.
  set (nd := b2z (cint_is_negative d)). set (ne := b2z (cint_is_negative e)).
  assert (Hnd : nd = 0 \/ nd = 1) by apply b2z_01. assert (Hne : ne = 0 \/ ne = 1) by apply b2z_01.
  assert (A1 : Z.abs (ta * nd) <= B62) by (destruct Hnd as [-> | ->]; lia).
  assert (A2 : Z.abs (tb * ne) <= B62) by (destruct Hne as [-> | ->]; lia).
  assert (A3 : Z.abs (ta * nd + tb * ne) <= B62).
  { unfold norm1 in Hn. destruct Hnd as [-> | ->]; destruct Hne as [-> | ->]; lia. }
  assert (R : forall x, Z.abs x <= B62 -> - H63 <= x < H63) by (intros x Hx; apply (abs_i64 _ B62); lia).
  rewrite !i64c_ok by (apply R; assumption). cbn [obind]. rewrite i64c_ok by (apply R; assumption). cbn [obind].
  rewrite (i64w_id (ta * nd)), (i64w_id (tb * ne)) by (apply R; assumption).
  rewrite (i64w_id (ta * nd + tb * ne)) by (apply R; assumption).
  set (md := ta * nd + tb * ne) in *. rewrite !land_mask62.
  set (cd := i64w (i64w (ta * cint_lowest d) + i64w (tb * cint_lowest e)) mod B62).
  set (c := i64w (i64w (by_inverse v * cd) + md) mod B62).
  assert (Hc : 0 <= c < B62) by (apply Z.mod_pos_bound; lia).
  assert (R2 : - H63 < md - c < H63) by (rewrite H63_B62; lia).
  rewrite i64c_ok by lia. cbn [obind]. rewrite (i64w_id (md - c)) by lia.
  pose proof (cin_mul L d D ta Hd Ba) as K1. pose proof (cin_mul L e E tb He Bb) as K2.
  pose proof (cin_mul L _ M (md - c) Hmod R2) as K3. pose proof (cin_add L _ _ _ _ K1 K2) as K4.
  rewrite (cint_mul_i64_d_ok d ta) by (try exact Ba; apply Hd). cbn [obind].
  rewrite (cint_mul_i64_d_ok e tb) by (try exact Bb; apply He). cbn [obind].
  rewrite cint_add_d_ok by (apply K1 || apply K2). cbn [obind].
  rewrite (cint_mul_i64_d_ok (by_modulus v)) by (try exact R2; apply Hmod). cbn [obind].
  rewrite cint_add_d_ok by (apply K4 || apply K3). reflexivity.
Qed.
Lemma norm_d_ok d D neg : cin L d D -> by_norm_d v d neg = Some (by_norm v d neg).
Proof.
  intros Hd. unfold by_norm_d, by_norm.
  assert (E1 : (if cint_is_negative d then cint_add_d d (by_modulus v) else Some d) =
    Some (if cint_is_negative d then cint_add d (by_modulus v) else d)).
  { destruct (cint_is_negative d); [|reflexivity]. apply cint_add_d_ok; [apply Hd|apply Hmod]. }
  rewrite E1. cbn [obind]. set (d1 := if cint_is_negative d then cint_add d (by_modulus v) else d).
  assert (C1 : exists D1, cin L d1 D1).
  { unfold d1. destruct (cint_is_negative d); [exists (D + M); now apply cin_add|eauto]. }
  destruct C1 as [D1 C1]. clearbody d1.
  assert (E2 : (if neg then cint_neg_d d1 else Some d1) = Some (if neg then cint_neg d1 else d1)).
  { destruct neg; [|reflexivity]. apply cint_neg_d_ok, C1. }
  rewrite E2. cbn [obind]. set (d2 := if neg then cint_neg d1 else d1).
  assert (C2 : exists D2, cin L d2 D2) by (unfold d2; destruct neg; [exists (- D1); now apply cin_neg|eauto]).
  destruct C2 as [D2 C2]. clearbody d2.
  destruct (cint_is_negative d2); [|reflexivity]. apply cint_add_d_ok; [apply C2|apply Hmod].
Qed.

Context (x M0 : Z) (Hx : 0 <= x) (HM0 : M <= M0 /\ x <= M0 /\ 4 * B62 * M0 < T L) (HLB : 62 * Z.of_nat L + 64 <= B62).

Lemma step_d_ok s F G : oinv L M A x M0 s F G ->
  by_step_d L v s = match by_step L v s with inl s2 => inl s2 | inr r => inr (Some r) end.
Proof.
  intros O. pose proof (step_spec L v M A HL HM HMo HMT Hmod Hinv x M0 Hx HM0 HLB s F G O) as SP.
  unfold by_step_d. destruct O as [Of Og Od Oh Ogcd (D & E & OD & OE & RD & RE & CD & CE)].
  unfold by_step in *. destruct (cint_eqb (by_g s) (cint_zero L)) eqn:EZ; [reflexivity|].
  assert (HG : G <> 0) by (destruct SP as [[_ SP]|[SP _]]; [|exact SP]; destruct (jump _ _ _) as [[? ?]|]; try discriminate; destruct (by_fg _ _ _), (by_de _ _ _ _); discriminate).
  pose proof (di_odd _ _ _ Od) as Fo. cbn [df] in Fo.
  pose proof (di_low _ _ _ Od) as Dl. cbn [dd] in Dl.
  assert (HM0B : M0 < 2 ^ (62 * Z.of_nat L)).
  { rewrite <- T_pow. pose proof half62_pos. pose proof B62_even. clear - HM0 HM H H0. nia. }
  pose proof (dinv_high (62 * Z.of_nat L) M0 ltac:(clear; lia) HM0B _ Od HG) as Dh. cbn [dd] in Dh.
  pose proof (cin_lowest L _ _ HL Of) as LF. pose proof (cin_lowest L _ _ HL Og) as LG.
  assert (BD : - B62 <= by_delta s <= B62) by lia.
  pose proof B62_pos as HB.
  assert (OF : Z.odd (cint_lowest (by_f s)) = true).
  { rewrite LF, <- Fo. pose proof (Z.div_mod F B62 ltac:(lia)) as DF. rewrite DF at 2.
    rewrite B62_even at 2. rewrite <- Z.mul_assoc, Z.add_comm, Z.odd_add_mul_2. reflexivity. }
  rewrite jump_d_ok; [|rewrite LF; apply Z.mod_pos_bound; lia|rewrite LG; apply Z.mod_pos_bound; lia|exact OF|exact BD].
  destruct (jump_spec (by_delta s) F G Fo BD (by_f s) (by_g s) LF LG)
    as (delta' & t & F' & G' & EJ & Hst & T0 & T1 & N0 & N1).
  rewrite EJ. rewrite (fg_row_d_ok _ _ F G _ _ Of Og N0). cbn [obind].
  rewrite (fg_row_d_ok _ _ F G _ _ Of Og N1). cbn [obind].
  rewrite (de_row_d_ok _ _ D E _ _ OD OE N0). cbn [obind].
  rewrite (de_row_d_ok _ _ D E _ _ OD OE N1). cbn [obind]. reflexivity.
Qed.
End Inv.

Theorem by_invert_d_ok : forall L S m adj value,
  (1 <= L)%nat -> words m -> words adj -> words value ->
  1 < eval m -> Z.odd (eval m) = true -> eval m < 2 ^ (62 * Z.of_nat L - 64) ->
  eval value < 2 ^ (62 * Z.of_nat L - 64) -> eval adj < eval m ->
  62 * Z.of_nat L + 64 <= B62 ->
  by_new_d L m adj = Some (by_new L m adj) /\
  by_invert_d L S (by_new L m adj) value = Some (by_invert L S (by_new L m adj) value).
Proof.
  intros L S m adj value HL Wm Wa Wv HM Ho HMb HVb HA HLB.
  set (M := eval m) in *. set (x := eval value) in *. set (A := eval adj) in *.
  split.
  { apply by_new_d_ok. intros E. subst m. cbn in M. clear - HM. lia. }
  assert (Hx : 0 <= x) by (apply eval_bound; auto).
  assert (HA0 : 0 <= A) by (apply eval_bound; auto).
  assert (HMT : 4 * B62 * M < T L) by (apply T_half; auto; lia).
  assert (HPos : 0 < 2 ^ (62 * Z.of_nat L - 64)) by lia.
  assert (H64 : 64 <= 62 * Z.of_nat L).
  { destruct (Z.le_gt_cases 64 (62 * Z.of_nat L)); auto. rewrite Z.pow_neg_r in HPos by lia. lia. }
  set (M0 := Z.max M x).
  assert (HM0 : M <= M0 /\ x <= M0 /\ 4 * B62 * M0 < T L).
  { unfold M0. split; [lia|]. split; [lia|]. apply T_half; auto; lia. }
  pose proof half62_pos as HB1. pose proof B62_even as HB2. pose proof B62_pos as HB3.
  assert (MT : M0 < T L) by nia.
  set (v := by_new L m adj).
  assert (Hmod : cin L (by_modulus v) M) by (apply to_chunks_spec; auto; fold M; lia).
  assert (Hadj : cin L (by_adjuster v) A) by (apply to_chunks_spec; auto; fold A; lia).
  assert (Hval : cin L (convert 64 62 L value) x) by (apply to_chunks_spec; auto; fold x; lia).
  assert (Hinv : 0 <= by_inverse v < B62 /\ (B62 | by_inverse v * M - 1)).
  { unfold v, by_new. cbn [by_inverse].
    destruct m as [|m0 m']; [cbn in M; lia|]. cbn [hd].
    assert (E0 : M = m0 + 2 * (2 * B62 * eval m')).
    { unfold M. cbn [eval]. rewrite <- B62_W. ring. }
    assert (O0 : Z.odd m0 = true) by (rewrite E0, Z.odd_add_mul_2 in Ho; auto).
    destruct (by_inv_spec m0 O0) as [R1 [q Hq]]. split; auto.
    exists (q + by_inv m0 * 4 * eval m'). rewrite E0. lia. }
  unfold by_invert_d, by_invert. rewrite convert_d_ok by lia. cbn [obind].
  set (s0 := mk_by 1 (by_modulus v) (convert 64 62 L value) (cint_zero L) (by_adjuster v)).
  assert (O0 : oinv L M A x M0 s0 M x).
  { constructor; cbn [by_f by_g by_delta by_d by_e s0]; auto.
    - constructor; cbn [dd df dg]; auto; try lia.
    - lia.
    - tauto.
    - exists 0, A. split; [apply cin_zero|]. split; auto. split; [lia|]. split; [lia|]. split.
      + exists (- A). ring.
      + exists 0. ring. }
  pose proof (run_until_sim (by_step L v) (by_step_d L v) (@Some (option by_state))
    (fun s => exists F G, oinv L M A x M0 s F G)) as SIM.
  destruct (SIM
    (fun s H => match H with ex_intro _ F (ex_intro _ G OI) =>
       step_d_ok L v M A HL HM Ho HMT Hmod Hinv x M0 Hx HM0 HLB s F G OI end)) with (n := (124 * L + 6)%nat) (s := s0) as [E _].
  { intros s s2 (F & G & O) ES.
    destruct (step_spec L v M A HL HM Ho HMT Hmod Hinv x M0 Hx HM0 HLB s F G O) as [[_ SP]|(_ & s' & F' & G' & SP & O' & _)];
      rewrite ES in SP; [discriminate|]. injection SP as <-. eauto. }
  { eauto. }
  rewrite E. clear SIM E.
  destruct (run_spec L v M A HL HM Ho HMT Hmod Hinv x M0 Hx HM0 HLB (124 * L + 6) s0 M x O0)
    as [(s' & F & ER & O)|(s' & F & G & ER & _)]; rewrite ER; [|reflexivity].
  destruct (negb _ && negb _); [reflexivity|].
  destruct O as [_ _ _ _ _ (D & E & OD & _)].
  rewrite (norm_d_ok L v M Hmod (by_d s') D _ OD). cbn [obind].
  rewrite convert_d_ok by lia. reflexivity.
Qed.

(** ** The two operations of [CInt] the crate does not use *)
Lemma sub_loop_as_add : forall a b c,
  cint_sub_loop_d a b c = cint_add_loop_d a (map (fun y => Z.lxor y MASK62) b) c.
Proof.
  induction a as [|x a IH]; intros [|y b] c; try reflexivity. cbn [cint_sub_loop_d cint_add_loop_d map].
  destruct (u64c (x + Z.lxor y MASK62)) as [s|]; [|reflexivity]. cbn [obind].
  destruct (u64c (s + c)); [|reflexivity]. cbn [obind]. now rewrite IH.
Qed.
Lemma compl_spec : forall b, chunks b ->
  chunks (map (fun y => Z.lxor y MASK62) b) /\ ceval (map (fun y => Z.lxor y MASK62) b) = T (length b) - 1 - ceval b.
Proof.
  induction b as [|y b IH]; intros Hb; cbn [map ceval length].
  - rewrite T_0. split; [constructor|reflexivity].
  - inversion Hb as [|? ? Hy Hb']; subst. destruct (IH Hb') as [I1 I2]. rewrite lxor_mask62 by exact Hy.
    split; [constructor; [lia|exact I1]|]. rewrite I2, T_S. ring.
Qed.
Theorem cint_sub_d_spec L a b v w : cin L a v -> cin L b w -> exists r, cint_sub_d a b = Some r /\ cin L r (v - w).
Proof.
  intros (La & Ca & Ea) (Lb & Cb & Eb). unfold cint_sub_d. rewrite sub_loop_as_add.
  destruct (compl_spec b Cb) as [C1 C2].
  rewrite add_loop_d_ok by (assumption || lia). eexists. split; [reflexivity|].
  destruct (add_loop_spec a (map (fun y => Z.lxor y MASK62) b) 1) as (A1 & A2 & A3);
    [now rewrite map_length, La, Lb|assumption|assumption|lia|].
  split; [congruence|]. split; [exact A2|]. rewrite A3, C2, La, Lb, Ea, Eb.
  pose proof (T_pos L). apply Zmod_eq_iff; [lia|].
  pose proof (Z.div_mod v (T L) ltac:(lia)) as D1. pose proof (Z.div_mod w (T L) ltac:(lia)) as D2.
  exists (1 - v / T L + w / T L). lia.
Qed.

Lemma mul_row_d_spec x : 0 <= x < B62 -> forall data b c, (length data <= length b)%nat -> chunks b -> chunks data ->
  0 <= c < B62 -> exists r, cint_mul_row_d x b data c = Some r /\ length r = length data /\ chunks r /\
  (T (length data) | ceval r - (ceval data + x * ceval b + c)).
Proof.
  intros Hx. induction data as [|d data IH]; intros b c Hl Hb Hd Hc.
  - exists []. split; [destruct b; reflexivity|]. split; [reflexivity|]. split; [constructor|].
    cbn [length]. rewrite T_0. apply Z.divide_1_l.
  - destruct b as [|y b]; [cbn in Hl; lia|]. cbn [length] in Hl. cbn [cint_mul_row_d].
    inversion Hb as [|? ? Hy Hb']; inversion Hd as [|? ? Hd1 Hd']; subst.
    pose proof B62_pos as HB. pose proof B62_W as HBW.
    rewrite u128c_ok by (rewrite <- HBW; clear - Hc Hd1 HB; nia). cbn [obind].
    rewrite u128c_ok by (rewrite <- HBW; clear - Hx Hy HB; nia). cbn [obind].
    set (s := d + c + x * y).
    assert (Hs : 0 <= s < B62 * B62) by (unfold s; clear - Hc Hd1 HB Hx Hy; nia).
    rewrite u128c_ok by (rewrite <- HBW; clear - Hs HB; nia). cbn [obind].
    rewrite land_mask62, shiftr62.
    assert (Hq : 0 <= s / B62 < B62) by (split; [apply Z.div_pos; lia|apply Z.div_lt_upper_bound; lia]).
    rewrite (Z.mod_small (s / B62) W) by lia.
    assert (E62 : (s mod W) mod B62 = s mod B62).
    { rewrite <- HBW, Z.mul_comm, Z.rem_mul_r by lia. rewrite Z.mul_comm, Z_mod_plus_full, Z.mod_mod by lia. reflexivity. }
    rewrite E62. destruct (IH b (s / B62) ltac:(lia) Hb' Hd' Hq) as (r & -> & R1 & R2 & q & R3). cbn [obind].
    pose proof (Z.mod_pos_bound s B62 HB) as Hm. pose proof (Z.div_mod s B62 ltac:(lia)) as Ds.
    eexists. split; [reflexivity|]. cbn [length ceval]. split; [now f_equal|]. split; [now constructor|].
    exists q. rewrite T_S. unfold s in Ds at 1. clear - R3 Ds.
    replace (s mod B62 + B62 * ceval r - (d + B62 * ceval data + x * (y + B62 * ceval b) + c)) with
      (B62 * (ceval r - (ceval data + x * ceval b + s / B62)) + (B62 * (s / B62) + s mod B62 - (d + c + x * y))) by ring.
    rewrite R3, <- Ds. ring.
Qed.
Lemma mul_all_d_spec b : chunks b -> forall a data, length data = length a -> (length a <= length b)%nat -> chunks a ->
  chunks data -> exists r, cint_mul_all_d a b data = Some r /\ length r = length a /\ chunks r /\
  (T (length a) | ceval r - (ceval data + ceval a * ceval b)).
Proof.
  intros Hb. induction a as [|x a IH]; intros data Hl Hla Ha Hd.
  - exists []. split; [reflexivity|]. split; [reflexivity|]. split; [constructor|].
    cbn [length]. rewrite T_0. apply Z.divide_1_l.
  - inversion Ha as [|? ? Hx Ha']; subst. cbn [cint_mul_all_d].
    destruct (mul_row_d_spec x Hx data b 0 ltac:(lia) Hb Hd ltac:(pose proof B62_pos; lia)) as (row & -> & R1 & R2 & R3).
    cbn [obind]. destruct row as [|d data']; [rewrite Hl in R1; discriminate|].
    rewrite Hl in R1, R3. cbn [length] in R1, R3, Hla. injection R1 as R1. inversion R2 as [|? ? Hd1 Hd']; subst.
    destruct (IH data' R1 ltac:(lia) Ha' Hd') as (r & -> & S1 & S2 & q & S3). cbn [obind].
    eexists. split; [reflexivity|]. cbn [length ceval] in *. split; [now f_equal|]. split; [now constructor|].
    destruct R3 as [q' R3]. exists (q + q'). rewrite T_S in *. clear - R3 S3.
    replace (d + B62 * ceval r - (ceval data + (x + B62 * ceval a) * ceval b)) with
      (B62 * (ceval r - (ceval data' + ceval a * ceval b)) + (d + B62 * ceval data' - (ceval data + x * ceval b + 0))) by ring.
    rewrite S3, R3. ring.
Qed.
Theorem cint_mul_d_spec L a b v w : cin L a v -> cin L b w -> exists r, cint_mul_d a b = Some r /\ cin L r (v * w).
Proof.
  intros (La & Ca & Ea) (Lb & Cb & Eb). unfold cint_mul_d.
  destruct (mul_all_d_spec b Cb a (repeat 0 (length a))) as (r & E & R1 & R2 & q & R3);
    [apply repeat_length|lia|exact Ca|apply chunks_repeat0|].
  exists r. split; [exact E|]. split; [congruence|]. split; [exact R2|].
  rewrite ceval_repeat0, La in R3. pose proof (T_pos L) as HT.
  rewrite <- (Z.mod_small (ceval r) (T L)) by (rewrite <- La, <- R1; now apply ceval_bound).
  rewrite Zmult_mod, <- Ea, <- Eb. apply Zmod_eq_iff; [lia|]. exists q. lia.
Qed.
