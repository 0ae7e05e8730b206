(** Facts about the multi-chunk integers, the chunk conversion and the word
    inverse of Inverse.v. *)
From Verif Require Import Base Word Limbs SpecField LimbsFacts Field Inverse.

Lemma B62_pow : B62 = 2 ^ 62. Proof. reflexivity. Qed.
Lemma B62_W : 4 * B62 = W. Proof. reflexivity. Qed.
Lemma B62_pos : 0 < B62. Proof. reflexivity. Qed.
Lemma MASK62_ones : MASK62 = Z.ones 62. Proof. reflexivity. Qed.
Lemma half62 : Z.shiftr MASK62 1 = B62 / 2 - 1. Proof. reflexivity. Qed.
Lemma B62_even : B62 = 2 * (B62 / 2). Proof. reflexivity. Qed.
Lemma half62_pos : 1 < B62 / 2. Proof. reflexivity. Qed.
Global Opaque B62.

(** ** Wrap-around *)
Lemma swrap_id : forall m x, 0 < m -> - m <= x < m -> swrap m x = x.
Proof. intros m x Hm Hx. unfold swrap. rewrite Z.mod_small by lia. lia. Qed.
Lemma swrap_cong : forall m x, 0 < m -> (2 * m | swrap m x - x).
Proof.
  intros m x Hm. unfold swrap. exists (- ((x + m) / (2 * m))).
  pose proof (Z.div_mod (x + m) (2 * m) ltac:(lia)). lia.
Qed.
Definition H63 : Z := 9223372036854775808.
Lemma H63_B62 : H63 = 2 * B62. Proof. reflexivity. Qed.
Lemma i64w_id : forall x, - H63 <= x < H63 -> i64w x = x.
Proof. intros x Hx. apply swrap_id; [reflexivity|exact Hx]. Qed.
Lemma i64w_cong : forall x, (2 ^ 64 | i64w x - x).
Proof. intros x. exact (swrap_cong 9223372036854775808 x eq_refl). Qed.
Lemma i128w_cong : forall x, (2 ^ 128 | i128w x - x).
Proof. intros x. exact (swrap_cong 170141183460469231731687303715884105728 x eq_refl). Qed.
Lemma pow_divide : forall a b, 0 <= a <= b -> (2 ^ a | 2 ^ b).
Proof.
  intros a b H. exists (2 ^ (b - a)). rewrite <- Z.pow_add_r by lia. f_equal. lia.
Qed.
Lemma i64w_cong_le : forall k x, 0 <= k <= 64 -> (2 ^ k | i64w x - x).
Proof. intros k x Hk. eapply Z.divide_trans; [apply pow_divide, Hk|apply i64w_cong]. Qed.
Lemma i128w_cong_le : forall k x, 0 <= k <= 128 -> (2 ^ k | i128w x - x).
Proof. intros k x Hk. eapply Z.divide_trans; [apply pow_divide, Hk|apply i128w_cong]. Qed.

(** ** Chunk lists *)
Fixpoint ceval (l : list Z) : Z :=
  match l with [] => 0 | x :: l' => x + B62 * ceval l' end.
Definition chunks (l : list Z) : Prop := Forall (fun x => 0 <= x < B62) l.
Definition T (n : nat) : Z := B62 ^ Z.of_nat n.
Lemma T_0 : T 0 = 1. Proof. reflexivity. Qed.
Lemma T_S : forall n, T (S n) = B62 * T n.
Proof. intros n. unfold T. rewrite Nat2Z.inj_succ, Z.pow_succ_r by lia. reflexivity. Qed.
Lemma T_pos : forall n, 0 < T n.
Proof. intros n. apply Z.pow_pos_nonneg; [apply B62_pos|lia]. Qed.
Lemma T_pow : forall n, T n = 2 ^ (62 * Z.of_nat n).
Proof. intros n. unfold T. rewrite B62_pow, <- Z.pow_mul_r by lia. reflexivity. Qed.
Global Opaque T.

Lemma ceval_bound : forall l, chunks l -> 0 <= ceval l < T (length l).
Proof.
  induction l as [|x l IH]; intros H; cbn [ceval length].
  - rewrite T_0. lia.
  - inversion H as [|? ? Hx Hl]; subst. specialize (IH Hl). rewrite T_S.
    pose proof B62_pos. nia.
Qed.
Lemma ceval_inj : forall a b, length a = length b -> chunks a -> chunks b ->
  ceval a = ceval b -> a = b.
Proof.
  induction a as [|x a IH]; intros [|y b] Hl Ha Hb E; try discriminate; auto.
  inversion Ha as [|? ? Hx Ha']; inversion Hb as [|? ? Hy Hb']; subst.
  cbn [ceval] in E. injection Hl as Hl. pose proof B62_pos.
  assert (ceval a = ceval b) by nia.
  f_equal; [lia|]. now apply IH.
Qed.
Lemma ceval_app : forall a b, ceval (a ++ b) = ceval a + T (length a) * ceval b.
Proof.
  induction a as [|x a IH]; intros b; cbn [ceval app length].
  - rewrite T_0. lia.
  - rewrite IH, T_S. ring.
Qed.
Lemma ceval_repeat0 : forall n, ceval (repeat 0 n) = 0.
Proof. induction n as [|n IH]; cbn [repeat ceval]; [|rewrite IH]; lia. Qed.
Lemma chunks_repeat0 : forall n, chunks (repeat 0 n).
Proof. intros n. apply Forall_forall. intros x Hx. apply repeat_spec in Hx. pose proof B62_pos. lia. Qed.
Lemma MASK62_val : MASK62 = B62 - 1. Proof. reflexivity. Qed.
Lemma chunks_repeat_mask : forall n, chunks (repeat MASK62 n).
Proof. intros n. apply Forall_forall. intros x Hx. apply repeat_spec in Hx. rewrite MASK62_val in Hx. pose proof B62_pos. lia. Qed.
Lemma ceval_repeat_mask : forall n, ceval (repeat MASK62 n) = T n - 1.
Proof.
  induction n as [|n IH]; cbn [repeat ceval]; [rewrite T_0; reflexivity|].
  rewrite IH, MASK62_val, T_S. ring.
Qed.

Lemma land_mask62 : forall x, Z.land x MASK62 = x mod B62.
Proof. intros x. rewrite MASK62_ones, Z.land_ones, B62_pow by lia. reflexivity. Qed.
Lemma shiftr62 : forall x, Z.shiftr x 62 = x / B62.
Proof. intros x. rewrite Z.shiftr_div_pow2, B62_pow by lia. reflexivity. Qed.
Lemma lxor_ones : forall k x, 0 <= k -> 0 <= x < 2 ^ k -> Z.lxor x (Z.ones k) = 2 ^ k - 1 - x.
Proof.
  intros k x Hk Hx.
  assert (E : Z.lxor x (Z.ones k) + x = Z.ones k).
  { rewrite Z.add_nocarry_lxor; [rewrite Z.lxor_comm, <- Z.lxor_assoc, Z.lxor_nilpotent; apply Z.lxor_0_l|].
    apply Z.bits_inj'; intros i Hi. rewrite Z.land_spec, Z.lxor_spec, Z.bits_0.
    destruct (Z.ltb_spec i k).
    - rewrite Z.ones_spec_low by lia. destruct (Z.testbit x i); reflexivity.
    - rewrite <- (Z.mod_small x (2 ^ k)), Z.mod_pow2_bits_high by lia. now rewrite andb_false_r. }
  rewrite Z.ones_equiv in *. lia.
Qed.
Lemma lxor_mask62 : forall x, 0 <= x < B62 -> Z.lxor x MASK62 = B62 - 1 - x.
Proof. intros x Hx. rewrite MASK62_ones, lxor_ones, B62_pow; rewrite <- ?B62_pow; auto; lia. Qed.

(** ** Two's complement denotation *)
Definition cin (L : nat) (a : list Z) (v : Z) : Prop :=
  length a = L /\ chunks a /\ ceval a = v mod T L.

Lemma cin_ceval : forall L a, length a = L -> chunks a -> cin L a (ceval a).
Proof.
  intros L a H1 H2. repeat split; auto. rewrite Z.mod_small; auto. subst. now apply ceval_bound.
Qed.

Lemma add_loop_spec : forall a b c, length a = length b -> chunks a -> chunks b -> 0 <= c <= 1 ->
  length (cint_add_loop a b c) = length a /\ chunks (cint_add_loop a b c) /\
  ceval (cint_add_loop a b c) = (ceval a + ceval b + c) mod T (length a).
Proof.
  induction a as [|x a IH]; intros [|y b] c Hl Ha Hb Hc; try discriminate;
    cbn [cint_add_loop ceval length].
  - rewrite T_0, Z.mod_1_r. repeat split; auto; constructor.
  - inversion Ha as [|? ? Hx Ha']; inversion Hb as [|? ? Hy Hb']; subst. injection Hl as Hl.
    pose proof B62_pos as HB. pose proof B62_W.
    rewrite (Z.mod_small (x + y + c) W) by lia.
    rewrite land_mask62, shiftr62. set (s := x + y + c).
    assert (Hq : 0 <= s / B62 <= 1).
    { split; [apply Z.div_pos; lia|]. apply Z.lt_succ_r, Z.div_lt_upper_bound; lia. }
    destruct (IH b (s / B62) Hl Ha' Hb' Hq) as (I1 & I2 & I3).
    pose proof (Z.mod_pos_bound s B62 HB) as Hm.
    split; [now f_equal|]. split; [now constructor|].
    rewrite I3, T_S. pose proof (T_pos (length a)).
    replace (x + B62 * ceval a + (y + B62 * ceval b) + c)
      with (s mod B62 + (ceval a + ceval b + s / B62) * B62)
      by (pose proof (Z.div_mod s B62 ltac:(lia)); unfold s in *; lia).
    rewrite Z.rem_mul_r by lia.
    rewrite Z_mod_plus_full, Z.mod_mod, Z.div_add, (Z.div_small (s mod B62)) by lia. reflexivity.
Qed.

Lemma cin_add : forall L a b v w, cin L a v -> cin L b w -> cin L (cint_add a b) (v + w).
Proof.
  intros L a b v w (La & Ca & Ea) (Lb & Cb & Eb). unfold cint_add.
  destruct (add_loop_spec a b 0 ltac:(congruence) Ca Cb ltac:(lia)) as (A1 & A2 & A3).
  split; [congruence|]. split; auto. rewrite A3, La, Ea, Eb, Z.add_0_r.
  symmetry. apply Zplus_mod.
Qed.

Lemma neg_loop_spec : forall a c, chunks a -> 0 <= c <= 1 ->
  length (cint_neg_loop a c) = length a /\ chunks (cint_neg_loop a c) /\
  ceval (cint_neg_loop a c) = (- ceval a - 1 + c) mod T (length a).
Proof.
  induction a as [|x a IH]; intros c Ha Hc; cbn [cint_neg_loop ceval length].
  - rewrite T_0, Z.mod_1_r. repeat split; auto; constructor.
  - inversion Ha as [|? ? Hx Ha']; subst.
    pose proof B62_pos as HB. pose proof B62_W. rewrite lxor_mask62 by auto.
    rewrite (Z.mod_small (B62 - 1 - x + c) W) by lia.
    rewrite land_mask62, shiftr62. set (s := B62 - 1 - x + c).
    assert (Hq : 0 <= s / B62 <= 1).
    { split; [apply Z.div_pos; lia|]. apply Z.lt_succ_r, Z.div_lt_upper_bound; lia. }
    destruct (IH (s / B62) Ha' Hq) as (I1 & I2 & I3).
    pose proof (Z.mod_pos_bound s B62 HB) as Hm.
    split; [now f_equal|]. split; [now constructor|].
    rewrite I3, T_S. pose proof (T_pos (length a)).
    replace (- (x + B62 * ceval a) - 1 + c)
      with (s mod B62 + (- ceval a - 1 + s / B62) * B62)
      by (pose proof (Z.div_mod s B62 ltac:(lia)); unfold s in *; lia).
    rewrite Z.rem_mul_r by lia.
    rewrite Z_mod_plus_full, Z.mod_mod, Z.div_add, (Z.div_small (s mod B62)) by lia. reflexivity.
Qed.
Lemma cin_neg : forall L a v, cin L a v -> cin L (cint_neg a) (- v).
Proof.
  intros L a v (La & Ca & Ea). unfold cint_neg.
  destruct (neg_loop_spec a 1 Ca ltac:(lia)) as (A1 & A2 & A3).
  split; [congruence|]. split; auto. rewrite A3, La, Ea.
  replace (- (v mod T L) - 1 + 1) with (- (v mod T L)) by lia.
  apply Zmod_eq_iff; [pose proof (T_pos L); lia|].
  exists (v / T L). pose proof (Z.div_mod v (T L) ltac:(pose proof (T_pos L); lia)). lia.
Qed.

Lemma mul_loop_spec : forall (neg : bool) a k c, chunks a -> 0 <= k < H63 -> 0 <= c <= k ->
  let mask := if neg then MASK62 else 0 in
  let r := cint_mul_loop a k mask c in
  length r = length a /\ chunks r /\
  ceval r = (c + k * (if neg then T (length a) - 1 - ceval a else ceval a)) mod T (length a).
Proof.
  intros neg. induction a as [|x a IH]; intros k c Ha Hk Hc mask r; subst r; cbn [cint_mul_loop ceval length].
  - rewrite T_0, Z.mod_1_r. repeat split; auto; constructor.
  - inversion Ha as [|? ? Hx Ha']; subst.
    pose proof B62_pos as HB. pose proof B62_W as HBW. rewrite H63_B62 in Hk.
    set (y := Z.lxor x mask).
    assert (Ey : y = if neg then B62 - 1 - x else x).
    { unfold y, mask. destruct neg; [now apply lxor_mask62|apply Z.lxor_0_r]. }
    assert (Hy : 0 <= y < B62) by (rewrite Ey; destruct neg; lia).
    rewrite land_mask62, shiftr62. set (s := c + y * k).
    assert (Hs : 0 <= s) by (unfold s; nia).
    assert (Hq : 0 <= s / B62 <= k).
    { split; [apply Z.div_pos; lia|]. apply Z.div_le_upper_bound; [lia|]. unfold s. nia. }
    rewrite (Z.mod_small (s / B62) W) by lia.
    assert (E62 : (s mod W) mod B62 = s mod B62).
    { rewrite <- HBW, Z.mul_comm, Z.rem_mul_r by lia. rewrite Z.mul_comm, Z_mod_plus_full, Z.mod_mod by lia. reflexivity. }
    rewrite E62.
    destruct (IH k (s / B62) Ha' ltac:(rewrite H63_B62; lia) Hq) as (I1 & I2 & I3). fold mask in I1, I2, I3.
    pose proof (Z.mod_pos_bound s B62 HB) as Hm.
    split; [now f_equal|]. split; [now constructor|].
    rewrite I3, T_S. pose proof (T_pos (length a)).
    set (rest := if neg then T (length a) - 1 - ceval a else ceval a).
    replace (c + k * (if neg then B62 * T (length a) - 1 - (x + B62 * ceval a) else x + B62 * ceval a))
      with (s mod B62 + (s / B62 + k * rest) * B62)
      by (pose proof (Z.div_mod s B62 ltac:(lia)); unfold s, rest in *; rewrite Ey in *; destruct neg; lia).
    rewrite Z.rem_mul_r by lia.
    rewrite Z_mod_plus_full, Z.mod_mod, Z.div_add, (Z.div_small (s mod B62)) by lia. reflexivity.
Qed.
Lemma cin_mul : forall L a v k, cin L a v -> - H63 < k < H63 -> cin L (cint_mul_i64 a k) (k * v).
Proof.
  intros L a v k (La & Ca & Ea) Hk. unfold cint_mul_i64.
  pose proof (T_pos L) as HT. pose proof (Z.div_mod v (T L) ltac:(lia)) as Dv.
  destruct (Z.ltb_spec k 0) as [Hn|Hn].
  - rewrite i64w_id by lia. rewrite (Z.mod_small (- k) W) by (rewrite <- B62_W; rewrite H63_B62 in Hk; lia).
    destruct (mul_loop_spec true a (- k) (- k) Ca ltac:(lia) ltac:(lia)) as (A1 & A2 & A3).
    split; [congruence|]. split; auto. rewrite A3, La, Ea.
    apply Zmod_eq_iff; [lia|]. exists (- k - k * (v / T L)). rewrite Dv at 2. ring.
  - destruct (mul_loop_spec false a k 0 Ca ltac:(lia) ltac:(lia)) as (A1 & A2 & A3).
    split; [congruence|]. split; auto. rewrite A3, La, Ea.
    apply Zmod_eq_iff; [lia|]. exists (- (k * (v / T L))). rewrite Dv at 2. ring.
Qed.

Definition srange (L : nat) (v : Z) : Prop := - T L <= 2 * v < T L.
Lemma cin_srange_mod : forall L v, srange L v -> v mod T L = if v <? 0 then v + T L else v.
Proof.
  intros L v [H1 H2]. destruct (Z.ltb_spec v 0).
  - apply Zmod_unique_pos with (-1); lia.
  - apply Z.mod_small; lia.
Qed.
Lemma last_bound : forall a, a <> [] -> chunks a ->
  0 <= ceval a - T (length a - 1) * last a 0 < T (length a - 1).
Proof.
  induction a as [|x a IH]; intros Hn Ha; [congruence|].
  inversion Ha as [|? ? Hx Ha']; subst. destruct a as [|y a].
  - cbn [length last ceval Nat.sub]. rewrite T_0. lia.
  - specialize (IH ltac:(discriminate) Ha').
    replace (length (x :: y :: a) - 1)%nat with (S (length (y :: a) - 1)) by (cbn; lia).
    rewrite T_S. change (last (x :: y :: a) 0) with (last (y :: a) 0).
    change (ceval (x :: y :: a)) with (x + B62 * ceval (y :: a)). pose proof B62_pos.
    revert IH. generalize (ceval (y :: a)) (T (length (y :: a) - 1)) (last (y :: a) 0). intros. nia.
Qed.
Lemma cin_is_negative : forall L a v, (1 <= L)%nat -> cin L a v -> srange L v ->
  cint_is_negative a = (v <? 0).
Proof.
  intros L a v HL (La & Ca & Ea) Hr. rewrite cin_srange_mod in Ea by auto.
  assert (Hn : a <> []) by (destruct a; [cbn in La; lia|discriminate]).
  pose proof (last_bound a Hn Ca) as Hl. rewrite La in Hl.
  unfold cint_is_negative. rewrite half62.
  destruct L as [|n]; [lia|]. replace (S n - 1)%nat with n in Hl by lia.
  destruct Hr as [H1 H2]. rewrite T_S in *. pose proof (T_pos n) as HT. pose proof B62_even as HE.
  set (h := B62 / 2) in *. set (y := last a 0) in *. rewrite HE in *.
  destruct (Z.ltb_spec v 0); destruct (Z.ltb_spec (h - 1) y); auto; exfalso; nia.
Qed.
Lemma cin_lowest : forall L a v, (1 <= L)%nat -> cin L a v -> cint_lowest a = v mod B62.
Proof.
  intros L a v HL (La & Ca & Ea). destruct a as [|x a]; [cbn in La; lia|].
  cbn [cint_lowest hd]. inversion Ca as [|? ? Hx Ha']; subst. cbn [ceval length] in Ea.
  rewrite T_S in Ea. pose proof (T_pos (length a)). pose proof B62_pos.
  rewrite Z.rem_mul_r in Ea by lia.
  pose proof (Z.mod_pos_bound v B62 ltac:(lia)).
  assert (x mod B62 = v mod B62).
  { replace (v mod B62) with ((v mod B62 + B62 * (v / B62 mod T (length a))) mod B62).
    - rewrite <- Ea. now rewrite Z.mul_comm, Z_mod_plus_full.
    - rewrite Z.mul_comm, Z_mod_plus_full. apply Z.mod_mod. lia. }
  rewrite Z.mod_small in H2 by lia. auto.
Qed.
Lemma cin_shift : forall L a v, (1 <= L)%nat -> cin L a v -> srange L v ->
  cin L (cint_shift a) (v / B62) /\ srange L (v / B62).
Proof.
  intros L a v HL Hc Hr. pose proof (cin_is_negative L a v HL Hc Hr) as Hneg.
  unfold cint_shift. rewrite Hneg. destruct Hc as (La & Ca & Ea).
  destruct a as [|x a]; [cbn in La; lia|]. cbn [tl].
  inversion Ca as [|? ? Hx Ha']; subst. cbn [length]. rewrite cin_srange_mod in Ea by auto.
  cbn [length] in Hr, Ea. destruct Hr as [H1 H2]. rewrite T_S in *. cbn [ceval] in Ea.
  pose proof (T_pos (length a)) as HT. pose proof B62_pos as HB.
  assert (Hd : B62 * (v / B62) <= v < B62 * (v / B62) + B62).
  { pose proof (Z.div_mod v B62 ltac:(lia)). pose proof (Z.mod_pos_bound v B62 HB). lia. }
  assert (Hv : v / B62 = ceval a - if v <? 0 then T (length a) else 0).
  { symmetry. apply Z.div_unique with x; [lia|]. destruct (v <? 0); lia. }
  assert (Hsr : - (B62 * T (length a)) <= 2 * (v / B62) < B62 * T (length a)).
  { pose proof half62_pos. pose proof B62_even. split; nia. }
  split; [|unfold srange; rewrite T_S; exact Hsr].
  split; [rewrite app_length; cbn; lia|]. split.
  - apply Forall_app. split; auto. constructor; [|constructor].
    destruct (v <? 0); rewrite ?MASK62_val; lia.
  - rewrite ceval_app. cbn [ceval]. rewrite T_S.
    rewrite Hv. destruct (Z.ltb_spec v 0).
    + rewrite MASK62_val. pose proof (ceval_bound a Ha').
      symmetry. apply Zmod_unique_pos with (-1); [|ring].
      split; nia.
    + rewrite Z.sub_0_r, Z.mod_small; [ring|]. pose proof (ceval_bound a Ha'). nia.
Qed.
Lemma cint_eqb_spec : forall a b, cint_eqb a b = true <-> a = b.
Proof.
  induction a as [|x a IH]; intros [|y b]; cbn [cint_eqb]; split; intros H; try discriminate; auto.
  - apply andb_prop in H as [H1 H2]. apply Z.eqb_eq in H1. apply IH in H2. now subst.
  - injection H as -> ->. rewrite Z.eqb_refl. now apply IH.
Qed.
Lemma cin_eqb : forall L a b v w, cin L a v -> cin L b w -> srange L v -> srange L w ->
  cint_eqb a b = (v =? w).
Proof.
  intros L a b v w (La & Ca & Ea) (Lb & Cb & Eb) [R1 R2] [R3 R4].
  destruct (Z.eqb_spec v w) as [->|Hne].
  - apply cint_eqb_spec. apply ceval_inj; congruence.
  - destruct (cint_eqb a b) eqn:E; auto. apply cint_eqb_spec in E. subst b. exfalso. apply Hne.
    assert (E : v mod T L = w mod T L) by congruence.
    pose proof (T_pos L). apply Zmod_eq_iff in E; [|lia]. destruct E as [k Hk].
    assert (k = 0) by nia. lia.
Qed.
Lemma cin_zero : forall L, cin L (cint_zero L) 0.
Proof.
  intros L. split; [apply repeat_length|]. split; [apply chunks_repeat0|].
  unfold cint_zero. now rewrite ceval_repeat0, Z.mod_0_l by (pose proof (T_pos L); lia).
Qed.
Lemma cin_one : forall L, (1 <= L)%nat -> cin L (cint_one L) 1.
Proof.
  intros [|n] HL; [lia|]. unfold cint_one. cbn [firstn].
  assert (E : firstn n (repeat 0 (S n)) = repeat 0 n).
  { replace (S n) with (n + 1)%nat by lia. rewrite repeat_app, firstn_app, firstn_all2, repeat_length, Nat.sub_diag.
    - now rewrite firstn_O, app_nil_r.
    - rewrite repeat_length. lia. }
  rewrite E. pose proof (T_pos n). pose proof half62_pos. pose proof B62_even.
  split; [cbn; now rewrite repeat_length|].
  split; [constructor; [lia|apply chunks_repeat0]|].
  cbn [ceval]. rewrite ceval_repeat0, T_S, Z.mod_small; [lia|nia].
Qed.
Lemma cin_minus_one : forall L, cin L (cint_minus_one L) (-1).
Proof.
  intros L. split; [apply repeat_length|]. split; [apply chunks_repeat_mask|].
  unfold cint_minus_one. rewrite ceval_repeat_mask. pose proof (T_pos L).
  symmetry. apply Zmod_unique_pos with (-1); lia.
Qed.

(** ** Words modulo 2^5 *)
Lemma lxor_mod : forall a b k, 0 <= k -> Z.lxor a b mod 2 ^ k = Z.lxor (a mod 2 ^ k) (b mod 2 ^ k).
Proof.
  intros a b k Hk. apply Z.bits_inj'; intros i Hi.
  rewrite Z.lxor_spec. destruct (Z.ltb_spec i k).
  - rewrite !Z.mod_pow2_bits_low by lia. apply Z.lxor_spec.
  - rewrite !Z.mod_pow2_bits_high by lia. reflexivity.
Qed.
Lemma odd_mod32 : forall f, Z.odd f = true -> Z.odd (f mod 32) = true.
Proof.
  intros f H. rewrite (Z.div_mod f 32) in H by lia.
  replace (32 * (f / 32) + f mod 32) with (f mod 32 + 2 * (16 * (f / 32))) in H by lia.
  now rewrite Z.odd_add_mul_2 in H.
Qed.
Lemma odd_small_cases : forall P : Z -> bool,
  forallb P [1;3;5;7;9;11;13;15;17;19;21;23;25;27;29;31] = true ->
  forall r, 0 <= r < 32 -> Z.odd r = true -> P r = true.
Proof.
  intros P H r Hr Ho. rewrite forallb_forall in H. apply H.
  assert (E : r = 2 * (r / 2) + 1) by (rewrite (Zdiv2_odd_eqn r) at 1; rewrite Ho, Z.div2_div; reflexivity).
  set (q := r / 2) in *. assert (Hq : 0 <= q <= 15) by lia.
  assert (Hc : q = 0 \/ q = 1 \/ q = 2 \/ q = 3 \/ q = 4 \/ q = 5 \/ q = 6 \/ q = 7 \/ q = 8 \/ q = 9 \/
    q = 10 \/ q = 11 \/ q = 12 \/ q = 13 \/ q = 14 \/ q = 15) by lia.
  rewrite E. clear - Hc. cbn [In]. lia.
Qed.
Lemma neg_inv_32 : forall f f3, Z.odd f = true -> (32 | f3 - 3 * f) ->
  (32 | Z.lxor f3 28 * f + 1).
Proof.
  intros f f3 Ho Hd.
  apply Z.mod_divide; [lia|].
  rewrite Zplus_mod, Zmult_mod.
  replace (Z.lxor f3 28 mod 32) with (Z.lxor (f3 mod 32) (28 mod 32)) by (symmetry; apply (lxor_mod f3 28 5); lia).
  assert (E3 : f3 mod 32 = (3 * (f mod 32)) mod 32).
  { rewrite Zmult_mod_idemp_r. apply Zmod_eq_iff; [lia|auto]. }
  rewrite E3. apply odd_mod32 in Ho. pose proof (Z.mod_pos_bound f 32 ltac:(lia)) as Hr.
  revert Hr Ho. generalize (f mod 32). intros r Hr Ho. apply Z.eqb_eq.
  refine (odd_small_cases (fun r => (Z.lxor ((3 * r) mod 32) (28 mod 32) * r mod 32 + 1 mod 32) mod 32 =? 0) _ r Hr Ho).
  vm_compute; reflexivity.
Qed.
Lemma pos_inv_32 : forall v, Z.odd v = true -> (32 | Z.lxor ((v * 3) mod W) 2 * v - 1).
Proof.
  intros v Ho. apply Z.mod_divide; [lia|].
  rewrite Zminus_mod, Zmult_mod. set (v3 := (v * 3) mod W).
  replace (Z.lxor v3 2 mod 32) with (Z.lxor (v3 mod 32) (2 mod 32)) by (symmetry; apply (lxor_mod v3 2 5); lia).
  unfold v3.
  assert (E3 : ((v * 3) mod W) mod 32 = ((v mod 32) * 3) mod 32).
  { rewrite Zmult_mod_idemp_l. apply Zmod_eq_iff; [lia|].
    exists (- ((v * 3) / W * (W / 32))). pose proof (Z.div_mod (v * 3) W ltac:(pose proof W_pos; lia)).
    assert (W = 32 * (W / 32)) by (rewrite W_val; reflexivity). lia. }
  rewrite E3. apply odd_mod32 in Ho. pose proof (Z.mod_pos_bound v 32 ltac:(lia)) as Hr.
  revert Hr Ho. generalize (v mod 32). intros r Hr Ho. apply Z.eqb_eq.
  refine (odd_small_cases (fun r => (Z.lxor ((r * 3) mod 32) (2 mod 32) * r mod 32 - 1 mod 32) mod 32 =? 0) _ r Hr Ho).
  vm_compute; reflexivity.
Qed.

(** ** [inv] *)
Lemma modW_cong : forall x, (W | x mod W - x).
Proof. intros x. exists (- (x / W)). pose proof (Z.div_mod x W ltac:(pose proof W_pos; lia)). lia. Qed.
Lemma by_inv_step_spec : forall v x y k, (W | x * v - (1 - y)) -> (k | y) -> (k | W) ->
  let '(x', y') := by_inv_step (x, y) in
  (W | x' * v - (1 - y')) /\ (exists z, (W | y' - k * k * z)).
Proof.
  intros v x y k [a Ha] [b Hb] Hk. unfold by_inv_step.
  destruct (modW_cong (y + 1)) as [u1 U1].
  set (y1 := (y + 1) mod W) in *.
  destruct (modW_cong (x * y1)) as [u2 U2].
  destruct (modW_cong (y * y)) as [u3 U3]. split.
  - set (x2 := (x * y1) mod W) in *. set (y2 := (y * y) mod W) in *.
    exists (u2 * v + u1 * x * v + a * (1 + y) + u3).
    replace x2 with (x * y1 + u2 * W) by lia. replace y1 with (y + 1 + u1 * W) by lia.
    replace y2 with (y * y + u3 * W) by lia.
    replace (x * v) with (1 - y + a * W) by lia.
    replace ((x * (y + 1 + u1 * W) + u2 * W) * v) with ((x * v) * (y + 1 + u1 * W) + u2 * W * v) by ring.
    replace ((u2 * v + u1 * x * v + a * (1 + y) + u3) * W) with ((u2 * v + u1 * (x * v) + a * (1 + y) + u3) * W) by ring.
    replace (x * v) with (1 - y + a * W) by lia. ring.
  - exists (b * b). exists u3. subst y. lia.
Qed.
Lemma by_inv_spec : forall v, Z.odd v = true ->
  0 <= by_inv v < B62 /\ (B62 | by_inv v * v - 1).
Proof.
  intros v Ho. unfold by_inv.
  set (x := Z.lxor ((v * 3) mod W) 2). set (y := (1 - (x * v) mod W) mod W).
  assert (H0 : (W | x * v - (1 - y))).
  { destruct (modW_cong (x * v)) as [a Ha]. destruct (modW_cong (1 - (x * v) mod W)) as [b Hb]. fold y in Hb.
    exists (b - a). lia. }
  assert (H32 : (32 | W)) by (exists (W / 32); rewrite W_val; reflexivity).
  assert (Hy : (32 | y)).
  { destruct (pos_inv_32 v Ho) as [a Ha]. fold x in Ha. destruct H0 as [b Hb]. destruct H32 as [w Hw].
    exists (b * w - a). rewrite Hw in Hb. lia. }
  pose proof (by_inv_step_spec v x y 32 H0 Hy H32) as S1.
  destruct (by_inv_step (x, y)) as [x1 y1]. destruct S1 as [S1 [z1 T1]].
  assert (D1 : (1024 | W)) by (exists (W / 1024); rewrite W_val; reflexivity).
  assert (Hy1 : (1024 | y1)).
  { destruct T1 as [q Hq]. destruct D1 as [w Hw]. exists (q * w + z1). rewrite Hw in Hq. lia. }
  pose proof (by_inv_step_spec v x1 y1 1024 S1 Hy1 D1) as S2.
  destruct (by_inv_step (x1, y1)) as [x2 y2]. destruct S2 as [S2 [z2 T2]].
  assert (D2 : (1048576 | W)) by (exists (W / 1048576); rewrite W_val; reflexivity).
  assert (Hy2 : (1048576 | y2)).
  { destruct T2 as [q Hq]. destruct D2 as [w Hw]. exists (q * w + z2). rewrite Hw in Hq. lia. }
  pose proof (by_inv_step_spec v x2 y2 1048576 S2 Hy2 D2) as S3.
  destruct (by_inv_step (x2, y2)) as [x3 y3]. destruct S3 as [S3 [z3 T3]].
  assert (D3 : (1099511627776 | W)) by (exists (W / 1099511627776); rewrite W_val; reflexivity).
  assert (Hy3 : (1099511627776 | y3)).
  { destruct T3 as [q Hq]. destruct D3 as [w Hw]. exists (q * w + z3). rewrite Hw in Hq. lia. }
  pose proof (by_inv_step_spec v x3 y3 1099511627776 S3 Hy3 D3) as S4.
  unfold by_inv_step in S4. destruct S4 as [S4 [z4 T4]].
  rewrite land_mask62. set (x4 := (x3 * ((y3 + 1) mod W)) mod W) in *.
  pose proof B62_pos as HB. split; [now apply Z.mod_pos_bound|].
  assert (E : (W | x4 * v - 1)).
  { destruct S4 as [a Ha]. destruct T4 as [b Hb].
    exists (a - b - 65536 * z4). rewrite W_val in *. lia. }
  destruct E as [a Ha]. exists (a * 4 - x4 / B62 * v).
  pose proof (Z.div_mod x4 B62 ltac:(lia)) as D. pose proof B62_W as HW. rewrite <- HW in Ha.
  replace (x4 mod B62) with (x4 - B62 * (x4 / B62)) by lia. lia.
Qed.
