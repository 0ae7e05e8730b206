(** Facts about the limb model: every chain computes the exact integer it is
    meant to compute. *)
From Verif Require Import Base Word Limbs SpecField.

Lemma W_pos : 0 < W. Proof. reflexivity. Qed.
Global Hint Resolve W_pos : core.
Global Opaque W.
Lemma W_val : W = 18446744073709551616. Proof. reflexivity. Qed.
Lemma W_pow : W = 2 ^ 64. Proof. reflexivity. Qed.

Notation Wn n := (W ^ Z.of_nat n).

Lemma Wn_pos : forall n, 0 < Wn n.
Proof. intro n. apply Z.pow_pos_nonneg; [apply W_pos|lia]. Qed.
Lemma Wn_S : forall n, Wn (S n) = W * Wn n.
Proof. intro n. rewrite Nat2Z.inj_succ, Z.pow_succ_r by lia. reflexivity. Qed.
Lemma Wn_0 : Wn 0 = 1. Proof. reflexivity. Qed.

Lemma eval_app : forall a b, eval (a ++ b) = eval a + Wn (length a) * eval b.
Proof.
  induction a as [|x a IH]; intro b; cbn [eval app length].
  - rewrite Wn_0. lia.
  - rewrite IH, Wn_S. ring.
Qed.

Lemma words_nil : words []. Proof. constructor. Qed.
Lemma words_cons : forall x l, words (x :: l) <-> 0 <= x < W /\ words l.
Proof. intros; split; [now inversion 1|intros []; now constructor]. Qed.
Lemma words_app : forall a b, words (a ++ b) <-> words a /\ words b.
Proof. intros; apply Forall_app. Qed.

Lemma eval_bound : forall l, words l -> 0 <= eval l < Wn (length l).
Proof.
  induction l as [|x l IH]; intro H; cbn [eval length].
  - rewrite Wn_0; lia.
  - apply words_cons in H as [Hx Hl]. specialize (IH Hl). rewrite Wn_S. nia.
Qed.

Lemma eval_inj : forall a b, length a = length b -> words a -> words b ->
  eval a = eval b -> a = b.
Proof.
  induction a as [|x a IH]; intros [|y b] HL Ha Hb E; try discriminate; auto.
  apply words_cons in Ha as [Hx Ha]. apply words_cons in Hb as [Hy Hb].
  cbn [eval length] in *. injection HL as HL.
  assert (x = y /\ eval a = eval b) as [-> E2].
  { pose proof W_pos. assert (eval a = eval b) by nia. split; [nia|auto]. }
  f_equal. auto.
Qed.

Lemma eval_repeat0 : forall n, eval (repeat 0 n) = 0.
Proof. induction n; cbn [repeat eval]; lia. Qed.
Lemma words_repeat0 : forall n, words (repeat 0 n).
Proof. induction n; cbn [repeat]; [constructor|apply words_cons; pose proof W_pos; split; [lia|auto]]. Qed.

(** * Word primitives *)
Lemma adc_spec : forall a b c d c', adc a b c = (d, c') ->
  0 <= a < W -> 0 <= b < W -> 0 <= c < W ->
  d + W * c' = a + b + c /\ 0 <= d < W /\ 0 <= c' /\ W * c' <= a + b + c.
Proof.
  unfold adc; intros a b c d c' E Ha Hb Hc; injection E as <- <-.
  pose proof (Z.div_mod (a+b+c) W). pose proof (Z.mod_pos_bound (a+b+c) W W_pos).
  pose proof (Z.div_pos (a+b+c) W). lia.
Qed.

Lemma mac_spec : forall a b c k d c', mac a b c k = (d, c') ->
  0 <= a < W -> 0 <= b < W -> 0 <= c < W -> 0 <= k < W ->
  d + W * c' = a + b * c + k /\ 0 <= d < W /\ 0 <= c' < W.
Proof.
  unfold mac; intros a b c k d c' E Ha Hb Hc Hk; injection E as <- <-.
  pose proof (Z.div_mod (a+b*c+k) W). pose proof (Z.mod_pos_bound (a+b*c+k) W W_pos).
  assert (0 <= a + b*c+k < W*W) by nia.
  pose proof (Z.div_pos (a+b*c+k) W).
  pose proof (Z.div_lt_upper_bound (a+b*c+k) W W). lia.
Qed.

(** A borrow word is 0 or all ones. *)
Definition is_borrow (b : Z) (v : Z) : Prop := (b = 0 /\ v = 0) \/ (b = W - 1 /\ v = 1).

Lemma borrow_shift : forall b v, is_borrow b v -> Z.shiftr b 63 = v.
Proof. intros b v [[-> ->]|[-> ->]]; reflexivity. Qed.

Lemma sbb_spec : forall a b c vc d c', sbb a b c = (d, c') ->
  0 <= a < W -> 0 <= b < W -> is_borrow c vc ->
  exists v, is_borrow c' v /\ d - W * v = a - b - vc /\ 0 <= d < W.
Proof.
  unfold sbb; intros a b c vc d c' E Ha Hb Hc. rewrite (borrow_shift _ _ Hc) in E.
  injection E as <- <-.
  assert (0 <= vc <= 1) by (destruct Hc as [[_ ->]|[_ ->]]; lia).
  pose proof W_pos.
  destruct (Z_lt_dec (a - (b + vc)) 0) as [L|L].
  - exists 1.
    replace ((a - (b + vc)) mod (W*W)) with ((W - 1) * W + (W + (a - (b+vc)))).
    2:{ symmetry. apply Zmod_unique_pos with (-1); nia. }
    rewrite Z.add_comm, Z_mod_plus_full, Z_div_plus_full by lia.
    rewrite Z.div_small, Z.mod_small by lia. split; [right; lia|lia].
  - exists 0. rewrite (Z.mod_small _ (W*W)) by nia.
    rewrite Z.div_small, Z.mod_small by lia. split; [left; lia|lia].
Qed.

(** * Chains *)
Lemma adc_list_spec : forall a b c r c', adc_list a b c = (r, c') ->
  length a = length b -> words a -> words b -> 0 <= c <= 1 ->
  eval r + Wn (length a) * c' = eval a + eval b + c
  /\ words r /\ length r = length a /\ 0 <= c' <= 1.
Proof.
  induction a as [|x a IH]; intros [|y b] c r c' E HL Ha Hb Hc; try discriminate.
  - cbn in E. injection E as <- <-. cbn [length eval]. rewrite Wn_0.
    repeat split; try lia; try constructor.
  - apply words_cons in Ha as [Hx Ha]. apply words_cons in Hb as [Hy Hb].
    cbn [adc_list] in E. destruct (adc x y c) as [d c1] eqn:E1.
    destruct (adc_list a b c1) as [r1 c2] eqn:E2. injection E as <- <-.
    injection HL as HL. pose proof W_pos. rewrite W_val in *.
    rewrite <- W_val in *.
    assert (2 <= W) by (rewrite W_val; lia).
    apply adc_spec in E1; try lia. destruct E1 as (Q1 & Q2 & Q3 & Q4).
    assert (c1 <= 1) by nia.
    apply IH in E2; auto; try lia. destruct E2 as (R1 & R2 & R3 & R4).
    cbn [eval length]. rewrite Wn_S. repeat split; try lia.
    apply words_cons; auto.
Qed.

Lemma sbb_list_spec : forall a b c vc r c', sbb_list a b c = (r, c') ->
  length a = length b -> words a -> words b -> is_borrow c vc ->
  exists v, is_borrow c' v /\
  eval r - Wn (length a) * v = eval a - eval b - vc
  /\ words r /\ length r = length a.
Proof.
  induction a as [|x a IH]; intros [|y b] c vc r c' E HL Ha Hb Hc; try discriminate.
  - cbn in E. injection E as <- <-. exists vc. cbn [length eval]. rewrite Wn_0.
    repeat split; try lia; auto; try constructor.
  - apply words_cons in Ha as [Hx Ha]. apply words_cons in Hb as [Hy Hb].
    cbn [sbb_list] in E. destruct (sbb x y c) as [d c1] eqn:E1.
    destruct (sbb_list a b c1) as [r1 c2] eqn:E2. injection E as <- <-.
    injection HL as HL.
    apply sbb_spec with (vc := vc) in E1; try lia; auto.
    destruct E1 as (v1 & Q1 & Q2 & Q3).
    apply IH with (vc := v1) in E2; auto. destruct E2 as (v2 & R1 & R2 & R3 & R4).
    exists v2. cbn [eval length]. rewrite Wn_S. repeat split; try nia; auto.
    apply words_cons; auto.
Qed.

Lemma mac_row_spec : forall w x b c r c', mac_row w x b c = (r, c') ->
  length w = length b -> words w -> words b -> 0 <= x < W -> 0 <= c < W ->
  eval r + Wn (length b) * c' = eval w + x * eval b + c
  /\ words r /\ length r = length b /\ 0 <= c' < W.
Proof.
  induction w as [|u w IH]; intros x [|y b] c r c' E HL Hw Hb Hx Hc; try discriminate.
  - cbn in E. injection E as <- <-. cbn [length eval]. rewrite Wn_0.
    repeat split; try lia; try constructor.
  - apply words_cons in Hw as [Hu Hw]. apply words_cons in Hb as [Hy Hb].
    cbn [mac_row] in E. destruct (mac u x y c) as [d c1] eqn:E1.
    destruct (mac_row w x b c1) as [r1 c2] eqn:E2. injection E as <- <-.
    injection HL as HL.
    apply mac_spec in E1; auto. destruct E1 as (Q1 & Q2 & Q3).
    apply IH in E2; auto. destruct E2 as (R1 & R2 & R3 & R4).
    cbn [eval length]. rewrite Wn_S. repeat split; try lia.
    apply words_cons; auto.
Qed.

(** * Masks *)
Lemma land_ones_word : forall x, 0 <= x < W -> Z.land x (W - 1) = x.
Proof.
  intros x Hx. replace (W - 1) with (Z.ones 64) by reflexivity.
  rewrite Z.land_ones by lia. rewrite <- W_pow. apply Z.mod_small; auto.
Qed.

Lemma mask_list_spec : forall m b v, words m -> is_borrow b v ->
  words (mask_list m b) /\ length (mask_list m b) = length m /\
  eval (mask_list m b) = v * eval m.
Proof.
  unfold mask_list. intros m b v Hm Hb.
  induction m as [|x m IH]; cbn [map eval length].
  - repeat split; try lia; try constructor.
  - apply words_cons in Hm as [Hx Hm]. destruct (IH Hm) as (I1 & I2 & I3).
    rewrite I2, I3. pose proof W_pos.
    destruct Hb as [[-> ->]|[-> ->]].
    + rewrite Z.land_0_r. repeat split; try lia. apply words_cons. split; [lia|auto].
    + rewrite land_ones_word by auto. repeat split; try lia. apply words_cons. auto.
Qed.

(** * Reductions *)
Lemma reduce_once_spec : forall m d carry,
  length d = length m -> words d -> words m -> 0 <= carry <= 1 ->
  eval d + Wn (length m) * carry < 2 * eval m ->
  let r := reduce_once m d carry in
  let v := eval d + Wn (length m) * carry in
  canonical (length m) (eval m) r /\ eval r = if v <? eval m then v else v - eval m.
Proof.
  intros m d carry HL Hd Hm Hc Hlt. cbn zeta. unfold reduce_once.
  destruct (sbb_list d m 0) as [d1 b1] eqn:E1.
  apply sbb_list_spec with (vc := 0) in E1; auto; [|left; auto].
  destruct E1 as (v1 & B1 & Q1 & Q2 & Q3).
  destruct (sbb carry 0 b1) as [x b2] eqn:E2.
  assert (2 <= W) by (rewrite W_val; lia).
  apply sbb_spec with (vc := v1) in E2; try lia; auto.
  destruct E2 as (v2 & B2 & Q4 & Q5).
  destruct (mask_list_spec m b2 v2 Hm B2) as (M1 & M2 & M3).
  destruct (adc_list d1 (mask_list m b2) 0) as [r c] eqn:E3. cbn [fst].
  apply adc_list_spec in E3; auto; try lia.
  destruct E3 as (R1 & R2 & R3 & R4).
  rewrite HL in *. rewrite Q3 in *.
  pose proof (eval_bound _ Hd). pose proof (eval_bound _ Hm).
  pose proof (eval_bound _ R2). pose proof (eval_bound _ Q2).
  rewrite HL, R3, Q3 in *.
  assert (v1 = 0 \/ v1 = 1) by (destruct B1 as [[_ ->]|[_ ->]]; auto).
  assert (v2 = 0 \/ v2 = 1) by (destruct B2 as [[_ ->]|[_ ->]]; auto).
  set (P := eval m) in *. set (N := Wn (length m)) in *.
  destruct (Z.ltb_spec (eval d + N * carry) P) as [L|L].
  - assert (v1 = 1 /\ carry = 0) as [-> ->] by nia.
    assert (v2 = 1) as -> by nia.
    assert (c = 1) as -> by nia.
    unfold canonical. repeat split; auto; try lia.
  - assert (v2 = 0) as -> by nia.
    assert (c = 0) as -> by nia.
    assert (carry = v1) by nia.
    unfold canonical. repeat split; auto; try nia.
Qed.

Lemma limbs_add_spec : forall m a b, words m ->
  canonical (length m) (eval m) a -> canonical (length m) (eval m) b ->
  canonical (length m) (eval m) (limbs_add m a b) /\
  eval (limbs_add m a b) = (eval a + eval b) mod eval m.
Proof.
  intros m a b Hm (La & Wa & Va) (Lb & Wb & Vb). unfold limbs_add.
  destruct (adc_list a b 0) as [d c] eqn:E.
  apply adc_list_spec in E; auto; try lia. destruct E as (Q1 & Q2 & Q3 & Q4).
  rewrite La in *.
  pose proof (eval_bound _ Wa). pose proof (eval_bound _ Wb).
  destruct (reduce_once_spec m d c) as [R1 R2]; auto; try lia.
  split; auto. rewrite R2, Q1, Z.add_0_r.
  destruct (Z.ltb_spec (eval a + eval b) (eval m)).
  - rewrite Z.mod_small; lia.
  - symmetry. apply Zmod_unique_pos with 1; lia.
Qed.

Lemma limbs_sub_gen : forall m a b, words m -> length a = length m -> words a ->
  length b = length m -> words b ->
  - eval m <= eval a - eval b < eval m ->
  canonical (length m) (eval m) (limbs_sub m a b) /\
  eval (limbs_sub m a b) = (eval a - eval b) mod eval m.
Proof.
  intros m a b Hm La Wa Lb Wb Hr. unfold limbs_sub.
  destruct (sbb_list a b 0) as [d b1] eqn:E.
  apply sbb_list_spec with (vc := 0) in E; auto; try lia; [|left; auto].
  destruct E as (v & B & Q1 & Q2 & Q3).
  destruct (mask_list_spec m b1 v Hm B) as (M1 & M2 & M3).
  destruct (adc_list d (mask_list m b1) 0) as [r c] eqn:E3. cbn [fst].
  apply adc_list_spec in E3; auto; try lia.
  destruct E3 as (R1 & R2 & R3 & R4). rewrite La in *. rewrite Q3 in *.
  pose proof (eval_bound _ Wa). pose proof (eval_bound _ Wb).
  pose proof (eval_bound _ Hm). pose proof (eval_bound _ R2). pose proof (eval_bound _ Q2).
  rewrite La, Lb, R3, Q3 in *.
  set (P := eval m) in *. set (N := Wn (length m)) in *.
  destruct B as [[_ ->]|[_ ->]].
  - assert (c = 0) as -> by nia. unfold canonical. repeat split; auto; try lia.
    symmetry. rewrite Z.mod_small; lia.
  - assert (eval a - eval b < 0) by lia.
    assert (c = 1) as -> by nia. unfold canonical. repeat split; auto; try lia.
    symmetry. apply Zmod_unique_pos with (-1); lia.
Qed.

Lemma limbs_sub_spec : forall m a b, words m ->
  canonical (length m) (eval m) a -> canonical (length m) (eval m) b ->
  canonical (length m) (eval m) (limbs_sub m a b) /\
  eval (limbs_sub m a b) = (eval a - eval b) mod eval m.
Proof.
  intros m a b Hm (La & Wa & Va) (Lb & Wb & Vb).
  pose proof (eval_bound _ Wa). pose proof (eval_bound _ Wb).
  apply limbs_sub_gen; auto; lia.
Qed.

Lemma fold_lor_zero : forall a acc, words a -> 0 <= acc ->
  (fold_left Z.lor a acc = 0 <-> acc = 0 /\ eval a = 0).
Proof.
  induction a as [|x a IH]; intros acc Ha Hacc; cbn [fold_left eval].
  - intuition.
  - apply words_cons in Ha as [Hx Ha]. rewrite IH by (auto; apply Z.lor_nonneg; lia).
    rewrite Z.lor_eq_0_iff. pose proof (eval_bound _ Ha). pose proof W_pos. intuition nia.
Qed.

Lemma words_map_mask : forall l v, words l -> v = 0 \/ v = 1 ->
  map (fun x => Z.land x ((1 - v - 1) mod W)) l = map (fun x => v * x) l.
Proof.
  intros l v Hl Hv. apply map_ext_in. intros x Hx.
  unfold words in Hl. rewrite Forall_forall in Hl. specialize (Hl x Hx).
  destruct Hv as [-> | ->].
  - replace ((1 - 0 - 1) mod W) with 0 by reflexivity. now rewrite Z.land_0_r.
  - replace ((1 - 1 - 1) mod W) with (W - 1) by reflexivity.
    rewrite land_ones_word; auto; lia.
Qed.

Lemma map_mul_zero_words : forall l, words (map (fun x => 0 * x) l) /\ eval (map (fun x => 0 * x) l) = 0.
Proof.
  induction l as [|x l [I1 I2]]; cbn [map eval]; split; try lia.
  - constructor.
  - apply words_cons. pose proof W_pos. split; [lia|auto].
Qed.

Lemma limbs_neg_spec : forall m a, words m -> 0 < eval m ->
  canonical (length m) (eval m) a ->
  canonical (length m) (eval m) (limbs_neg m a) /\
  eval (limbs_neg m a) = (- eval a) mod eval m.
Proof.
  intros m a Hm Hp (La & Wa & Va). unfold limbs_neg.
  destruct (sbb_list m a 0) as [d b1] eqn:E.
  apply sbb_list_spec with (vc := 0) in E; auto; try lia; [|left; auto].
  destruct E as (v & B & Q1 & Q2 & Q3).
  pose proof (eval_bound _ Wa). pose proof (eval_bound _ Hm). pose proof (eval_bound _ Q2).
  rewrite La, Q3 in *.
  assert (v = 0) as ->.
  { destruct B as [[_ ->]|[_ ->]]; auto. nia. }
  pose proof (fold_lor_zero a 0 Wa ltac:(lia)) as Hz.
  destruct (Z.eqb_spec (fold_left Z.lor a 0) 0) as [Z0|Z0].
  - apply Hz in Z0 as [_ Z0].
    replace (1 - 1) with (1 - 0 - 1) by lia. rewrite words_map_mask by auto.
    destruct (map_mul_zero_words d) as [I1 I2].
    unfold canonical. rewrite map_length, I2, Z0. repeat split; auto; try lia.
  - assert (eval a <> 0) by (intro; apply Z0; apply Hz; auto).
    replace (0 - 1) with (1 - 1 - 1) by lia. rewrite words_map_mask by auto.
    replace (map (fun x => 1 * x) d) with d.
    2:{ symmetry. rewrite <- (map_id d) at 2. apply map_ext. intro; lia. }
    unfold canonical. repeat split; auto; try lia.
    symmetry. apply Zmod_unique_pos with (-1); lia.
Qed.

(** * Wide products *)
Lemma mul_rows_spec : forall a b w, b <> [] -> length w = length b ->
  words a -> words b -> words w ->
  eval (mul_rows a b w) = eval a * eval b + eval w /\
  words (mul_rows a b w) /\ length (mul_rows a b w) = (length a + length b)%nat.
Proof.
  induction a as [|x a IH]; intros b w Hb0 HL Ha Hb Hw; cbn [mul_rows eval length].
  - repeat split; auto; lia.
  - apply words_cons in Ha as [Hx Ha].
    destruct (mac_row w x b 0) as [w1 c] eqn:E.
    pose proof W_pos.
    apply mac_row_spec in E; auto; try lia.
    destruct E as (Q1 & Q2 & Q3 & Q4).
    destruct w1 as [|r0 t]. { destruct b; [contradiction|discriminate]. }
    apply words_cons in Q2 as [Hr0 Ht].
    destruct (IH b (t ++ [c])) as (I1 & I2 & I3); auto.
    { rewrite app_length. cbn [length] in *. lia. }
    { apply words_app. split; auto. apply words_cons. split; [lia|constructor]. }
    cbn [eval length] in *. rewrite I1, I3, eval_app. cbn [eval].
    rewrite <- Q3, Wn_S in Q1. repeat split; try nia.
    apply words_cons; auto.
Qed.

Lemma mul_wide_spec : forall a b, b <> [] -> words a -> words b ->
  eval (mul_wide a b) = eval a * eval b /\ words (mul_wide a b) /\
  length (mul_wide a b) = (length a + length b)%nat.
Proof.
  intros a b Hb0 Ha Hb. unfold mul_wide.
  destruct (mul_rows_spec a b (repeat 0 (length b))) as (I1 & I2 & I3); auto.
  - apply repeat_length.
  - apply words_repeat0.
  - rewrite eval_repeat0 in I1. repeat split; auto; lia.
Qed.

(** Sum over i<j of a_i a_j W^(i+j-1): the cross products, divided by W. *)
Fixpoint cross (a : list Z) : Z :=
  match a with
  | [] => 0
  | x :: a' => x * eval a' + W * W * cross a'
  end.
Fixpoint diag (a : list Z) : Z :=
  match a with
  | [] => 0
  | x :: a' => x * x + W * W * diag a'
  end.
Lemma square_split : forall a, eval a * eval a = 2 * W * cross a + diag a.
Proof.
  induction a as [|x a IH]; cbn [eval cross diag]; [ring|].
  replace ((x + W * eval a) * (x + W * eval a))
    with (x*x + 2*W*x*eval a + W*W*(eval a * eval a)) by ring.
  rewrite IH. ring.
Qed.

Lemma sq_cross_spec : forall a w, words a -> words w -> length w = (length a - 1)%nat ->
  eval (sq_cross a w) = cross a + eval w /\ words (sq_cross a w) /\
  length (sq_cross a w) = (2 * (length a - 1))%nat.
Proof.
  induction a as [|x a IH]; intros w Ha Hw HL.
  - destruct w; [|discriminate]. cbn. repeat split; auto; try lia; try constructor.
  - destruct a as [|y a].
    + destruct w; [|discriminate]. cbn. repeat split; try lia; try constructor.
    + apply words_cons in Ha as [Hx Ha].
      change (sq_cross (x :: y :: a) w) with
        (let '(w1, c) := mac_row w x (y :: a) 0 in
          match w1 ++ [c] with
          | r1 :: r2 :: t => r1 :: r2 :: sq_cross (y :: a) t
          | _ => []
          end).
      destruct (mac_row w x (y :: a) 0) as [w1 c] eqn:E.
      pose proof W_pos.
      cbn [length] in HL.
      apply mac_row_spec in E; auto; try (cbn [length]; lia).
      destruct E as (Q1 & Q2 & Q3 & Q4).
      assert (V : eval (w1 ++ [c]) = eval w + x * eval (y :: a)).
      { rewrite eval_app, Q3. cbn [eval]. cbn [eval] in Q1. lia. }
      assert (WW : words (w1 ++ [c])).
      { apply words_app. split; auto. apply words_cons. split; [lia|constructor]. }
      assert (LL : length (w1 ++ [c]) = S (S (length a))).
      { rewrite app_length, Q3. cbn. lia. }
      destruct (w1 ++ [c]) as [|r1 [|r2 t]] eqn:F; try discriminate.
      apply words_cons in WW as [H1 WW]. apply words_cons in WW as [H2 WW].
      destruct (IH t) as (I1 & I2 & I3); auto.
      { cbn [length] in *. lia. }
      change (cross (x :: y :: a)) with (x * eval (y :: a) + W * W * cross (y :: a)).
      cbn [eval] in V |- *. rewrite I1. cbn [length] in *. rewrite I3.
      repeat split; try nia.
      apply words_cons; split; auto. apply words_cons; auto.
Qed.

Lemma lor_disjoint_add : forall a b, Z.land a b = 0 -> a + b = Z.lor a b.
Proof. intros a b H. rewrite <- Z.lxor_lor by auto. now apply Z.add_nocarry_lxor. Qed.

Lemma shl1_limb : forall r prev, 0 <= r < W -> 0 <= prev < W ->
  Z.lor ((Z.shiftl r 1) mod W) (Z.shiftr prev 63) = (2 * r) mod W + prev / 2 ^ 63.
Proof.
  intros r prev Hr Hp.
  rewrite Z.shiftl_mul_pow2, Z.shiftr_div_pow2 by lia.
  replace (r * 2 ^ 1) with (2 * r) by lia.
  rewrite W_pow in *.
  assert (0 <= prev / 2 ^ 63 <= 1).
  { split; [apply Z.div_pos; lia|].
    assert (prev / 2^63 < 2) by (apply Z.div_lt_upper_bound; lia). lia. }
  assert (Hm : (2 * r) mod 2^64 = 2 * (r mod 2^63)).
  { replace (2^64) with (2 * 2^63) by lia. rewrite Z.mul_mod_distr_l; lia. }
  rewrite Hm.
  symmetry. apply lor_disjoint_add.
  apply Z.bits_inj'. intros k Hk. rewrite Z.land_spec, Z.bits_0.
  destruct (Z.eq_dec k 0) as [->|Hk0].
  - rewrite Z.testbit_even_0. reflexivity.
  - rewrite (Z.bits_above_log2 (prev / 2^63)); [apply andb_false_r|lia|].
    assert (prev / 2^63 = 0 \/ prev / 2^63 = 1) as [-> | ->] by lia; cbn; lia.
Qed.

Lemma shl1_spec : forall l prev, words l -> 0 <= prev < W ->
  eval (shl1 prev l) = 2 * eval l + prev / 2 ^ 63 /\ words (shl1 prev l) /\
  length (shl1 prev l) = S (length l).
Proof.
  assert (Hhi : forall x, 0 <= x < W -> 0 <= x / 2 ^ 63 <= 1).
  { intros x Hx. rewrite W_pow in Hx. split; [apply Z.div_pos; lia|].
    assert (x / 2^63 < 2) by (apply Z.div_lt_upper_bound; lia). lia. }
  induction l as [|r l IH]; intros prev Hl Hp; cbn [shl1 eval length].
  - rewrite Z.shiftr_div_pow2 by lia. pose proof (Hhi prev Hp).
    repeat split; try lia. apply words_cons. split; [|constructor].
    rewrite W_val. lia.
  - apply words_cons in Hl as [Hr Hl]. destruct (IH r Hl Hr) as (I1 & I2 & I3).
    rewrite shl1_limb, I1, I3 by auto. pose proof (Hhi prev Hp). pose proof (Hhi r Hr).
    assert (Hm : (2 * r) mod W = 2 * (r mod 2^63)).
    { rewrite W_pow. replace (2^64) with (2 * 2^63) by lia.
      rewrite Z.mul_mod_distr_l; lia. }
    pose proof (Z.div_mod r (2^63)). pose proof (Z.mod_pos_bound r (2^63)).
    assert (HW : W = 2 * 2 ^ 63) by reflexivity.
    repeat split; auto.
    + rewrite Hm, HW. lia.
    + apply words_cons. split; auto. rewrite Hm, HW. lia.
Qed.

Lemma sq_diag_spec : forall a r carry, words a -> words r ->
  length r = (2 * length a)%nat -> 0 <= carry <= 1 ->
  exists c, 0 <= c <= 1 /\
  eval (sq_diag a r carry) + Wn (2 * length a) * c = eval r + diag a + carry /\
  words (sq_diag a r carry) /\ length (sq_diag a r carry) = (2 * length a)%nat.
Proof.
  induction a as [|x a IH]; intros r carry Ha Hr HL Hc.
  - destruct r; [|discriminate]. cbn [sq_diag eval diag length]. exists carry.
    change (2 * 0)%nat with 0%nat. rewrite Wn_0. repeat split; try lia; constructor.
  - destruct r as [|r0 [|r1 r]]; cbn [length] in HL; try lia.
    apply words_cons in Ha as [Hx Ha].
    apply words_cons in Hr as [H0 Hr]. apply words_cons in Hr as [H1 Hr].
    cbn [sq_diag]. destruct (mac r0 x x carry) as [d0 c0] eqn:E0.
    assert (2 <= W) by (rewrite W_val; lia).
    apply mac_spec in E0; auto; try lia. destruct E0 as (Q1 & Q2 & Q3).
    destruct (adc 0 r1 c0) as [d1 c1] eqn:E1.
    apply adc_spec in E1; auto; try lia. destruct E1 as (Q4 & Q5 & Q6 & Q7).
    assert (c1 <= 1) by nia.
    destruct (IH r c1) as (c & I0 & I1 & I2 & I3); auto; try lia.
    exists c. split; auto. cbn [eval length diag].
    replace (2 * S (length a))%nat with (S (S (2 * length a))) by lia.
    rewrite !Wn_S. split; [|split; [|lia]].
    + set (N := Wn (2 * length a)) in *. nia.
    + apply words_cons; split; auto. apply words_cons; auto.
Qed.

Lemma square_wide_spec : forall a, a <> [] -> words a ->
  eval (square_wide a) = eval a * eval a /\ words (square_wide a) /\
  length (square_wide a) = (2 * length a)%nat.
Proof.
  intros a Ha0 Ha. unfold square_wide.
  destruct (sq_cross_spec a (repeat 0 (length a - 1))) as (C1 & C2 & C3); auto.
  { apply words_repeat0. } { apply repeat_length. }
  rewrite eval_repeat0 in C1.
  pose proof W_pos.
  destruct (shl1_spec (sq_cross a (repeat 0 (length a - 1))) 0) as (S1 & S2 & S3); auto; try lia.
  set (s := shl1 0 (sq_cross a (repeat 0 (length a - 1)))) in *.
  assert (1 <= length a)%nat by (destruct a; [contradiction|cbn; lia]).
  destruct (sq_diag_spec a (0 :: s) 0) as (c & I0 & I1 & I2 & I3); auto; try lia.
  { apply words_cons; split; auto; lia. }
  { cbn [length]. lia. }
  cbn [eval] in I1. rewrite S1, C1 in I1.
  replace (0 / 2^63) with 0 in I1 by reflexivity.
  pose proof (eval_bound _ I2). rewrite I3 in H1.
  pose proof (eval_bound _ Ha).
  pose proof (square_split a).
  assert (HN : Wn (2 * length a) = Wn (length a) * Wn (length a)).
  { rewrite <- Z.pow_add_r by lia. f_equal. lia. }
  assert (c = 0) as -> by nia.
  repeat split; auto. lia.
Qed.

(** * Montgomery reduction *)
(** One round clears the lowest limb. *)
Lemma mont_k_spec : forall m inv w, words m -> words w -> m <> [] ->
  (hd 0 m * inv) mod W = W - 1 -> length w = length m ->
  (eval w + wmul (hd 0 w) inv * eval m) mod W = 0.
Proof.
  intros m inv w Hm Hw Hm0 Hinv HL.
  destruct m as [|m0 m]; [contradiction|]. destruct w as [|w0 w]; [discriminate|].
  cbn [hd eval] in *. unfold wmul.
  assert (Hinv' : exists q, m0 * inv = W * q - 1).
  { exists ((m0 * inv) / W + 1). pose proof (Z.div_mod (m0*inv) W). lia. }
  destruct Hinv' as [q Hq].
  pose proof (Z.div_mod (w0 * inv) W ltac:(rewrite W_val; lia)).
  apply Z.mod_divide; [rewrite W_val; lia|].
  set (k := (w0 * inv) mod W) in *. set (e := w0 * inv / W) in *.
  exists (eval w + k * eval m + w0 * q - e * m0).
  assert (k * m0 = w0 * (W * q - 1) - W * e * m0) as HK.
  { rewrite <- Hq. replace k with (w0 * inv - W * e) by lia. ring. }
  rewrite Z.mul_add_distr_l, HK. ring.
Qed.

Lemma mont_row_spec : forall m inv w w1 c,
  mac_row w (wmul (hd 0 w) inv) m 0 = (w1, c) ->
  words m -> words w -> m <> [] -> (hd 0 m * inv) mod W = W - 1 ->
  length w = length m ->
  exists k, 0 <= k < W /\
    W * (eval (tl w1) + Wn (length m - 1) * c) = eval w + k * eval m /\
    words (tl w1) /\ length (tl w1) = (length m - 1)%nat /\ 0 <= c < W.
Proof.
  intros m inv w w1 c E Hm Hw Hm0 Hinv HL.
  pose proof W_pos.
  assert (Hk : 0 <= wmul (hd 0 w) inv < W) by (apply Z.mod_pos_bound; auto).
  pose proof (mont_k_spec m inv w Hm Hw Hm0 Hinv HL) as H0.
  apply mac_row_spec in E; auto; try lia.
  destruct E as (Q1 & Q2 & Q3 & Q4).
  exists (wmul (hd 0 w) inv). split; auto.
  destruct w1 as [|r0 t]. { destruct m; [contradiction|discriminate]. }
  apply words_cons in Q2 as [Hr0 Ht]. cbn [tl eval length] in *.
  rewrite <- Q3 in *. rewrite Wn_S in Q1.
  replace (S (length t) - 1)%nat with (length t) by lia.
  assert (r0 = 0).
  { rewrite Z.add_0_r in Q1. rewrite <- Q1 in H0.
    replace (r0 + W * eval t + W * Wn (length t) * c) with (r0 + (eval t + Wn (length t) * c) * W) in H0 by ring.
    rewrite Z_mod_plus_full, Z.mod_small in H0; auto. }
  subst r0. repeat split; auto; lia.
Qed.

Lemma mont_rounds_spec : forall hi m inv w carry2 d c,
  mont_rounds m inv w hi carry2 = (d, c) ->
  words m -> words w -> words hi -> m <> [] -> (hd 0 m * inv) mod W = W - 1 ->
  length w = length m -> 0 <= carry2 <= 1 ->
  exists k, 0 <= k < Wn (length hi) /\
    Wn (length hi) * (eval d + Wn (length m) * c) =
      eval w + Wn (length m) * (eval hi + carry2) + k * eval m /\
    words d /\ length d = length m /\ 0 <= c <= 1.
Proof.
  induction hi as [|h hi IH]; intros m inv w carry2 d c E Hm Hw Hhi Hm0 Hinv HL Hc.
  - cbn in E. injection E as <- <-. exists 0. cbn [length eval]. rewrite Wn_0.
    repeat split; auto; try lia.
  - cbn [mont_rounds] in E. apply words_cons in Hhi as [Hh Hhi].
    destruct (mac_row w (wmul (hd 0 w) inv) m 0) as [w1 cr] eqn:E1.
    apply mont_row_spec in E1; auto. destruct E1 as (k1 & K1 & K2 & K3 & K4 & K5).
    destruct (adc h carry2 cr) as [r c2] eqn:E2.
    assert (2 <= W) by (rewrite W_val; lia).
    assert (1 <= length m)%nat by (destruct m; [contradiction|cbn; lia]).
    apply adc_spec in E2; auto; try lia. destruct E2 as (A1 & A2 & A3 & A4).
    assert (c2 <= 1) by nia.
    apply IH in E; auto; try lia.
    2:{ apply words_app. split; auto. apply words_cons; split; [auto|constructor]. }
    2:{ rewrite app_length. cbn [length]. lia. }
    destruct E as (k & I0 & I1 & I2 & I3 & I4).
    exists (k1 + W * k). cbn [length eval]. rewrite Wn_S.
    split; [nia|]. split; [|auto].
    rewrite <- Z.mul_assoc, I1, eval_app, K4. cbn [eval].
    replace (length m) with (S (length m - 1)) by lia. rewrite Wn_S.
    replace (S (length m - 1) - 1)%nat with (length m - 1)%nat by lia.
    set (N := Wn (length m - 1)) in *.
    assert (r = h + carry2 + cr - W * c2) as -> by lia.
    assert (W * eval (tl w1) = eval w + k1 * eval m - W * N * cr) as HT by lia.
    rewrite !Z.mul_add_distr_l, HT. ring.
Qed.

Lemma montgomery_reduce_spec : forall m inv r, words m -> m <> [] ->
  (hd 0 m * inv) mod W = W - 1 ->
  words r -> length r = (2 * length m)%nat ->
  eval r < eval m * Wn (length m) ->
  canonical (length m) (eval m) (montgomery_reduce m inv r) /\
  (Wn (length m) * eval (montgomery_reduce m inv r)) mod eval m = eval r mod eval m.
Proof.
  intros m inv r Hm Hm0 Hinv Hr HL Hlt. unfold montgomery_reduce.
  destruct (mont_rounds m inv (firstn (length m) r) (skipn (length m) r) 0) as [d c] eqn:E.
  assert (Hsplit : eval r = eval (firstn (length m) r) + Wn (length m) * eval (skipn (length m) r)).
  { rewrite <- (firstn_skipn (length m) r) at 1. rewrite eval_app, firstn_length_le by lia. auto. }
  assert (Hw : words (firstn (length m) r) /\ words (skipn (length m) r)).
  { apply words_app. rewrite firstn_skipn. auto. }
  destruct Hw as [Hw1 Hw2].
  apply mont_rounds_spec in E; auto; try lia.
  2:{ rewrite firstn_length_le; lia. }
  destruct E as (k & I0 & I1 & I2 & I3 & I4).
  rewrite skipn_length in *. replace (length r - length m)%nat with (length m) in * by lia.
  set (N := Wn (length m)) in *. set (P := eval m) in *.
  rewrite Z.add_0_r in I1. rewrite <- Hsplit in I1.
  assert (0 < N) by apply Wn_pos.
  assert (0 < P).
  { pose proof (eval_bound _ Hr). unfold N, P in *. nia. }
  assert (eval d + N * c < 2 * P) by nia.
  destruct (reduce_once_spec m d c) as [R1 R2]; auto.
  split; auto. fold N P in R2. rewrite R2.
  assert (Hx : exists t, N * (if eval d + N * c <? P then eval d + N * c else eval d + N * c - P) = eval r + t * P).
  { destruct (_ <? _); [exists k|exists (k - N)]; nia. }
  destruct Hx as [t ->]. apply Z_mod_plus_full.
Qed.

Lemma from_mont_rounds_spec : forall i m inv w,
  words m -> words w -> m <> [] -> (hd 0 m * inv) mod W = W - 1 ->
  length w = length m ->
  exists k, 0 <= k < Wn i /\
    Wn i * eval (from_mont_rounds m inv w i) = eval w + k * eval m /\
    words (from_mont_rounds m inv w i) /\ length (from_mont_rounds m inv w i) = length m.
Proof.
  induction i as [|i IH]; intros m inv w Hm Hw Hm0 Hinv HL.
  - cbn [from_mont_rounds]. exists 0. rewrite Wn_0. repeat split; auto; lia.
  - cbn [from_mont_rounds].
    destruct (mac_row w (wmul (hd 0 w) inv) m 0) as [w1 cr] eqn:E1.
    apply mont_row_spec in E1; auto. destruct E1 as (k1 & K1 & K2 & K3 & K4 & K5).
    assert (1 <= length m)%nat by (destruct m; [contradiction|cbn; lia]).
    destruct (IH m inv (tl w1 ++ [cr])) as (k & I0 & I1 & I2 & I3); auto.
    { apply words_app. split; auto. apply words_cons; split; [auto|constructor]. }
    { rewrite app_length. cbn [length]. lia. }
    exists (k1 + W * k). rewrite Wn_S. split; [nia|]. split; [|auto].
    rewrite <- Z.mul_assoc, I1, eval_app, K4. cbn [eval]. nia.
Qed.

(** [from_mont] accepts any [n] words, reduced or not. *)
Lemma from_mont_spec : forall m inv a, words m -> m <> [] ->
  (hd 0 m * inv) mod W = W - 1 -> 0 < eval m ->
  words a -> length a = length m ->
  canonical (length m) (eval m) (from_mont m inv a) /\
  (Wn (length m) * eval (from_mont m inv a)) mod eval m = eval a mod eval m.
Proof.
  intros m inv a Hm Hm0 Hinv Hp Ha HL. unfold from_mont.
  destruct (from_mont_rounds_spec (length m) m inv a) as (k & I0 & I1 & I2 & I3); auto.
  set (d := from_mont_rounds m inv a (length m)) in *.
  set (N := Wn (length m)) in *. set (P := eval m) in *.
  assert (0 < N) by apply Wn_pos.
  pose proof (eval_bound _ Ha). rewrite HL in H0. fold N in H0.
  assert (eval d <= P) by nia.
  pose proof (eval_bound _ I2).
  destruct (limbs_sub_gen m d m) as [R1 R2]; auto; try (fold P; lia).
  split; auto. fold P in R2. rewrite R2.
  rewrite Z.mul_mod_idemp_r by lia.
  replace (N * (eval d - P)) with (eval a + (k - N) * P) by nia.
  apply Z_mod_plus_full.
Qed.
