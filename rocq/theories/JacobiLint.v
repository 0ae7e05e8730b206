(** Facts about the two's complement integers [LInt] of Jacobi.v. *)
From Verif Require Import Base Word Limbs SpecField LimbsFacts Field Inverse InverseFacts Jacobi.

Definition lin (L : nat) (a : list Z) (v : Z) : Prop :=
  length a = L /\ words a /\ eval a = v mod Wn L.
Definition lrange (L : nat) (v : Z) : Prop := - Wn L <= 2 * v < Wn L.

Lemma W_double : W = 2 * H63. Proof. reflexivity. Qed.
Lemma H63_big : 4 < H63. Proof. reflexivity. Qed.
Lemma mask64 : W - 1 = Z.ones 64. Proof. reflexivity. Qed.
Lemma lxor_mask64 x : 0 <= x < W -> Z.lxor x (W - 1) = W - 1 - x.
Proof. intros Hx. rewrite mask64, lxor_ones, <- W_pow; [reflexivity|lia|]. rewrite <- W_pow. exact Hx. Qed.
Lemma shiftr_word x : Z.shiftr x 64 = x / W.
Proof. rewrite Z.shiftr_div_pow2, W_pow by lia. reflexivity. Qed.

Lemma lin_eval L a : length a = L -> words a -> lin L a (eval a).
Proof. intros H1 H2. repeat split; auto. rewrite Z.mod_small; auto. subst. now apply eval_bound. Qed.

(** One limb of a ripple-carry operation. *)
Lemma ripple n s r : 0 < Wn n ->
  s mod W + W * ((r + s / W) mod Wn n) = (s + W * r) mod (W * Wn n).
Proof.
  intros HT. pose proof W_pos as HW.
  replace (s + W * r) with (s mod W + (r + s / W) * W) by (pose proof (Z.div_mod s W ltac:(lia)); lia).
  rewrite Z.rem_mul_r by lia.
  pose proof (Z.mod_pos_bound s W HW).
  rewrite Z_mod_plus_full, Z.mod_mod, Z.div_add, (Z.div_small (s mod W)) by lia. reflexivity.
Qed.

Lemma lint_sum_spec x y c : 0 <= x < W -> 0 <= y < W ->
  lint_sum x y c = ((x + y + b2z c) mod W, 1 <=? (x + y + b2z c) / W).
Proof.
  intros Hx Hy. unfold lint_sum. pose proof W_pos.
  assert (Hc : 0 <= b2z c <= 1) by (destruct c; cbn; lia). set (k := b2z c) in *.
  destruct (Z.leb_spec W (y + k)) as [C|C].
  - assert (y + k = W) by lia. rewrite H0, Z_mod_same_full, Z.add_0_r.
    rewrite (Z.mod_small x) by lia.
    replace (x + y + k) with (x + 1 * W) by lia. rewrite Z_mod_plus_full, Z.mod_small by lia.
    rewrite Z.div_add, Z.div_small by lia. reflexivity.
  - rewrite (Z.mod_small (y + k)) by lia. rewrite Z.add_assoc. cbn [orb]. f_equal.
    destruct (Z.leb_spec W (x + y + k)), (Z.leb_spec 1 ((x + y + k) / W)) as [D|D]; auto.
    + exfalso. assert (1 <= (x + y + k) / W) by (apply Z.div_le_lower_bound; lia). lia.
    + exfalso. rewrite Z.div_small in D by lia. lia.
Qed.

Lemma carry_b2z s : 0 <= s < 2 * W -> b2z (1 <=? s / W) = s / W.
Proof.
  intros Hs. pose proof W_pos. assert (0 <= s / W <= 1).
  { split; [apply Z.div_pos; lia|]. apply Z.lt_succ_r, Z.div_lt_upper_bound; lia. }
  destruct (Z.leb_spec 1 (s / W)); cbn [b2z]; lia.
Qed.

Lemma lint_add_loop_spec a : forall b c, length a = length b -> words a -> words b ->
  length (lint_add_loop a b c) = length a /\ words (lint_add_loop a b c) /\
  eval (lint_add_loop a b c) = (eval a + eval b + b2z c) mod Wn (length a).
Proof.
  induction a as [|x a IH]; intros [|y b] c Hl Ha Hb; try discriminate; cbn [lint_add_loop eval length].
  - rewrite Wn_0, Z.mod_1_r. repeat split; auto; constructor.
  - apply words_cons in Ha as [Hx Ha]. apply words_cons in Hb as [Hy Hb]. injection Hl as Hl.
    assert (Hc : 0 <= b2z c <= 1) by (destruct c; cbn; lia). pose proof W_pos.
    rewrite lint_sum_spec by assumption. cbv zeta beta. set (s := x + y + b2z c).
    destruct (IH b (1 <=? s / W) Hl Ha Hb) as (I1 & I2 & I3). cbn [length eval].
    split; [now f_equal|]. split; [apply words_cons; split; [apply Z.mod_pos_bound; lia|exact I2]|].
    rewrite I3, carry_b2z, Wn_S by (unfold s; lia). rewrite ripple by apply Wn_pos. f_equal. unfold s. ring.
Qed.
Lemma lin_add L a b v w : lin L a v -> lin L b w -> lin L (lint_add a b) (v + w).
Proof.
  intros (La & Ca & Ea) (Lb & Cb & Eb). unfold lint_add.
  destruct (lint_add_loop_spec a b false ltac:(congruence) Ca Cb) as (A1 & A2 & A3).
  split; [congruence|]. split; auto. rewrite A3, La, Ea, Eb. cbn [b2z]. rewrite Z.add_0_r.
  symmetry. apply Zplus_mod.
Qed.

Lemma eval_compl_mod n v w : 0 < n -> (v mod n + (n - 1 - w mod n) + 1) mod n = (v - w) mod n.
Proof.
  intros Hn. apply Zmod_eq_iff; [lia|]. exists (w / n - v / n + 1).
  pose proof (Z.div_mod v n ltac:(lia)). pose proof (Z.div_mod w n ltac:(lia)). lia.
Qed.

Lemma words_compl a : words a -> words (map (fun x => Z.lxor x (W - 1)) a) /\
  eval (map (fun x => Z.lxor x (W - 1)) a) = Wn (length a) - 1 - eval a.
Proof.
  induction a as [|x a IH]; intros Ha; cbn [map eval length].
  - rewrite Wn_0. split; [constructor|lia].
  - apply words_cons in Ha as [Hx Ha]. destruct (IH Ha) as [I1 I2]. rewrite lxor_mask64 by exact Hx.
    split; [apply words_cons; split; [lia|exact I1]|]. rewrite I2, Wn_S. ring.
Qed.

Lemma lint_sub_as_add a : forall b c,
  lint_sub_loop a b c = lint_add_loop a (map (fun x => Z.lxor x (W - 1)) b) c.
Proof.
  induction a as [|x a IH]; intros [|y b] c; cbn [lint_sub_loop lint_add_loop map]; auto.
  destruct (lint_sum x (Z.lxor y (W - 1)) c) as [d c']. now rewrite IH.
Qed.
Lemma lin_sub L a b v w : lin L a v -> lin L b w -> lin L (lint_sub a b) (v - w).
Proof.
  intros (La & Ca & Ea) (Lb & Cb & Eb). unfold lint_sub. rewrite lint_sub_as_add.
  destruct (words_compl b Cb) as [Cc Ec].
  destruct (lint_add_loop_spec a (map (fun x => Z.lxor x (W - 1)) b) true) as (A1 & A2 & A3);
    [rewrite map_length; congruence|assumption|assumption|].
  split; [congruence|]. split; auto. rewrite A3, Ec, Lb, La, Ea, Eb. cbn [b2z].
  apply eval_compl_mod, Wn_pos.
Qed.

Lemma lint_neg_loop_spec a : forall c, words a ->
  length (lint_neg_loop a c) = length a /\ words (lint_neg_loop a c) /\
  eval (lint_neg_loop a c) = (Wn (length a) - 1 - eval a + b2z c) mod Wn (length a).
Proof.
  induction a as [|x a IH]; intros c Ha; cbn [lint_neg_loop eval length].
  - rewrite Wn_0, Z.mod_1_r. repeat split; auto; constructor.
  - apply words_cons in Ha as [Hx Ha]. rewrite lxor_mask64 by exact Hx.
    assert (Hc : 0 <= b2z c <= 1) by (destruct c; cbn; lia). pose proof W_pos.
    set (s := W - 1 - x + b2z c).
    assert (EC : (W <=? s) = (1 <=? s / W)).
    { destruct (Z.leb_spec W s), (Z.leb_spec 1 (s / W)) as [D|D]; auto; exfalso.
      - assert (1 <= s / W) by (apply Z.div_le_lower_bound; lia). lia.
      - rewrite Z.div_small in D by (unfold s in *; lia). lia. }
    rewrite EC. destruct (IH (1 <=? s / W) Ha) as (I1 & I2 & I3). cbn [length eval].
    split; [now f_equal|]. split; [apply words_cons; split; [apply Z.mod_pos_bound; lia|exact I2]|].
    rewrite I3, carry_b2z, Wn_S by (unfold s; lia). rewrite ripple by apply Wn_pos. f_equal. unfold s. ring.
Qed.
Lemma lin_neg L a v : lin L a v -> lin L (lint_neg a) (- v).
Proof.
  intros (La & Ca & Ea). unfold lint_neg.
  destruct (lint_neg_loop_spec a true Ca) as (A1 & A2 & A3).
  split; [congruence|]. split; auto. rewrite A3, La, Ea. cbn [b2z]. pose proof (Wn_pos L).
  pose proof (eval_compl_mod (Wn L) 0 v ltac:(lia)) as E. rewrite Z.mod_0_l in E by lia. exact E.
Qed.

Lemma lint_prodsum_spec x y s c : 0 <= x < W -> 0 <= y < W -> 0 <= s < W -> 0 <= c < W ->
  lint_prodsum x y s c = ((x * y + c + s) mod W, (x * y + c + s) / W) /\ 0 <= (x * y + c + s) / W < W.
Proof.
  intros Hx Hy Hs Hc. unfold lint_prodsum. pose proof W_pos.
  assert (B : 0 <= x * y + c + s < W * W) by nia.
  rewrite (Z.mod_small _ (W * W)) by exact B. rewrite shiftr_word.
  assert (D : 0 <= (x * y + c + s) / W < W).
  { split; [apply Z.div_pos; lia|apply Z.div_lt_upper_bound; lia]. }
  now rewrite (Z.mod_small ((x * y + c + s) / W)) by exact D.
Qed.

Lemma lint_mul_i64_loop_spec (neg : bool) a : forall k c, words a -> 0 <= k < W -> 0 <= c < W ->
  let mask := if neg then W - 1 else 0 in
  let r := lint_mul_i64_loop a k mask c in
  length r = length a /\ words r /\
  eval r = (c + k * (if neg then Wn (length a) - 1 - eval a else eval a)) mod Wn (length a).
Proof.
  induction a as [|x a IH]; intros k c Ha Hk Hc mask r; subst r; cbn [lint_mul_i64_loop eval length].
  - rewrite Wn_0, Z.mod_1_r. repeat split; auto; constructor.
  - apply words_cons in Ha as [Hx Ha]. pose proof W_pos as HW.
    set (y := Z.lxor x mask).
    assert (Ey : y = if neg then W - 1 - x else x).
    { unfold y, mask. destruct neg; [now apply lxor_mask64|apply Z.lxor_0_r]. }
    assert (Hy : 0 <= y < W) by (rewrite Ey; destruct neg; lia).
    destruct (lint_prodsum_spec y k 0 c Hy Hk ltac:(lia) Hc) as [-> Hq].
    rewrite Z.add_0_r in Hq. rewrite Z.add_0_r. set (s := y * k + c) in *.
    destruct (IH k (s / W) Ha Hk Hq) as (I1 & I2 & I3). fold mask in I1, I2, I3. cbn [length eval].
    split; [now f_equal|]. split; [apply words_cons; split; [apply Z.mod_pos_bound; lia|exact I2]|].
    rewrite I3, Wn_S. set (rest := if neg then Wn (length a) - 1 - eval a else eval a).
    rewrite (Z.add_comm (s / W)). rewrite ripple by apply Wn_pos. f_equal.
    unfold s, rest. rewrite Ey. destruct neg; ring.
Qed.
Lemma lin_mul_i64 L a v k : lin L a v -> - H63 < k < H63 -> lin L (lint_mul_i64 a k) (v * k).
Proof.
  intros (La & Ca & Ea) Hk. unfold lint_mul_i64. pose proof W_double as HW.
  pose proof (Wn_pos L) as HT. pose proof (Z.div_mod v (Wn L) ltac:(lia)) as Dv.
  destruct (Z.ltb_spec k 0) as [Hn|Hn].
  - rewrite i64w_id by lia. rewrite (Z.mod_small (- k) W) by lia.
    destruct (lint_mul_i64_loop_spec true a (- k) (- k) Ca ltac:(lia) ltac:(lia)) as (A1 & A2 & A3).
    split; [congruence|]. split; auto. rewrite A3, La, Ea.
    apply Zmod_eq_iff; [lia|]. exists (- k - k * (v / Wn L)). rewrite Dv at 2. ring.
  - rewrite (Z.mod_small k W) by lia.
    destruct (lint_mul_i64_loop_spec false a k 0 Ca ltac:(lia) ltac:(lia)) as (A1 & A2 & A3).
    split; [congruence|]. split; auto. rewrite A3, La, Ea.
    apply Zmod_eq_iff; [lia|]. exists (- (k * (v / Wn L))). rewrite Dv at 2. ring.
Qed.

Lemma lint_mul_row_spec x b : forall data c, length b = length data -> words b -> words data ->
  0 <= x < W -> 0 <= c < W ->
  length (lint_mul_row x b data c) = length data /\ words (lint_mul_row x b data c) /\
  eval (lint_mul_row x b data c) = (eval data + x * eval b + c) mod Wn (length data).
Proof.
  induction b as [|y b IH]; intros [|d data] c Hl Hb Hd Hx Hc; try discriminate; cbn [lint_mul_row eval length].
  - rewrite Wn_0, Z.mod_1_r. repeat split; auto; constructor.
  - apply words_cons in Hb as [Hy Hb]. apply words_cons in Hd as [Hd0 Hd]. injection Hl as Hl.
    destruct (lint_prodsum_spec x y d c Hx Hy Hd0 Hc) as [-> Hq]. set (s := x * y + c + d) in *.
    destruct (IH data (s / W) Hl Hb Hd Hx Hq) as (I1 & I2 & I3). cbn [length eval]. pose proof W_pos.
    split; [now f_equal|]. split; [apply words_cons; split; [apply Z.mod_pos_bound; lia|exact I2]|].
    rewrite I3, Wn_S, ripple by apply Wn_pos. f_equal. unfold s. ring.
Qed.

Lemma lint_mul_row_firstn x b : forall data c, (length data <= length b)%nat ->
  lint_mul_row x b data c = lint_mul_row x (firstn (length data) b) data c.
Proof.
  induction b as [|y b IH]; intros [|d data] c Hl; cbn [length firstn lint_mul_row] in *; auto.
  destruct (lint_prodsum x y d c) as [d' c']. rewrite IH by lia. reflexivity.
Qed.

Lemma eval_firstn_mod b : forall n, (n <= length b)%nat -> words b -> eval (firstn n b) = eval b mod Wn n.
Proof.
  intros n Hn Hb. rewrite <- (firstn_skipn n b) at 2. rewrite eval_app, firstn_length_le by lia.
  rewrite Z.mul_comm, Z_mod_plus_full. symmetry. apply Z.mod_small.
  rewrite <- (firstn_skipn n b) in Hb. apply words_app in Hb as [Hb _].
  pose proof (eval_bound _ Hb) as B. rewrite firstn_length_le in B by lia. exact B.
Qed.

Lemma lint_mul_loop_spec a : forall b data, length a = length data -> (length data <= length b)%nat ->
  words a -> words b -> words data ->
  length (lint_mul_loop a b data) = length a /\ words (lint_mul_loop a b data) /\
  eval (lint_mul_loop a b data) = (eval data + eval a * eval b) mod Wn (length a).
Proof.
  induction a as [|x a IH]; intros b data Hl Hb Ca Cb Cd; cbn [lint_mul_loop eval length].
  - rewrite Wn_0, Z.mod_1_r. repeat split; auto; constructor.
  - apply words_cons in Ca as [Hx Ca]. pose proof W_pos.
    rewrite lint_mul_row_firstn by exact Hb.
    assert (Cf : words (firstn (length data) b)).
    { rewrite <- (firstn_skipn (length data) b) in Cb. now apply words_app in Cb as [Cb _]. }
    destruct (lint_mul_row_spec x (firstn (length data) b) data 0) as (R1 & R2 & R3);
      [now rewrite firstn_length_le|assumption|assumption|assumption|lia|].
    destruct (lint_mul_row x (firstn (length data) b) data 0) as [|d data'] eqn:ER.
    { cbn [length] in Hl, R1. lia. }
    apply words_cons in R2 as [Hd R2]. cbn [length] in Hl, R1. rewrite <- Hl in R1. injection R1 as R1.
    destruct (IH b data' ltac:(lia) ltac:(lia) Ca Cb R2) as (I1 & I2 & I3). cbn [length eval].
    split; [now f_equal|]. split; [now apply words_cons|].
    rewrite I3. rewrite eval_firstn_mod in R3 by (assumption || lia). rewrite <- Hl in R3.
    cbn [eval] in R3. rewrite Wn_S in *. pose proof (Wn_pos (length a)) as HT.
    assert (E : (eval data + (x + W * eval a) * eval b) mod (W * Wn (length a)) =
                (d + W * (eval data' + eval a * eval b)) mod (W * Wn (length a))).
    { replace (d + W * (eval data' + eval a * eval b)) with (d + W * eval data' + W * (eval a * eval b)) by ring.
      rewrite R3, Zplus_mod_idemp_l. apply Zmod_eq_iff; [lia|].
      exists (x * (eval b / (W * Wn (length a)))).
      pose proof (Z.div_mod (eval b) (W * Wn (length a)) ltac:(lia)) as DB.
      replace (eval b mod (W * Wn (length a))) with (eval b - W * Wn (length a) * (eval b / (W * Wn (length a)))) by lia. ring. }
    rewrite E. rewrite <- (ripple (length a) d) by exact HT.
    rewrite (Z.mod_small d W Hd), (Z.div_small d W Hd), Z.add_0_r. reflexivity.
Qed.
Lemma lin_mul L a b v w : lin L a v -> lin L b w -> lin L (lint_mul a b) (v * w).
Proof.
  intros (La & Ca & Ea) (Lb & Cb & Eb). unfold lint_mul.
  destruct (lint_mul_loop_spec a b (repeat 0 (length a))) as (A1 & A2 & A3);
    [now rewrite repeat_length|rewrite repeat_length; lia|assumption|assumption|apply words_repeat0|].
  split; [congruence|]. split; auto. rewrite A3, La, Ea, Eb, eval_repeat0, Z.add_0_l.
  symmetry. apply Zmult_mod.
Qed.

(** ** Sign, comparison, shift *)
Lemma lrange_mod L v : lrange L v -> v mod Wn L = if v <? 0 then v + Wn L else v.
Proof.
  intros [H1 H2]. destruct (Z.ltb_spec v 0).
  - apply Zmod_unique_pos with (-1); lia.
  - apply Z.mod_small; lia.
Qed.
Lemma last_eval a : a <> [] -> words a -> 0 <= eval a - Wn (length a - 1) * last a 0 < Wn (length a - 1).
Proof.
  induction a as [|x a IH]; intros Hn Ha; [congruence|].
  apply words_cons in Ha as [Hx Ha]. destruct a as [|y a].
  - cbn [length last eval Nat.sub]. rewrite Wn_0. lia.
  - specialize (IH ltac:(discriminate) Ha).
    replace (length (x :: y :: a) - 1)%nat with (S (length (y :: a) - 1)) by (cbn; lia).
    rewrite Wn_S. change (last (x :: y :: a) 0) with (last (y :: a) 0).
    change (eval (x :: y :: a)) with (x + W * eval (y :: a)). pose proof W_pos.
    revert IH. generalize (eval (y :: a)) (Wn (length (y :: a) - 1)) (last (y :: a) 0). intros. nia.
Qed.
Lemma half64 : Z.shiftr (W - 1) 1 = H63 - 1. Proof. reflexivity. Qed.
Lemma lin_is_negative L a v : (1 <= L)%nat -> lin L a v -> lrange L v -> lint_is_negative a = (v <? 0).
Proof.
  intros HL (La & Ca & Ea) Hr. rewrite lrange_mod in Ea by auto.
  assert (Hn : a <> []) by (destruct a; [cbn in La; lia|discriminate]).
  pose proof (last_eval a Hn Ca) as Hl. rewrite La in Hl.
  unfold lint_is_negative. rewrite half64.
  destruct L as [|n]; [lia|]. replace (S n - 1)%nat with n in Hl by lia.
  destruct Hr as [H1 H2]. rewrite Wn_S in *. pose proof (Wn_pos n) as HT. pose proof W_double as HE.
  set (h := H63) in *. set (y := last a 0) in *. rewrite HE in *.
  destruct (Z.ltb_spec v 0); destruct (Z.ltb_spec (h - 1) y); auto; exfalso; nia.
Qed.
Lemma lin_lowest L a v : (1 <= L)%nat -> lin L a v -> hd 0 a = v mod W.
Proof.
  intros HL (La & Ca & Ea). destruct a as [|x a]; [cbn in La; lia|].
  cbn [hd]. apply words_cons in Ca as [Hx Ca]. subst L. cbn [eval length] in Ea.
  rewrite Wn_S in Ea. pose proof (Wn_pos (length a)). pose proof W_pos.
  rewrite Z.rem_mul_r in Ea by lia.
  pose proof (Z.mod_pos_bound v W ltac:(lia)).
  assert (E : x mod W = v mod W).
  { replace (v mod W) with ((v mod W + W * (v / W mod Wn (length a))) mod W).
    - rewrite <- Ea. now rewrite Z.mul_comm, Z_mod_plus_full.
    - rewrite Z.mul_comm, Z_mod_plus_full. apply Z.mod_mod. lia. }
  rewrite Z.mod_small in E by lia. auto.
Qed.

Lemma lint_eqb_spec a : forall b, lint_eqb a b = true <-> a = b.
Proof.
  induction a as [|x a IH]; intros [|y b]; cbn [lint_eqb]; split; intros H; try discriminate; auto.
  - apply andb_prop in H as [H1 H2]. apply Z.eqb_eq in H1. apply IH in H2. now subst.
  - injection H as -> ->. rewrite Z.eqb_refl. now apply IH.
Qed.
Lemma lin_eqb L a b v w : lin L a v -> lin L b w -> lrange L v -> lrange L w -> lint_eqb a b = (v =? w).
Proof.
  intros (La & Ca & Ea) (Lb & Cb & Eb) [R1 R2] [R3 R4].
  destruct (Z.eqb_spec v w) as [->|Hne].
  - apply lint_eqb_spec. apply eval_inj; congruence.
  - destruct (lint_eqb a b) eqn:E; auto. apply lint_eqb_spec in E. subst b. exfalso. apply Hne.
    assert (E : v mod Wn L = w mod Wn L) by congruence.
    pose proof (Wn_pos L). apply Zmod_eq_iff in E; [|lia]. destruct E as [k Hk].
    assert (k = 0) by nia. lia.
Qed.
Lemma lin_zero L : lin L (lint_zero L) 0.
Proof.
  split; [apply repeat_length|]. split; [apply words_repeat0|].
  unfold lint_zero. now rewrite eval_repeat0, Z.mod_0_l by (pose proof (Wn_pos L); lia).
Qed.
Lemma lin_one L : (1 <= L)%nat -> lin L (lint_one L) 1.
Proof.
  destruct L as [|n]; intros HL; [lia|]. unfold lint_one. cbn [firstn].
  assert (E : firstn n (repeat 0 (S n)) = repeat 0 n).
  { replace (S n) with (n + 1)%nat by lia. rewrite repeat_app, firstn_app, firstn_all2, repeat_length, Nat.sub_diag.
    - now rewrite firstn_O, app_nil_r.
    - rewrite repeat_length. lia. }
  rewrite E. pose proof (Wn_pos n). pose proof W_double. pose proof H63_big.
  split; [cbn; now rewrite repeat_length|].
  split; [apply words_cons; split; [lia|apply words_repeat0]|].
  cbn [eval]. rewrite eval_repeat0, Wn_S, Z.mod_small; [lia|nia].
Qed.
Lemma lin_minus_one L : lin L (lint_minus_one L) (-1).
Proof.
  destruct (words_compl (repeat 0 L) (words_repeat0 L)) as [C E]. rewrite eval_repeat0, repeat_length in E.
  assert (M : lint_minus_one L = map (fun x => Z.lxor x (W - 1)) (repeat 0 L)).
  { unfold lint_minus_one. clear C E. induction L as [|n IH]; cbn [repeat map]; [reflexivity|]. now rewrite IH, Z.lxor_0_l. }
  rewrite M. split; [now rewrite map_length, repeat_length|]. split; [exact C|]. rewrite E.
  pose proof (Wn_pos L). symmetry. apply Zmod_unique_pos with (-1); lia.
Qed.

(** Gluing the high part of one limb and the low part of the next. *)
Lemma lor_glue x y k : 0 <= x < 2 ^ k -> 0 <= k -> 0 <= y -> Z.lor x (y * 2 ^ k) = x + y * 2 ^ k.
Proof.
  intros Hx Hk Hy. symmetry. apply lor_disjoint_add. apply Z.bits_inj'. intros i Hi.
  rewrite Z.land_spec, Z.bits_0. rewrite <- Z.shiftl_mul_pow2 by lia.
  destruct (Z.ltb_spec i k).
  - rewrite Z.shiftl_spec_low by lia. apply andb_false_r.
  - rewrite <- (Z.mod_small x (2 ^ k)) by lia. now rewrite Z.mod_pow2_bits_high by lia.
Qed.
Lemma shl_mod_glue x y b : 0 < b < 64 -> 0 <= x < W -> 0 <= y < W ->
  Z.lor (Z.shiftr x b) (Z.shiftl y (64 - b) mod W) = x / 2 ^ b + (y mod 2 ^ b) * 2 ^ (64 - b).
Proof.
  intros Hb Hx Hy. rewrite Z.shiftr_div_pow2, Z.shiftl_mul_pow2 by lia.
  assert (EW : W = 2 ^ b * 2 ^ (64 - b)) by (rewrite <- Z.pow_add_r, W_pow by lia; f_equal; lia).
  assert (P1 : 0 < 2 ^ b) by (apply Z.pow_pos_nonneg; lia).
  assert (P2 : 0 < 2 ^ (64 - b)) by (apply Z.pow_pos_nonneg; lia).
  rewrite EW at 1. rewrite Z.mul_mod_distr_r by lia.
  apply lor_glue; [|lia|apply Z.mod_pos_bound; lia].
  split; [apply Z.div_pos; lia|]. apply Z.div_lt_upper_bound; [lia|]. rewrite <- EW. lia.
Qed.

Lemma lint_shr_loop_spec b (neg : bool) : 0 < b < 64 -> forall a, a <> [] -> words a ->
  length (lint_shr_loop a b neg) = length a /\ words (lint_shr_loop a b neg) /\
  eval (lint_shr_loop a b neg) = eval a / 2 ^ b + (if neg then Wn (length a) - Wn (length a) / 2 ^ b else 0).
Proof.
  intros Hb.
  assert (EW : W = 2 ^ b * 2 ^ (64 - b)) by (rewrite <- Z.pow_add_r, W_pow by lia; f_equal; lia).
  assert (P1 : 0 < 2 ^ b) by (apply Z.pow_pos_nonneg; lia).
  assert (P2 : 0 < 2 ^ (64 - b)) by (apply Z.pow_pos_nonneg; lia).
  induction a as [|x a IH]; intros Hn Ha; [congruence|]. apply words_cons in Ha as [Hx Ha].
  assert (Hq : 0 <= x / 2 ^ b < 2 ^ (64 - b)).
  { split; [apply Z.div_pos; lia|]. apply Z.div_lt_upper_bound; [lia|]. rewrite <- EW. lia. }
  destruct a as [|y a]; cbn [lint_shr_loop].
  - cbn [length eval]. split; [reflexivity|].
    rewrite Wn_S, Wn_0, Z.mul_1_r, Z.mul_0_r, !Z.add_0_r. destruct neg.
    + rewrite shl_mod_glue by (lia || (split; [lia|]; pose proof W_pos; lia)).
      assert (EM : (W - 1) mod 2 ^ b = 2 ^ b - 1).
      { apply Zmod_unique_pos with (2 ^ (64 - b) - 1); [lia|]. rewrite EW. ring. }
      rewrite EM. assert (ED : W / 2 ^ b = 2 ^ (64 - b)) by (rewrite EW, Z.mul_comm, Z.div_mul; lia).
      rewrite ED. split; [apply words_cons; split; [|constructor]|]; rewrite EW; nia.
    + rewrite Z.shiftr_div_pow2 by lia. split; [|lia]. apply words_cons. split; [|constructor]. nia.
  - destruct (IH ltac:(discriminate) Ha) as (I1 & I2 & I3). pose proof Ha as Ha'.
    apply words_cons in Ha' as [Hy Ha']. rewrite shl_mod_glue by assumption.
    pose proof (Z.mod_pos_bound y (2 ^ b) P1).
    split; [cbn [length]; now f_equal|]. split.
    + apply words_cons. split; [|exact I2]. rewrite EW. nia.
    + assert (Hq2 : forall h l, eval (h :: l) = h + W * eval l) by reflexivity.
      rewrite (Hq2 _ (lint_shr_loop (y :: a) b neg)), (Hq2 x (y :: a)), I3.
      assert (EY : y mod 2 ^ b = eval (y :: a) mod 2 ^ b).
      { rewrite Hq2, EW. replace (y + 2 ^ b * 2 ^ (64 - b) * eval a) with (y + 2 ^ (64 - b) * eval a * 2 ^ b) by ring.
        now rewrite Z_mod_plus_full. }
      rewrite EY. set (V := eval (y :: a)).
      replace (length (x :: y :: a)) with (S (length (y :: a))) by reflexivity. rewrite Wn_S.
      assert (E1 : (x + W * V) / 2 ^ b = x / 2 ^ b + 2 ^ (64 - b) * V).
      { rewrite EW. replace (x + 2 ^ b * 2 ^ (64 - b) * V) with (x + (2 ^ (64 - b) * V) * 2 ^ b) by ring.
        now rewrite Z.div_add by lia. }
      rewrite E1. pose proof (Z.div_mod V (2 ^ b) ltac:(lia)) as DV.
      assert (EN : (if neg then W * Wn (length (y :: a)) - W * Wn (length (y :: a)) / 2 ^ b else 0) =
                   W * (if neg then Wn (length (y :: a)) - Wn (length (y :: a)) / 2 ^ b else 0)).
      { destruct neg; [|ring]. cbn [length]. rewrite Wn_S. set (R := Wn (length a)).
        assert (F1 : W * R / 2 ^ b = 2 ^ (64 - b) * R).
        { rewrite EW. replace (2 ^ b * 2 ^ (64 - b) * R) with ((2 ^ (64 - b) * R) * 2 ^ b) by ring. now rewrite Z.div_mul by lia. }
        assert (F2 : W * (W * R) / 2 ^ b = W * (2 ^ (64 - b) * R)).
        { rewrite EW at 1. replace (2 ^ b * 2 ^ (64 - b) * (W * R)) with ((W * (2 ^ (64 - b) * R)) * 2 ^ b) by ring. now rewrite Z.div_mul by lia. }
        rewrite F1, F2. ring. }
      rewrite EN. set (NN := if neg then _ else _).
      assert (EV : 2 ^ (64 - b) * V = V mod 2 ^ b * 2 ^ (64 - b) + W * (V / 2 ^ b)) by (rewrite EW; rewrite DV at 1; ring).
      rewrite EV. ring.
Qed.

Lemma div_neg_bounds v q : 0 < q -> v < 0 -> v <= v / q < 0.
Proof.
  intros Hq Hv. split; [apply Z.div_le_lower_bound; nia|apply Z.div_lt_upper_bound; lia].
Qed.
Lemma div_pos_bounds v q : 0 < q -> 0 <= v -> 0 <= v / q <= v.
Proof.
  intros Hq Hv. split; [apply Z.div_pos; lia|apply Z.div_le_upper_bound; nia].
Qed.
Lemma mod_shift_neg T m : - T <= 2 * m -> m < 0 -> m mod T = m + T.
Proof. intros H1 H2. apply Zmod_unique_pos with (-1); lia. Qed.

Lemma lin_shr L a v b : (1 <= L)%nat -> 0 < b < 64 -> lin L a v -> lrange L v ->
  lin L (lint_shr a b) (v / 2 ^ b).
Proof.
  intros HL Hb Hl Hr. pose proof (lin_is_negative L a v HL Hl Hr) as Hneg. destruct Hl as (La & Ca & Ea).
  unfold lint_shr. rewrite Hneg. assert (Hn : a <> []) by (destruct a; [cbn in La; lia|discriminate]).
  destruct (lint_shr_loop_spec b (v <? 0) Hb a Hn Ca) as (S1 & S2 & S3).
  split; [congruence|]. split; [exact S2|]. rewrite S3, La, Ea. rewrite lrange_mod by exact Hr.
  assert (P1 : 1 < 2 ^ b) by (apply (Z.pow_lt_mono_r 2 0 b); lia).
  destruct Hr as [H1 H2]. pose proof (Wn_pos L) as HT.
  assert (D : exists R, Wn L = R * 2 ^ b).
  { destruct L as [|n]; [lia|]. rewrite Wn_S. set (X := Wn n).
    assert (EW : W = 2 ^ (64 - b) * 2 ^ b) by (rewrite <- Z.pow_add_r, W_pow by lia; f_equal; lia).
    rewrite EW. exists (2 ^ (64 - b) * X). ring. }
  destruct D as [R ER].
  set (q := 2 ^ b) in *.
  destruct (Z.ltb_spec v 0) as [Hv|Hv].
  - destruct (div_neg_bounds v q ltac:(lia) Hv) as [M1 M2].
    assert (M3 : (v + Wn L) / q = v / q + R) by (rewrite ER, Z.div_add; lia).
    assert (M4 : Wn L / q = R) by (rewrite ER, Z.div_mul; lia).
    rewrite M3, M4, (mod_shift_neg (Wn L) (v / q)); [ring| |exact M2].
    apply Z.le_trans with (2 * v); [exact H1|]. apply Z.mul_le_mono_nonneg_l; [easy|exact M1].
  - destruct (div_pos_bounds v q ltac:(lia) Hv) as [M1 M2].
    rewrite Z.add_0_r, Z.mod_small; [reflexivity|]. split; [exact M1|]. apply Z.le_lt_trans with v; [exact M2|].
    clear - H2 HT. lia.
Qed.

Lemma lrange_div L v b : 0 <= b -> lrange L v -> lrange L (v / 2 ^ b).
Proof.
  intros Hb [H1 H2]. assert (P1 : 0 < 2 ^ b) by (apply Z.pow_pos_nonneg; lia).
  pose proof (Wn_pos L). set (q := 2 ^ b) in *.
  destruct (Z_lt_ge_dec v 0) as [Hv|Hv].
  - pose proof (div_neg_bounds v q P1 Hv). split; lia.
  - pose proof (div_pos_bounds v q P1 ltac:(lia)). split; lia.
Qed.

Lemma lint_new_spec L data : words data ->
  match lint_new L data with
  | Some a => (length data <= L)%nat /\ lin L a (eval data) /\ eval a = eval data
  | None => (L < length data)%nat
  end.
Proof.
  intros Hw. unfold lint_new. destruct (Nat.leb_spec (length data) L) as [H|H]; [|exact H].
  split; [exact H|].
  assert (Ce : eval (data ++ repeat 0 (L - length data)) = eval data) by (rewrite eval_app, eval_repeat0; ring).
  split; [|exact Ce]. rewrite <- Ce. apply lin_eval.
  - rewrite app_length, repeat_length. lia.
  - apply words_app. split; [exact Hw|apply words_repeat0].
Qed.
