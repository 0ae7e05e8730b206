(** [approximate], [jacobinary] and the outer loop of [jacobi]. *)
From Verif Require Import Base Word Limbs SpecField LimbsFacts Field Inverse InverseFacts
  SpecJacobi JacSymFacts Jacobi JacobiLint JacobiInner JacobiProg.

(** ** The top limb *)
Lemma approx_top_spec x y : forall i,
  match approx_top x y i with
  | Some j => (j <= i)%nat /\ (nth j x 0 <> 0 \/ nth j y 0 <> 0) /\
              forall k, (j < k <= i)%nat -> nth k x 0 = 0 /\ nth k y 0 = 0
  | None => forall k, (k <= i)%nat -> nth k x 0 = 0 /\ nth k y 0 = 0
  end.
Proof.
  induction i as [|i IH]; cbn [approx_top].
  - destruct (Z.eqb_spec (nth 0 x 0) 0) as [E|E], (Z.eqb_spec (nth 0 y 0) 0) as [E'|E']; cbn [andb].
    + intros k Hk. replace k with 0%nat by lia. auto.
    + split; [lia|]. split; [auto|]. intros k Hk. lia.
    + split; [lia|]. split; [auto|]. intros k Hk. lia.
    + split; [lia|]. split; [auto|]. intros k Hk. lia.
  - destruct (Z.eqb_spec (nth (S i) x 0) 0) as [E|E], (Z.eqb_spec (nth (S i) y 0) 0) as [E'|E']; cbn [andb].
    + destruct (approx_top x y i) as [j|].
      * destruct IH as (H1 & H2 & H3). split; [lia|]. split; [exact H2|]. intros k Hk.
        destruct (Nat.eq_dec k (S i)) as [-> |]; [auto|]. apply H3. lia.
      * intros k Hk. destruct (Nat.eq_dec k (S i)) as [-> |]; [auto|]. apply IH. lia.
    + split; [lia|]. split; [auto|]. intros k Hk. lia.
    + split; [lia|]. split; [auto|]. intros k Hk. lia.
    + split; [lia|]. split; [auto|]. intros k Hk. lia.
Qed.

Lemma eval_all_zero x : (forall k, (k < length x)%nat -> nth k x 0 = 0) -> eval x = 0.
Proof.
  induction x as [|h x IH]; intros H; cbn [eval]; [reflexivity|].
  rewrite IH by (intros k Hk; apply (H (S k)); cbn [length]; lia).
  pose proof (H 0%nat ltac:(cbn [length]; lia)) as E. cbn [nth] in E. lia.
Qed.

Lemma eval_top x : forall i, (i < length x)%nat -> (forall k, (i < k < length x)%nat -> nth k x 0 = 0) ->
  eval x = eval (firstn i x) + Wn i * nth i x 0.
Proof.
  induction x as [|h x IH]; intros i Hi H; [cbn in Hi; lia|].
  destruct i as [|i].
  - cbn [firstn eval nth]. rewrite Wn_0.
    rewrite (eval_all_zero x) by (intros k Hk; apply (H (S k)); cbn [length]; lia). lia.
  - cbn [firstn eval nth]. rewrite (IH i) by (cbn [length] in *; try lia; intros k Hk; apply (H (S k)); lia).
    rewrite Wn_S. ring.
Qed.

Lemma nth_word x i : words x -> 0 <= nth i x 0 < W.
Proof.
  intros Hx. destruct (Nat.lt_ge_cases i (length x)) as [H|H].
  - apply (proj1 (Forall_forall _ _) Hx). now apply nth_In.
  - rewrite nth_overflow by exact H. pose proof W_pos. lia.
Qed.

(** ** Masks *)
Lemma land_high h : 0 <= h < W -> Z.land h (Z.shiftl (W - 1) 32 mod W) = h / B32 * B32.
Proof.
  intros Hh. assert (EM : Z.shiftl (W - 1) 32 mod W = Z.shiftl (Z.ones 32) 32) by reflexivity. rewrite EM.
  assert (ES : h / B32 * B32 = Z.shiftl (Z.shiftr h 32) 32).
  { rewrite Z.shiftl_mul_pow2, Z.shiftr_div_pow2 by lia. reflexivity. }
  rewrite ES. apply Z.bits_inj'. intros i Hi. rewrite Z.land_spec.
  destruct (Z.ltb_spec i 32).
  - rewrite !Z.shiftl_spec_low by lia. apply andb_false_r.
  - rewrite !Z.shiftl_spec_high, Z.shiftr_spec by lia. replace (i - 32 + 32) with i by ring.
    destruct (Z.ltb_spec (i - 32) 32).
    + rewrite Z.ones_spec_low by lia. apply andb_true_r.
    + rewrite Z.ones_spec_high by lia. rewrite andb_false_r.
      rewrite <- (Z.mod_small h (2 ^ 64)) by (rewrite <- W_pow; exact Hh). now rewrite Z.mod_pow2_bits_high by lia.
Qed.
Lemma land_low h : Z.land h (Z.shiftr (W - 1) 32) = h mod B32.
Proof.
  replace (Z.shiftr (W - 1) 32) with (Z.ones 32) by reflexivity. rewrite Z.land_ones by lia. reflexivity.
Qed.
Lemma B32_pow : B32 = 2 ^ 32. Proof. reflexivity. Qed.
Lemma W_B32 : W = B32 * B32. Proof. reflexivity. Qed.
Lemma B32_pos : 0 < B32. Proof. reflexivity. Qed.
Lemma lor_split h l : 0 <= h -> Z.lor (h * B32) (l mod B32) = h * B32 + l mod B32.
Proof.
  intros Hh. rewrite Z.lor_comm, B32_pow, lor_glue; [ring| |lia|exact Hh].
  apply Z.mod_pos_bound. reflexivity.
Qed.

(** The previous limb never contributes: [>> z] moves it below bit 32. *)
Lemma prev_limb_lost h w z : 32 < z -> 0 <= w < W -> Z.lor h (Z.shiftr w z) / B32 = h / B32.
Proof.
  intros Hz Hw. rewrite B32_pow. rewrite <- !Z.shiftr_div_pow2 by lia. rewrite Z.shiftr_lor, Z.shiftr_shiftr by lia.
  rewrite (Z.shiftr_div_pow2 w) by lia. rewrite Z.div_small; [apply Z.lor_0_r|].
  split; [lia|]. apply Z.lt_le_trans with W; [lia|]. rewrite W_pow. apply Z.pow_le_mono_r; lia.
Qed.

Lemma clz64_spec x : 0 <= x < W -> 0 <= clz64 x <= 64 /\ x < 2 ^ (64 - clz64 x) /\
  (x <> 0 -> clz64 x <= 63 /\ 2 ^ (63 - clz64 x) <= x).
Proof.
  intros Hx. unfold clz64. destruct (Z.eqb_spec x 0) as [-> |Hn].
  - split; [lia|]. split; [reflexivity|]. congruence.
  - destruct (Z.log2_spec x ltac:(lia)) as [L1 L2]. pose proof (Z.log2_nonneg x).
    assert (Z.log2 x < 64) by (apply Z.log2_lt_pow2; [lia|rewrite <- W_pow; lia]).
    split; [lia|]. split.
    + replace (64 - (63 - Z.log2 x)) with (Z.succ (Z.log2 x)) by lia. exact L2.
    + intros _. split; [lia|]. replace (63 - (63 - Z.log2 x)) with (Z.log2 x) by lia. exact L1.
Qed.

(** The result of [approximate] in terms of the integers. *)
Definition appr (z hi low : Z) : Z := (hi * 2 ^ z) / B32 * B32 + low mod B32.

Lemma approximate_spec L x y : (1 <= L)%nat -> length x = L -> length y = L -> words x -> words y ->
  match approximate L x y with
  | None => eval x = 0 /\ eval y = 0
  | Some (a, b, true) => a = eval x /\ b = eval y /\ eval x < W /\ eval y < W
  | Some (a, b, false) =>
      exists i z, (1 <= i < L)%nat /\ 0 <= z <= 63 /\
        eval x = eval (firstn i x) + Wn i * nth i x 0 /\ eval y = eval (firstn i y) + Wn i * nth i y 0 /\
        nth i x 0 < 2 ^ (64 - z) /\ nth i y 0 < 2 ^ (64 - z) /\
        (2 ^ (63 - z) <= nth i x 0 \/ 2 ^ (63 - z) <= nth i y 0) /\
        a = appr z (nth i x 0) (nth 0 x 0) /\ b = appr z (nth i y 0) (nth 0 y 0)
  end.
Proof.
  intros HL Lx Ly Wx Wy. unfold approximate. pose proof (approx_top_spec x y (L - 1)) as T.
  destruct (approx_top x y (L - 1)) as [[|i']|].
  - destruct T as (_ & _ & T).
    assert (Ex : eval x = nth 0 x 0).
    { rewrite (eval_top x 0) by (rewrite ?Lx; try lia; intros k Hk; apply T; lia). cbn [firstn eval]. rewrite Wn_0. ring. }
    assert (Ey : eval y = nth 0 y 0).
    { rewrite (eval_top y 0) by (rewrite ?Ly; try lia; intros k Hk; apply T; lia). cbn [firstn eval]. rewrite Wn_0. ring. }
    pose proof (nth_word x 0 Wx). pose proof (nth_word y 0 Wy). repeat split; lia.
  - destruct T as (T1 & T2 & T3). set (i := S i') in *.
    pose proof (nth_word x i Wx) as Bx. pose proof (nth_word y i Wy) as By.
    set (xi := nth i x 0) in *. set (yi := nth i y 0) in *.
    destruct (clz64_spec xi Bx) as (X0 & X1 & X2). destruct (clz64_spec yi By) as (Y0 & Y1 & Y2).
    set (z := Z.min (clz64 xi) (clz64 yi)).
    assert (Hz : 0 <= z <= 63) by (destruct T2 as [T2|T2]; [destruct (X2 T2)|destruct (Y2 T2)]; lia).
    assert (UX : xi < 2 ^ (64 - z)).
    { apply Z.lt_le_trans with (1 := X1). apply Z.pow_le_mono_r; lia. }
    assert (UY : yi < 2 ^ (64 - z)).
    { apply Z.lt_le_trans with (1 := Y1). apply Z.pow_le_mono_r; lia. }
    assert (EW : W = 2 ^ (64 - z) * 2 ^ z) by (rewrite <- Z.pow_add_r, W_pow by lia; f_equal; ring).
    assert (P : 0 < 2 ^ z) by (apply Z.pow_pos_nonneg; lia).
    assert (FX : forall v, 0 <= v < 2 ^ (64 - z) -> forall w, 0 <= w < W -> forall l,
      Z.lor (Z.land (if 32 <? z then Z.lor (Z.shiftl v z mod W) (Z.shiftr w z) else Z.shiftl v z mod W)
                    (Z.shiftl (W - 1) 32 mod W)) (Z.land l (Z.shiftr (W - 1) 32)) = appr z v l).
    { intros v Hv w Hw l. rewrite Z.shiftl_mul_pow2 by lia.
      assert (Bv : 0 <= v * 2 ^ z < W) by (rewrite EW; clear - Hv P; nia).
      rewrite (Z.mod_small (v * 2 ^ z)) by exact Bv. rewrite land_low. unfold appr.
      assert (D0 : 0 <= v * 2 ^ z / B32) by (apply Z.div_pos; [lia|apply B32_pos]).
      destruct (Z.ltb_spec 32 z).
      - rewrite land_high.
        + rewrite prev_limb_lost by assumption. apply lor_split. exact D0.
        + split; [apply Z.lor_nonneg; split; [lia|]; apply Z.shiftr_nonneg; lia|].
          rewrite W_pow. destruct (Z.eq_dec (Z.lor (v * 2 ^ z) (Z.shiftr w z)) 0) as [-> |NE]; [reflexivity|].
          assert (SN : 0 <= Z.shiftr w z) by (apply Z.shiftr_nonneg; lia).
          assert (0 <= Z.lor (v * 2 ^ z) (Z.shiftr w z)) by (apply Z.lor_nonneg; lia).
          apply Z.log2_lt_pow2; [lia|]. rewrite Z.log2_lor by lia.
          assert (V2 : v * 2 ^ z < 2 ^ 64) by (rewrite <- W_pow; lia).
          assert (W2 : Z.shiftr w z < 2 ^ 64).
          { rewrite Z.shiftr_div_pow2 by lia. apply Z.le_lt_trans with w; [|rewrite <- W_pow; lia].
            apply Z.div_le_upper_bound; [lia|]. clear - Hw P. nia. }
          assert (LG : forall u, 0 <= u < 2 ^ 64 -> Z.log2 u < 64).
          { intros u Hu. destruct (Z.eq_dec u 0) as [-> |]; [reflexivity|]. apply Z.log2_lt_pow2; lia. }
          apply Z.max_lub_lt; apply LG; lia.
      - rewrite land_high by exact Bv. apply lor_split. exact D0. }
    exists i, z. split; [lia|]. split; [exact Hz|].
    assert (IL : (i < L)%nat) by lia.
    split; [apply eval_top; [lia|]; intros k Hk; apply T3; lia|].
    split; [apply eval_top; [lia|]; intros k Hk; apply T3; lia|].
    split; [exact UX|]. split; [exact UY|]. split.
    + destruct (Z.min_spec (clz64 xi) (clz64 yi)) as [[Hc Hm]|[Hc Hm]]; fold z in Hm; rewrite Hm.
      * left. destruct (Z.eq_dec xi 0) as [Ex|Ex]; [|now apply X2]. exfalso. assert (E64 : clz64 xi = 64) by (rewrite Ex; reflexivity). clear - E64 Hc Y0; lia.
      * right. destruct (Z.eq_dec yi 0) as [Ey|Ey]; [|now apply Y2]. exfalso.
        assert (E64 : clz64 yi = 64) by (rewrite Ey; reflexivity). clearbody z. clear - E64 Hm Hz; lia.
    + split; apply FX; auto using nth_word; lia.
  - assert (K : forall k, (k <= L - 1)%nat -> nth k x 0 = 0 /\ nth k y 0 = 0) by exact T.
    split; apply eval_all_zero; intros k Hk; apply K; lia.
Qed.
