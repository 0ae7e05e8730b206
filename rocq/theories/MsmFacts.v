(** Booth recoding and the serial and parallel multi-scalar multiplications. *)
From Verif Require Import Base Algebra TowerFacts SpecField Word Limbs LimbsFacts Bytes BytesFacts Field FieldFacts FieldSerdeFacts Group.
From Verif Require Import SpecCurve SpecCurveFacts Curve CurveFacts CurveGroup Fft FftFacts Msm.

(** ** Booth recoding *)
(** [k / 2^(c i)], rounded to the nearest integer *)
Definition round_at (c i k : Z) : Z := (2 * k / 2 ^ (c * i) + 1) / 2.

Lemma le_int_firstn n l : is_bytes l -> le_int (firstn n l) = le_int l mod 256 ^ Z.of_nat n.
Proof.
  intros B. destruct (Nat.lt_ge_cases n (length l)) as [L|G].
  - rewrite <- (firstn_skipn n l) at 2. rewrite le_int_app, firstn_length, Nat.min_l by lia.
    rewrite Z.mul_comm, Z_mod_plus_full, Z.mod_small; [reflexivity|].
    pose proof (le_int_bound _ (is_bytes_firstn n l B)) as X. rewrite firstn_length, Nat.min_l in X by lia. exact X.
  - rewrite firstn_all2 by lia. symmetry. apply Z.mod_small. pose proof (le_int_bound _ B).
    assert (256 ^ Z.of_nat (length l) <= 256 ^ Z.of_nat n) by (apply Z.pow_le_mono_r; lia). lia.
Qed.
Lemma le_int_skipn n l : is_bytes l -> le_int (skipn n l) = le_int l / 256 ^ Z.of_nat n.
Proof.
  intros B. destruct (Nat.lt_ge_cases n (length l)) as [L|G].
  - rewrite <- (firstn_skipn n l) at 2. rewrite le_int_app, firstn_length, Nat.min_l by lia.
    pose proof (le_int_bound _ (is_bytes_firstn n l B)) as X. rewrite firstn_length, Nat.min_l in X by lia.
    rewrite Z.add_comm, Z.mul_comm, Z.div_add_l by lia. rewrite Z.div_small by lia. lia.
  - rewrite skipn_all2 by lia. symmetry. apply Z.div_small. pose proof (le_int_bound _ B).
    assert (256 ^ Z.of_nat (length l) <= 256 ^ Z.of_nat n) by (apply Z.pow_le_mono_r; lia). lia.
Qed.
Lemma booth_bytes_spec n el : is_bytes el -> 0 <= n -> from_le_bytes (booth_bytes n el) = (le_int el / 256 ^ n) mod 2 ^ 32.
Proof.
  intros B Hn. unfold booth_bytes. rewrite from_le_bytes_le_int.
  assert (B1 : is_bytes (firstn 4 (skipn (Z.to_nat n) el))) by (apply is_bytes_firstn, is_bytes_skipn, B).
  rewrite le_int_firstn by (apply is_bytes_app; split; [exact B1|exact (is_bytes_repeat0 4)]).
  rewrite le_int_app. change (le_int [0; 0; 0; 0]) with 0. rewrite Z.mul_0_r, Z.add_0_r.
  rewrite le_int_firstn, le_int_skipn, Z2Nat.id by (auto using is_bytes_skipn). change (256 ^ Z.of_nat 4) with (2 ^ 32). apply Zmod_mod.
Qed.
Lemma land_pow2 v c : 0 <= c -> 0 <= v < 2 ^ (c + 1) -> (Z.land v (2 ^ c) =? 0) = (v <? 2 ^ c).
Proof.
  intros Hc Hv. assert (P : 2 ^ (c + 1) = 2 * 2 ^ c) by (rewrite Z.add_1_r, Z.pow_succ_r by lia; reflexivity).
  assert (E : Z.land v (2 ^ c) = if Z.testbit v c then 2 ^ c else 0).
  { apply Z.bits_inj'. intros n Hn. rewrite Z.land_spec, Z.pow2_bits_eqb by lia.
    destruct (Z.eqb_spec c n) as [->|N].
    - rewrite andb_true_r. destruct (Z.testbit v n) eqn:T; [rewrite Z.pow2_bits_eqb, Z.eqb_refl by lia|rewrite Z.bits_0]; reflexivity.
    - rewrite andb_false_r. destruct (Z.testbit v c); [rewrite Z.pow2_bits_eqb by lia; symmetry; apply Z.eqb_neq; lia|rewrite Z.bits_0; reflexivity]. }
  rewrite E, Z.testbit_odd, Z.shiftr_div_pow2 by lia. destruct (Z.ltb_spec v (2 ^ c)) as [L|G].
  - rewrite Z.div_small by lia. reflexivity.
  - replace (v / 2 ^ c) with 1; [cbn; apply Z.eqb_neq; lia|]. apply (Z.div_unique_pos v (2 ^ c) 1 (v - 2 ^ c)); lia.
Qed.
Lemma booth_digit c v : 1 <= c <= 24 -> 0 <= v < 2 ^ (c + 1) ->
  (let sign := Z.land v (Z.shiftl 1 c) =? 0 in
   let t := Z.shiftr (v + 1) 1 in
   if sign then t else - Z.land (2 ^ 32 - 1 - (t - 1)) (Z.shiftl 1 c - 1)) = (v + 1) / 2 - 2 ^ c * (v / 2 ^ c).
Proof.
  intros Hc Hv. cbv zeta. assert (P : 2 ^ (c + 1) = 2 * 2 ^ c) by (rewrite Z.add_1_r, Z.pow_succ_r by lia; reflexivity).
  rewrite Z.shiftl_1_l, land_pow2 by lia. rewrite Z.shiftr_div_pow2 by lia. change (2 ^ 1) with 2.
  destruct (Z.ltb_spec v (2 ^ c)) as [L|G].
  - rewrite (Z.div_small v) by lia. lia.
  - replace (v / 2 ^ c) with 1 by (apply (Z.div_unique_pos v (2 ^ c) 1 (v - 2 ^ c)); lia).
    set (t := (v + 1) / 2). assert (T : 2 ^ c <= 2 * t <= 2 * 2 ^ c). { unfold t. pose proof (Z.div_mod (v + 1) 2). pose proof (Z.mod_pos_bound (v + 1) 2). lia. }
    replace (2 ^ c - 1) with (Z.ones c) by (rewrite Z.ones_equiv; lia). rewrite Z.land_ones by lia.
    assert (Q : exists q, 2 ^ 32 = 2 ^ c * q). { exists (2 ^ (32 - c)). rewrite <- Z.pow_add_r by lia. f_equal. lia. }
    destruct Q as [q Q]. rewrite Q. replace (2 ^ c * q - 1 - (t - 1)) with (2 ^ c - t + (q - 1) * 2 ^ c) by ring.
    rewrite Z_mod_plus_full. assert (0 < 2 ^ c) by (apply Z.pow_pos_nonneg; lia). rewrite Z.mod_small by lia. lia.
Qed.
Lemma round_split c i k : 0 <= c -> 0 <= i -> 0 <= k ->
  let v := (2 * k / 2 ^ (c * i)) mod 2 ^ (c + 1) in
  round_at c i k - 2 ^ c * round_at c (i + 1) k = (v + 1) / 2 - 2 ^ c * (v / 2 ^ c).
Proof.
  intros Hc Hi Hk. cbv zeta. unfold round_at.
  replace (2 * k / 2 ^ (c * (i + 1))) with (2 * k / 2 ^ (c * i) / 2 ^ c).
  2:{ rewrite Z.div_div by (try apply Z.pow_nonzero; try apply Z.pow_pos_nonneg; nia).
      rewrite <- Z.pow_add_r by nia. f_equal. f_equal. ring. }
  set (K := 2 * k / 2 ^ (c * i)). assert (0 <= K) by (apply Z.div_pos; [lia|apply Z.pow_pos_nonneg; nia]).
  assert (PP : 0 < 2 ^ c) by (apply Z.pow_pos_nonneg; lia).
  assert (P : 2 ^ (c + 1) = 2 * 2 ^ c) by (rewrite Z.add_1_r, Z.pow_succ_r by lia; reflexivity). rewrite P.
  set (m := 2 ^ c) in *. pose proof (Z.div_mod K (2 * m)) as D. pose proof (Z.mod_pos_bound K (2 * m)) as B.
  set (q := K / (2 * m)) in *. set (v := K mod (2 * m)) in *.
  assert (EK : K = 2 * m * q + v) by (apply D; lia). clearbody q v.
  assert (E1 : (K + 1) / 2 = m * q + (v + 1) / 2).
  { rewrite EK. replace (2 * m * q + v + 1) with ((v + 1) + m * q * 2) by ring. rewrite Z.div_add by lia. lia. }
  assert (E2 : K / m = 2 * q + v / m). { rewrite EK. replace (2 * m * q + v) with (v + 2 * q * m) by ring. rewrite Z.div_add by lia. lia. }
  rewrite E1, E2. assert (E3 : (2 * q + v / m + 1) / 2 = q + (v / m + 1) / 2).
  { replace (2 * q + v / m + 1) with (v / m + 1 + q * 2) by ring. rewrite Z.div_add by lia. lia. }
  rewrite E3. assert (V : v / m = 0 \/ v / m = 1).
  { destruct (Z_lt_le_dec v m); [left; apply Z.div_small; lia|right; symmetry; apply (Z.div_unique_pos v m 1 (v - m)); lia]. }
  destruct V as [-> | ->]; change ((0 + 1) / 2) with 0; change ((1 + 1) / 2) with 1; ring.
Qed.
Theorem booth_spec c i el : 1 <= c <= 24 -> 0 <= i -> is_bytes el ->
  get_booth_index i c el = round_at c i (le_int el) - 2 ^ c * round_at c (i + 1) (le_int el).
Proof.
  intros Hc Hi B. set (k := le_int el). assert (Hk : 0 <= k) by (apply le_int_bound; exact B).
  rewrite (round_split c i k) by lia. cbv zeta. unfold get_booth_index.
  set (skip := Z.max 0 (i * c - 1)). rewrite booth_bytes_spec by (auto; apply Z.div_pos; lia). fold k.
  assert (V : Z.land (Z.shiftr (if i =? 0 then Z.shiftl ((k / 256 ^ (skip / 8)) mod 2 ^ 32) 1 mod 2 ^ 32 else (k / 256 ^ (skip / 8)) mod 2 ^ 32) (skip - skip / 8 * 8)) (Z.shiftl 1 (c + 1) - 1)
    = (2 * k / 2 ^ (c * i)) mod 2 ^ (c + 1)).
  { rewrite Z.shiftl_1_l. replace (2 ^ (c + 1) - 1) with (Z.ones (c + 1)) by (rewrite Z.ones_equiv; lia). rewrite Z.land_ones by lia.
    assert (M : forall x s, 0 <= s -> s + (c + 1) <= 32 -> ((x mod 2 ^ 32) / 2 ^ s) mod 2 ^ (c + 1) = (x / 2 ^ s) mod 2 ^ (c + 1)).
    { intros x s Hs HL. apply Z.bits_inj'. intros n Hn. rewrite !Z.testbit_mod_pow2 by lia.
      destruct (Z.ltb_spec n (c + 1)); [|reflexivity]. cbn [andb]. rewrite !Z.div_pow2_bits, Z.testbit_mod_pow2 by lia.
      destruct (Z.ltb_spec (n + s) 32); [reflexivity|lia]. }
    destruct (Z.eqb_spec i 0) as [->|N].
    - replace skip with 0 by (unfold skip; lia). change (0 / 8) with 0. change (0 - 0 * 8) with 0.
      rewrite Z.mul_0_r. change (256 ^ 0) with 1. change (2 ^ 0) with 1. rewrite !Z.div_1_r, Z.shiftr_0_r, Z.shiftl_mul_pow2 by lia. change (2 ^ 1) with 2.
      rewrite Zmult_mod_idemp_l. pose proof (M (k * 2) 0 ltac:(lia) ltac:(lia)) as M0. change (2 ^ 0) with 1 in M0. rewrite !Z.div_1_r in M0. rewrite M0. f_equal. lia.
    - assert (S0 : skip = i * c - 1) by (unfold skip; nia). rewrite Z.shiftr_div_pow2 by (pose proof (Z.mul_div_le skip 8); lia).
      pose proof (Z.div_mod skip 8) as D. pose proof (Z.mod_pos_bound skip 8) as Bd.
      rewrite M by lia. change 256 with (2 ^ 8). rewrite <- Z.pow_mul_r by (try apply Z.div_pos; nia).
      rewrite Z.div_div by (try apply Z.pow_nonzero; try apply Z.pow_pos_nonneg; lia). rewrite <- Z.pow_add_r by lia.
      f_equal. replace (8 * (skip / 8) + (skip - skip / 8 * 8)) with skip by lia. rewrite S0.
      replace (c * i) with (1 + (i * c - 1)) by lia. rewrite Z.pow_add_r by nia. change (2 ^ 1) with 2.
      rewrite <- Z.div_div by (try apply Z.pow_pos_nonneg; nia). f_equal. rewrite Z.mul_comm, Z.div_mul by lia. reflexivity. }
  rewrite V. apply booth_digit; [lia|]. apply Z.mod_pos_bound, Z.pow_pos_nonneg; lia.
Qed.
Lemma booth_bound c i el : 1 <= c <= 24 -> 0 <= i -> is_bytes el -> - 2 ^ (c - 1) <= get_booth_index i c el <= 2 ^ (c - 1).
Proof.
  intros Hc Hi B. rewrite booth_spec by assumption. rewrite round_split by (try apply le_int_bound; auto; lia). cbv zeta.
  set (v := (_ mod _)). assert (Hv : 0 <= v < 2 ^ (c + 1)) by (apply Z.mod_pos_bound, Z.pow_pos_nonneg; lia). clearbody v.
  assert (P : 2 ^ (c + 1) = 2 * 2 ^ c) by (rewrite Z.add_1_r, Z.pow_succ_r by lia; reflexivity).
  assert (P1 : 2 ^ c = 2 * 2 ^ (c - 1)) by (rewrite <- Z.pow_succ_r by lia; f_equal; lia).
  pose proof (Z.div_mod (v + 1) 2) as D. pose proof (Z.mod_pos_bound (v + 1) 2) as Bd.
  destruct (Z_lt_le_dec v (2 ^ c)).
  - rewrite (Z.div_small v) by lia. lia.
  - replace (v / 2 ^ c) with 1 by (apply (Z.div_unique_pos v (2 ^ c) 1 (v - 2 ^ c)); lia). lia.
Qed.
Lemma round_0 c k : round_at c 0 k = k.
Proof.
  unfold round_at. rewrite Z.mul_0_r. change (2 ^ 0) with 1. rewrite Z.div_1_r. replace (2 * k + 1) with (1 + k * 2) by ring.
  rewrite Z.div_add by lia. reflexivity.
Qed.
Lemma round_top c n k : 0 <= k -> 0 <= c * n -> 2 * k < 2 ^ (c * n) -> round_at c n k = 0.
Proof. intros Hk Hn L. unfold round_at. rewrite (Z.div_small (2 * k)) by lia. reflexivity. Qed.
(** The digits recompose the scalar. *)
Fixpoint booth_sum (n : nat) (c : Z) (el : list Z) : Z :=
  match n with O => 0 | S n' => booth_sum n' c el + get_booth_index (Z.of_nat n') c el * 2 ^ (c * Z.of_nat n') end.
Theorem booth_sum_spec c n el : 1 <= c <= 24 -> is_bytes el ->
  booth_sum n c el = le_int el - 2 ^ (c * Z.of_nat n) * round_at c (Z.of_nat n) (le_int el).
Proof.
  intros Hc B. induction n as [|n IH]; cbn [booth_sum].
  - rewrite round_0. change (Z.of_nat 0) with 0. rewrite Z.mul_0_r. change (2 ^ 0) with 1. ring.
  - rewrite IH, booth_spec by (auto; lia). rewrite Nat2Z.inj_succ. unfold Z.succ.
    replace (c * (Z.of_nat n + 1)) with (c * Z.of_nat n + c) by ring. rewrite Z.pow_add_r by lia. ring.
Qed.

(** ** Sums over buckets *)
Section Buckets.
Context {G : Type} (g : gops G) (HG : grp_laws g).
Infix "⊕" := (gadd g) (at level 50, left associativity).
Notation "k ⋅ P" := (gmul g k P) (at level 40).
(** Bucket [i] holds the points of digit [i+1]. *)
Fixpoint wsum (n : nat) (V : nat -> G) : G :=
  match n with O => g0 g | S n' => wsum n' V ⊕ (Z.of_nat (S n') ⋅ V n') end.
Definition vadd (V : nat -> G) (i : nat) (X : G) : nat -> G := fun j => if Nat.eqb j i then V j ⊕ X else V j.
Lemma wsum_ext n V V' : (forall i, (i < n)%nat -> V i = V' i) -> wsum n V = wsum n V'.
Proof. induction n as [|n IH]; intros E; [reflexivity|]. cbn [wsum]. rewrite IH, E by (auto; intros; apply E; lia). reflexivity. Qed.
Lemma wsum_vadd n V i X : (i < n)%nat -> wsum n (vadd V i X) = wsum n V ⊕ (Z.of_nat (S i) ⋅ X).
Proof.
  induction n as [|n IH]; intros L; [lia|]. cbn [wsum]. destruct (Nat.eq_dec i n) as [->|N].
  - rewrite (wsum_ext n _ V) by (intros j Hj; unfold vadd; destruct (Nat.eqb_spec j n); [lia|reflexivity]).
    unfold vadd. rewrite Nat.eqb_refl, (gmul_gadd g HG). symmetry. apply (gl_assoc _ HG).
  - rewrite IH by lia. unfold vadd at 1. destruct (Nat.eqb_spec n i); [lia|].
    rewrite !(gl_assoc _ HG). f_equal. apply (gl_comm _ HG).
Qed.
Lemma wsum_zero n : wsum n (fun _ => g0 g) = g0 g.
Proof. induction n as [|n IH]; [reflexivity|]. cbn [wsum]. rewrite IH, (gmul_g0 g HG). apply (gl_0 _ HG). Qed.
Lemma wsum_add n V V' : wsum n (fun i => V i ⊕ V' i) = wsum n V ⊕ wsum n V'.
Proof.
  induction n as [|n IH]; cbn [wsum]; [symmetry; apply (gl_0 _ HG)|]. rewrite IH, (gmul_gadd g HG). apply (g_swap g HG).
Qed.
Lemma parts_shuffle A R V nR nV W : A ⊕ (R ⊕ V) ⊕ (nR ⊕ nV) ⊕ W = A ⊕ (R ⊕ nR) ⊕ (W ⊕ (V ⊕ nV)).
Proof.
  rewrite (gl_assoc _ HG A), (g_swap g HG R V nR nV). rewrite (gl_comm _ HG W). rewrite !(gl_assoc _ HG). reflexivity.
Qed.
(** Linear combinations with coefficients computed from the scalar bytes. *)
Definition lin (f : list Z -> Z) (l : list (list Z * G)) : G := gsum g (map (fun x => f (fst x) ⋅ snd x) l).
Lemma lin_comb a f h l : (a ⋅ lin f l) ⊕ lin h l = lin (fun k => a * f k + h k) l.
Proof.
  unfold lin, gsum. induction l as [|[k P] l IH]; cbn [map fold_right fst snd].
  - rewrite (gmul_g0 g HG). apply (gl_0 _ HG).
  - rewrite <- IH, (gmul_gadd g HG), (g_swap g HG), (gmul_add g HG), (gmul_mul g HG). reflexivity.
Qed.
Lemma lin_ext f h l : Forall (fun x => f (fst x) = h (fst x)) l -> lin f l = lin h l.
Proof. intros E. unfold lin. f_equal. apply map_ext_in. intros x Hx. rewrite (proj1 (Forall_forall _ _) E x Hx). reflexivity. Qed.
Lemma gsum_app l l' : gsum g (l ++ l') = gsum g l ⊕ gsum g l'.
Proof. unfold gsum. induction l as [|x l IH]; cbn; [symmetry; apply (gl_0 _ HG)|]. rewrite IH. symmetry. apply (gl_assoc _ HG). Qed.
Lemma lin_app f l l' : lin f (l ++ l') = lin f l ⊕ lin f l'.
Proof. unfold lin. rewrite map_app. apply gsum_app. Qed.
End Buckets.

Lemma nth_error_repeat {A} (x y : A) n i : nth_error (repeat x n) i = Some y -> y = x.
Proof. revert i. induction n as [|n IH]; intros [|i]; cbn; try discriminate; [congruence|apply IH]. Qed.
Lemma upd_nth_spec {A} (l : list A) i f : (i < length l)%nat -> (forall x, exists y, f x = Some y) ->
  exists x y, nth_error l i = Some x /\ f x = Some y /\ upd_nth l i f = Some (set_nth l i y).
Proof.
  intros L T. unfold upd_nth. destruct (nth_error l i) as [x|] eqn:E; [|apply nth_error_None in E; lia].
  destruct (T x) as [y Y]. exists x, y. rewrite Y. auto.
Qed.

(** ** The number of bytes in use *)
Lemma or_bytes_length a b : length (or_bytes a b) = length a.
Proof. unfold or_bytes. rewrite app_length, map_length, combine_length, skipn_length. lia. Qed.
Lemma or_bytes_nth a : forall b i, (i < length a)%nat -> nth i (or_bytes a b) 0 = Z.lor (nth i a 0) (nth i b 0).
Proof.
  unfold or_bytes. induction a as [|x a IH]; intros [|y b] [|i] L; cbn [length] in L; try lia; cbn [combine map app skipn length nth fst snd];
    rewrite ?Z.lor_0_r; try reflexivity. apply IH. lia.
Qed.
Lemma or_fold l : forall acc i, (i < length acc)%nat -> length (fold_left or_bytes l acc) = length acc /\
  (nth i (fold_left or_bytes l acc) 0 = 0 -> nth i acc 0 = 0 /\ Forall (fun b => nth i b 0 = 0) l).
Proof.
  induction l as [|b l IH]; intros acc i L; cbn [fold_left]; [split; auto|].
  destruct (IH (or_bytes acc b) i) as (E1 & E2); [rewrite or_bytes_length; exact L|]. rewrite or_bytes_length in E1. split; [exact E1|].
  intros Z0. destruct (E2 Z0) as (X & Y). rewrite or_bytes_nth in X by exact L. apply Z.lor_eq_0_iff in X. split; [apply X|]. constructor; [apply X|exact Y].
Qed.
Lemma position_nonzero_spec l : match position_nonzero l with
  | Some n => (n < length l)%nat /\ (forall i, (i < n)%nat -> nth i l 0 = 0)
  | None => forall i, nth i l 0 = 0 end.
Proof.
  induction l as [|v l IH]; cbn [position_nonzero]; [intros [|]; reflexivity|]. destruct (Z.eqb_spec v 0) as [->|N].
  - destruct (position_nonzero l) as [n|]; cbn [option_map length].
    + destruct IH as (L & IH). split; [lia|]. intros [|i] Hi; cbn [nth]; [reflexivity|]. apply IH. lia.
    + intros [|i]; cbn [nth]; [reflexivity|apply IH].
  - split; [cbn; lia|]. intros i Hi. lia.
Qed.
Lemma le_int_zero l : (forall i, (i < length l)%nat -> nth i l 0 = 0) -> le_int l = 0.
Proof.
  induction l as [|x l IH]; intros E; [reflexivity|]. cbn [le_int]. rewrite IH; [|intros i Hi; apply (E (S i)); cbn; lia].
  pose proof (E O) as X. cbn [nth length] in X. lia.
Qed.
Lemma skipn_skipn {A} n : forall m (l : list A), skipn n (skipn m l) = skipn (n + m) l.
Proof.
  induction m as [|m IH]; intros l; [rewrite Nat.add_0_r; reflexivity|]. rewrite Nat.add_succ_r. destruct l as [|x l]; [apply skipn_nil|].
  cbn [skipn]. apply IH.
Qed.
Lemma max_byte_size_spec sc coeffs b : Forall (fun b => is_bytes b /\ 0 <= le_int b < modulus sc) coeffs -> In b coeffs -> 1 < modulus sc ->
  le_int b < 256 ^ Z.of_nat (max_byte_size sc coeffs).
Proof.
  intros HF Hin Hm. destruct (proj1 (Forall_forall _ _) HF b Hin) as (By & Lb). unfold max_byte_size.
  set (fbs := Z.to_nat ((num_bits sc + 7) / 8)). set (l := fold_left or_bytes coeffs (repeat 0 fbs)).
  assert (F : le_int b < 256 ^ Z.of_nat fbs).
  { assert (X : modulus sc < 2 ^ (num_bits sc)) by (unfold num_bits; rewrite Z.add_1_r; apply Z.log2_spec; lia).
    pose proof (Z.log2_nonneg (modulus sc)). assert (0 <= num_bits sc) by (unfold num_bits; lia).
    change 256 with (2 ^ 8). rewrite <- Z.pow_mul_r by lia.
    assert (2 ^ num_bits sc <= 2 ^ (8 * Z.of_nat fbs)); [|lia]. apply Z.pow_le_mono_r; [lia|]. unfold fbs.
    rewrite Z2Nat.id by (apply Z.div_pos; lia). pose proof (Z.div_mod (num_bits sc + 7) 8 ltac:(lia)). pose proof (Z.mod_pos_bound (num_bits sc + 7) 8). lia. }
  set (m := (fbs - match position_nonzero (rev l) with Some n => n | None => fbs end)%nat).
  assert (Lm : (m <= fbs)%nat) by (unfold m; lia).
  assert (Z0 : forall i, (m <= i < fbs)%nat -> nth i b 0 = 0).
  { intros i Hi. destruct (or_fold coeffs (repeat 0 fbs) i) as (E1 & E2); [rewrite repeat_length; lia|]. fold l in E1, E2. rewrite repeat_length in E1.
    assert (N : nth i l 0 = 0).
    { pose proof (position_nonzero_spec (rev l)) as PS. unfold m in Hi.
      assert (RN : nth i l 0 = nth (fbs - S i) (rev l) 0).
      { rewrite rev_nth by lia. f_equal. lia. }
      destruct (position_nonzero (rev l)) as [n|]; [|rewrite RN; apply PS]. rewrite RN. apply PS. lia. }
    exact (proj1 (Forall_forall _ _) (proj2 (E2 N)) b Hin). }
  assert (S0 : le_int (skipn m b) = 0).
  { rewrite <- (firstn_skipn (fbs - m) (skipn m b)), le_int_app, skipn_skipn. replace (fbs - m + m)%nat with fbs by lia.
    rewrite (le_int_skipn fbs b By), (Z.div_small (le_int b)) by lia. rewrite Z.mul_0_r, Z.add_0_r. apply le_int_zero.
    intros i Hi. rewrite firstn_length in Hi. transitivity (nth (m + i)%nat b 0); [|apply Z0; lia].
    assert (NF : forall (q : list Z) k j, (j < k)%nat -> nth j (firstn k q) 0 = nth j q 0).
    { clear. induction q as [|x q IH]; intros [|k] [|j] L; cbn; try lia; auto. apply IH. lia. }
    assert (NS : forall k (q : list Z) j, nth j (skipn k q) 0 = nth (k + j) q 0).
    { clear. induction k as [|k IH]; intros [|x q] j; cbn [skipn nth Nat.add]; auto. destruct j; reflexivity. }
    rewrite NF, NS by lia. reflexivity. }
  rewrite (le_int_skipn m b By) in S0. apply Z.div_small_iff in S0; [|apply Z.pow_nonzero; lia].
  pose proof (Z.pow_pos_nonneg 256 (Z.of_nat m)). lia.
Qed.

(** ** msm_serial *)
Section Serial.
Context {F : Type} (o : fops F) (c : cconf F) (HC : curve_laws o c) (sc : fconf) (Hs : odd_conf sc).
Notation g := (cpt_ops o c HC).
Notation HG := (cpt_laws o c HC).
Notation pt := (cpt o c).
Infix "⊕" := (gadd g) (at level 50, left associativity).
Notation "k ⋅ P" := (gmul g k P) (at level 40).
Definition rp (p : proj F) (Q : pt) : Prop := prep o c p (proj1_sig Q).
Definition ra (p : aff F) (Q : pt) : Prop := arep o c p (proj1_sig Q).
Lemma rp_add p q P Q : rp p P -> rp q Q -> rp (proj_add o c p q) (P ⊕ Q).
Proof. exact (add_repr o c HC p q _ _). Qed.
Lemma rp_madd p q P Q : rp p P -> ra q Q -> rp (proj_madd o c p q) (P ⊕ Q).
Proof. exact (madd_repr o c HC p q _ _). Qed.
Lemma rp_dbl p P : rp p P -> rp (proj_double o c p) (P ⊕ P).
Proof. exact (double_repr o c HC p _). Qed.
Lemma rp_id : rp (proj_identity o) (g0 g).
Proof. exact (identity_repr o c HC). Qed.
Lemma ra_add p q P Q : ra p P -> ra q Q -> rp (aff_add o c p q) (P ⊕ Q).
Proof. exact (aff_add_repr o c HC p q _ _). Qed.
Lemma ra_neg p P : ra p P -> ra (aff_neg o p) (gneg g P).
Proof. exact (aneg_repr o c HC p _). Qed.
Lemma rp_dbl_n n : forall p P, rp p P -> rp (double_n o c n p) ((2 ^ Z.of_nat n) ⋅ P).
Proof.
  induction n as [|n IH]; intros p P E; cbn [double_n].
  - change (2 ^ Z.of_nat 0) with 1. rewrite (gmul_1 g HG). exact E.
  - rewrite Nat2Z.inj_succ, Z.pow_succ_r, Z.mul_comm, (gmul_mul g HG) by lia.
    replace (2 ⋅ P) with (P ⊕ P); [apply IH, rp_dbl, E|].
    change 2 with (1 + 1). rewrite (gmul_add g HG), !(gmul_1 g HG). reflexivity.
Qed.

Definition rsb (b : sbucket (F := F)) (Q : pt) : Prop :=
  match b with SNone => Q = g0 g | SAffine a => ra a Q | SProj p => rp p Q end.
Lemma rsb_add_assign b B p P : rsb b B -> ra p P -> rsb (sbucket_add_assign o c b p) (B ⊕ P).
Proof.
  destruct b; cbn [rsb sbucket_add_assign]; intros E EP.
  - rewrite E, (gl_0 _ HG). exact EP.
  - apply ra_add; assumption.
  - apply rp_madd; assumption.
Qed.
Lemma rsb_add b B p P : rsb b B -> rp p P -> rp (sbucket_add o c b p) (P ⊕ B).
Proof.
  destruct b; cbn [rsb sbucket_add]; intros E EP.
  - rewrite E, (g_0_r g HG). exact EP.
  - apply rp_madd; assumption.
  - apply rp_add; assumption.
Qed.
Definition rbs {B} (R : B -> pt -> Prop) (bs : list B) (V : nat -> pt) : Prop := forall i b, nth_error bs i = Some b -> R b (V i).
Lemma rbs_set {B} (R : B -> pt -> Prop) bs V i b Q : rbs R bs V -> R b Q ->
  rbs R (set_nth bs i b) (fun j => if Nat.eqb j i then Q else V j).
Proof.
  intros E Eb j x Hx. rewrite set_nth_nth in Hx. destruct (Nat.eqb_spec i j) as [->|N].
  - rewrite Nat.eqb_refl. destruct (nth_error bs j); [injection Hx as <-; exact Eb|discriminate].
  - destruct (Nat.eqb_spec j i); [lia|]. apply E. exact Hx.
Qed.

Definition rcb (cb : list Z * aff F) (x : list Z * pt) : Prop := fst cb = fst x /\ ra (snd cb) (snd x).
Section Window.
Variables (ws w : Z).
Hypothesis Hw : 1 <= ws <= 24.
Hypothesis Hi : 0 <= w.
Notation N := (Z.to_nat (Z.shiftl 1 (ws - 1))).
Lemma n_buckets : Z.of_nat N = 2 ^ (ws - 1).
Proof. rewrite Z.shiftl_1_l, Z2Nat.id; [reflexivity|]. apply Z.pow_nonneg. lia. Qed.
Lemma serial_step_spec bs V cb x : rbs rsb bs V -> length bs = N -> rcb cb x -> is_bytes (fst x) ->
  exists bs' V', serial_step o c w ws (Some bs) cb = Some bs' /\ rbs rsb bs' V' /\ length bs' = N /\
    wsum g N V' = wsum g N V ⊕ (get_booth_index w ws (fst x) ⋅ snd x).
Proof.
  intros HB HL (E1 & E2) By. unfold serial_step. cbn [bindo]. rewrite E1. pose proof (booth_bound ws w (fst x) Hw Hi By) as Bd.
  pose proof n_buckets as NB. set (d := get_booth_index w ws (fst x)) in *.
  assert (T : forall p P, ra p P -> forall i, (i < N)%nat ->
    exists bs' V', upd_nth bs i (fun b => Some (sbucket_add_assign o c b p)) = Some bs' /\ rbs rsb bs' V' /\ length bs' = N /\
      wsum g N V' = wsum g N V ⊕ (Z.of_nat (S i) ⋅ P)).
  { intros p P EP i Li. destruct (upd_nth_spec bs i (fun b => Some (sbucket_add_assign o c b p))) as (b & y & Eb & Ey & ->); [lia|eauto|].
    injection Ey as <-. exists (set_nth bs i (sbucket_add_assign o c b p)), (vadd g V i P). split; [reflexivity|]. split; [|split].
    - intros j z Hz. pose proof (rbs_set rsb bs V i _ (V i ⊕ P) HB (rsb_add_assign b (V i) p P (HB i b Eb) EP) j z Hz) as X.
      unfold vadd. cbv beta in X. destruct (Nat.eqb_spec j i); [subst; exact X|exact X].
    - rewrite set_nth_length. exact HL.
    - apply (wsum_vadd g HG). exact Li. }
  destruct (Z.ltb_spec 0 d) as [Lp|Ln]; [|destruct (Z.ltb_spec d 0) as [Lm|Lz]].
  - destruct (T (snd cb) (snd x) E2 (Z.to_nat (d - 1))) as (bs' & V' & -> & R1 & R2 & R3); [lia|].
    exists bs', V'. repeat (split; auto). rewrite R3. f_equal. f_equal. lia.
  - destruct (T (aff_neg o (snd cb)) (gneg g (snd x)) (ra_neg _ _ E2) (Z.to_nat (- d - 1))) as (bs' & V' & -> & R1 & R2 & R3); [lia|].
    exists bs', V'. repeat (split; auto). rewrite R3. f_equal. rewrite (gmul_gneg g HG), <- (gmul_opp g HG). f_equal. lia.
  - exists bs, V. replace d with 0 by lia. rewrite gmul_0, (g_0_r g HG). auto.
Qed.
Lemma serial_fold_spec cbs l : Forall2 rcb cbs l -> Forall (fun x => is_bytes (fst x)) l -> forall bs V, rbs rsb bs V -> length bs = N ->
  exists bs' V', fold_left (serial_step o c w ws) cbs (Some bs) = Some bs' /\ rbs rsb bs' V' /\ length bs' = N /\
    wsum g N V' = wsum g N V ⊕ lin g (get_booth_index w ws) l.
Proof.
  induction 1 as [|cb x cbs l E F2 IH]; intros By bs V HB HL; cbn [fold_left].
  - exists bs, V. change (lin g (get_booth_index w ws) []) with (g0 g). rewrite (g_0_r g HG). auto.
  - inversion By as [|? ? Bx Bl]; subst. destruct (serial_step_spec bs V cb x HB HL E Bx) as (b1 & V1 & -> & R1 & R2 & R3).
    destruct (IH Bl b1 V1 R1 R2) as (b2 & V2 & -> & Q1 & Q2 & Q3). exists b2, V2. repeat (split; auto).
    rewrite Q3, R3, (gl_assoc _ HG). reflexivity.
Qed.
End Window.
Lemma sum_parts_spec {B} (R : B -> pt -> Prop) add : (forall b Bv p P, R b Bv -> rp p P -> rp (add b p) (P ⊕ Bv)) ->
  forall (l : list B) V rs RS acc A, rbs R (rev l) V -> rp rs RS -> rp acc A ->
  rp (sum_by_parts o c add l rs acc) (A ⊕ (Z.of_nat (length l) ⋅ RS) ⊕ wsum g (length l) V).
Proof.
  intros Ha. induction l as [|b l IH]; intros V rs RS acc A HB HR HA; cbn [sum_by_parts length].
  - cbn [wsum]. change (Z.of_nat 0) with 0. rewrite gmul_0, !(g_0_r g HG). exact HA.
  - assert (Eb : R b (V (length l))).
    { apply HB. cbn [rev]. rewrite nth_error_app2 by (rewrite rev_length; lia). rewrite rev_length, Nat.sub_diag. reflexivity. }
    assert (HB' : rbs R (rev l) V).
    { intros i x Hx. apply HB. cbn [rev]. rewrite nth_error_app1; [exact Hx|]. apply nth_error_Some. congruence. }
    pose proof (Ha _ _ _ _ Eb HR) as HR'. pose proof (IH V _ _ _ _ HB' HR' (rp_add _ _ _ _ HA HR')) as X.
    set (n := length l) in *. cbn [wsum].
    replace (A ⊕ (Z.of_nat (S n) ⋅ RS) ⊕ (wsum g n V ⊕ (Z.of_nat (S n) ⋅ V n))) with (A ⊕ (RS ⊕ V n) ⊕ (Z.of_nat n ⋅ (RS ⊕ V n)) ⊕ wsum g n V); [exact X|].
    rewrite Nat2Z.inj_succ. rewrite !(gmul_succ g HG), !(gmul_gadd g HG).
    apply (parts_shuffle g HG).
Qed.
Lemma serial_window_spec ws w cbs l acc A : 1 <= ws <= 24 -> 0 <= w -> Forall2 rcb cbs l -> Forall (fun x => is_bytes (fst x)) l -> rp acc A ->
  exists acc', serial_window o c ws cbs (Some acc) w = Some acc' /\ rp acc' ((2 ^ ws ⋅ A) ⊕ lin g (get_booth_index w ws) l).
Proof.
  intros Hw Hi HF By HA. unfold serial_window. cbn [bindo]. set (N := Z.to_nat (Z.shiftl 1 (ws - 1))).
  destruct (serial_fold_spec ws w Hw Hi cbs l HF By (repeat SNone N) (fun _ => g0 g)) as (bs & V & -> & R1 & R2 & R3).
  - intros i b Hb. apply nth_error_repeat in Hb. subst. reflexivity.
  - apply repeat_length.
  - fold N in R2, R3. cbn [bindo]. eexists. split; [reflexivity|].
    pose proof (sum_parts_spec rsb (sbucket_add o c) rsb_add (rev bs) V (proj_identity o) (g0 g)
      (double_n o c (Z.to_nat ws) acc) ((2 ^ ws) ⋅ A)) as X.
    rewrite rev_involutive, rev_length, R2, R3, (gmul_g0 g HG), (g_0_r g HG), (wsum_zero g HG), (gl_0 _ HG) in X.
    apply X; [exact R1|exact rp_id|]. replace ws with (Z.of_nat (Z.to_nat ws)) at 2 by lia. apply rp_dbl_n. exact HA.
Qed.
(** All windows, from the top one down *)
Lemma serial_windows_spec ws cbs l : 1 <= ws <= 24 -> Forall2 rcb cbs l -> Forall (fun x => is_bytes (fst x)) l ->
  forall n acc X, rp acc (X ⊕ lin g (fun el => round_at ws (Z.of_nat n) (le_int el)) l) ->
  exists acc', fold_left (serial_window o c ws cbs) (rev (map Z.of_nat (seq 0 n))) (Some acc) = Some acc' /\
    rp acc' ((2 ^ (ws * Z.of_nat n) ⋅ X) ⊕ lin g le_int l).
Proof.
  intros Hw HF By. induction n as [|n IH]; intros acc X HA.
  - exists acc. split; [reflexivity|]. change (Z.of_nat 0) with 0 in *. rewrite Z.mul_0_r. change (2 ^ 0) with 1. rewrite (gmul_1 g HG).
    rewrite (lin_ext g le_int (fun el => round_at ws 0 (le_int el))); [exact HA|].
    apply Forall_forall. intros x _. symmetry. apply round_0.
  - rewrite seq_S, map_app, rev_app_distr. cbn [map rev app fold_left Nat.add].
    destruct (serial_window_spec ws (Z.of_nat n) cbs l acc _ Hw ltac:(lia) HF By HA) as (a1 & -> & R1).
    destruct (IH a1 (2 ^ ws ⋅ X)) as (a2 & -> & R2).
    + rewrite (gmul_gadd g HG), (gl_assoc _ HG), (lin_comb g HG) in R1.
      rewrite (lin_ext g _ (fun el => round_at ws (Z.of_nat n) (le_int el))) in R1; [exact R1|].
      eapply Forall_impl; [|exact By]. intros x Bx. cbv beta. rewrite booth_spec by (auto; lia).
      rewrite Nat2Z.inj_succ. unfold Z.succ. ring.
    + exists a2. split; [reflexivity|]. rewrite <- (gmul_mul g HG), <- Z.pow_add_r in R2 by lia.
      replace (ws * Z.of_nat (S n)) with (ws * Z.of_nat n + ws) by lia. exact R2.
Qed.

Definition msum (ks : list Z) (Qs : list pt) : pt := gsum g (map (fun x => fst x ⋅ snd x) (combine ks Qs)).
Definition rscalar (k : list Z) (v : Z) : Prop := represents (num_limbs sc) (modulus sc) k v.
Lemma bytes_of_scalars ks vs : Forall2 rscalar ks vs ->
  Forall2 (fun b v => is_bytes b /\ le_int b = v /\ 0 <= v < modulus sc) (map (to_repr sc) ks) vs.
Proof.
  induction 1 as [|k v ks vs E _ IH]; cbn [map]; constructor; [|exact IH].
  destruct (to_repr_spec sc Hs k v E) as (_ & B & L). split; [exact B|]. split; [exact L|]. apply E.
Qed.
Lemma combine_rcb bs vs bases Qs : Forall2 (fun b v => is_bytes b /\ le_int b = v /\ 0 <= v < modulus sc) bs vs -> Forall2 ra bases Qs ->
  Forall2 rcb (combine bs bases) (combine bs Qs) /\ Forall (fun x => In (fst x) bs /\ is_bytes (fst x)) (combine bs Qs) /\
  lin g le_int (combine bs Qs) = msum vs Qs.
Proof.
  intros HF. revert bases Qs. induction HF as [|b v bs vs (B & L & _) HF IH]; intros bases Qs HQ; [repeat split; constructor|].
  destruct HQ as [|p P bases Qs E HQ]; [repeat split; constructor|]. cbn [combine]. destruct (IH _ _ HQ) as (I1 & I2 & I3). split; [|split].
  - constructor; [split; [reflexivity|exact E]|exact I1].
  - constructor; [cbn; auto|]. eapply Forall_impl; [|exact I2]. intros x (X1 & X2). cbn. auto.
  - unfold lin, msum in *. cbn [map gsum fold_right fst snd combine]. rewrite L. f_equal. exact I3.
Qed.
Lemma combine_map_l {A B C} (f : A -> C) (l : list A) (l' : list B) : combine (map f l) l' = map (fun x => (f (fst x), snd x)) (combine l l').
Proof. revert l'. induction l as [|x l IH]; intros [|y l']; cbn; [reflexivity..|]. f_equal. apply IH. Qed.

Variable ln_ceil : nat -> Z.
Hypothesis Hln : forall n, (32 <= n)%nat -> 1 <= ln_ceil n <= 24.
Lemma window_range n : 1 <= window_size ln_ceil n <= 24.
Proof. unfold window_size. destruct (Nat.ltb_spec n 4); [lia|]. destruct (Nat.ltb_spec n 32); [lia|]. apply Hln. assumption. Qed.
(** The factor that [msm_serial] applies to the accumulator it is given *)
Definition serial_shift (ks : list (list Z)) (n : nat) : Z :=
  let m := Z.of_nat (max_byte_size sc (map (to_repr sc) ks)) in
  let ws := window_size ln_ceil n in if m =? 0 then 0 else ws * (m * 8 / ws + 1).
Theorem msm_serial_spec ks vs bases Qs acc A : Forall2 rscalar ks vs -> Forall2 ra bases Qs -> rp acc A ->
  exists r, msm_serial o c sc ln_ceil ks bases acc = Some r /\ rp r ((2 ^ serial_shift ks (length bases) ⋅ A) ⊕ msum vs Qs).
Proof.
  intros HK HB HA. unfold msm_serial, serial_shift. pose proof (bytes_of_scalars ks vs HK) as HY.
  set (bs := map (to_repr sc) ks) in *. destruct (combine_rcb bs vs bases Qs HY HB) as (C1 & C2 & C3). pose proof (window_range (length bases)) as Hw.
  set (ws := window_size ln_ceil (length bases)) in *. set (m := max_byte_size sc bs).
  assert (BF : Forall (fun b => is_bytes b /\ 0 <= le_int b < modulus sc) bs).
  { clear - HY. induction HY as [|b v bs vs (X & Y & Z0) HY IH]; constructor; [subst; auto|exact IH]. }
  assert (Bd : forall b, In b bs -> 0 <= le_int b < 256 ^ Z.of_nat m).
  { intros b Hb. split; [apply (proj1 (Forall_forall _ _) BF b Hb)|]. apply (max_byte_size_spec sc bs b BF Hb). apply Hs. }
  destruct (Nat.eqb_spec m 0) as [M0|M0].
  - exists acc. split; [reflexivity|]. rewrite M0. cbn [Z.eqb Z.of_nat]. change (2 ^ 0) with 1. rewrite (gmul_1 g HG).
    replace (msum vs Qs) with (g0 g); [rewrite (g_0_r g HG); exact HA|]. rewrite <- C3, (lin_ext g le_int (fun _ => 0)).
    + unfold lin. clear - HA. induction (combine bs Qs) as [|x l IH]; [reflexivity|]. cbn [map gsum fold_right]. rewrite gmul_0, (gl_0 _ HG). exact IH.
    + eapply Forall_impl; [|exact C2]. intros x (X & _). cbv beta. specialize (Bd _ X). rewrite M0 in Bd. change (256 ^ Z.of_nat 0) with 1 in Bd. lia.
  - destruct (Z.eqb_spec (Z.of_nat m) 0) as [X0|_]; [lia|]. destruct (Z.leb_spec ws 0) as [X0|_]; [lia|]. set (n := Z.of_nat m * 8 / ws + 1).
    pose proof (Z.div_mod (Z.of_nat m * 8) ws ltac:(lia)) as DM. pose proof (Z.mod_pos_bound (Z.of_nat m * 8) ws ltac:(lia)) as MB.
    assert (Hn : 0 <= Z.of_nat m * 8 / ws) by (apply Z.div_pos; lia).
    assert (Tn : Z.of_nat (Z.to_nat n) = n) by (unfold n; lia).
    destruct (serial_windows_spec ws (combine bs bases) (combine bs Qs) Hw C1 (Forall_impl _ (fun x X => proj2 X) C2) (Z.to_nat n) acc A) as (r & E & R).
    + rewrite Tn, (lin_ext g _ (fun _ => 0)).
      * replace (lin g (fun _ => 0) (combine bs Qs)) with (g0 g); [rewrite (g_0_r g HG); exact HA|].
        unfold lin. clear - HA. induction (combine bs Qs) as [|x l IH]; [reflexivity|]. cbn [map gsum fold_right]. rewrite gmul_0, (gl_0 _ HG). exact IH.
      * eapply Forall_impl; [|exact C2]. intros x (X & _). cbv beta. specialize (Bd _ X).
        assert (Hwn : 8 * Z.of_nat m + 1 <= ws * n) by (unfold n; rewrite Z.mul_add_distr_l; lia).
        apply round_top; [lia|lia|].
        assert (PL : 2 ^ (8 * Z.of_nat m + 1) <= 2 ^ (ws * n)) by (apply Z.pow_le_mono_r; lia).
        rewrite Z.pow_add_r, Z.pow_mul_r in PL by lia. change (2 ^ 8) with 256 in PL. change (2 ^ 1) with 2 in PL. lia.
    + exists r. split; [exact E|]. rewrite Tn, C3 in R. exact R.
Qed.
Corollary msm_serial_zero ks vs bases Qs : Forall2 rscalar ks vs -> Forall2 ra bases Qs ->
  exists r, msm_serial o c sc ln_ceil ks bases (proj_identity o) = Some r /\ rp r (msum vs Qs).
Proof.
  intros HK HB. destruct (msm_serial_spec ks vs bases Qs _ _ HK HB rp_id) as (r & E & R). exists r. split; [exact E|].
  rewrite (gmul_g0 g HG), (gl_0 _ HG) in R. exact R.
Qed.
(** ** msm_parallel *)
Lemma f2_len {A B} (R : A -> B -> Prop) l l' : Forall2 R l l' -> length l = length l'.
Proof. induction 1; cbn; auto. Qed.
Lemma f2_firstn {A B} (R : A -> B -> Prop) n : forall l l', Forall2 R l l' -> Forall2 R (firstn n l) (firstn n l').
Proof. induction n; intros l l' E; [constructor|]. destruct E; cbn; constructor; auto. Qed.
Lemma f2_skipn {A B} (R : A -> B -> Prop) n : forall l l', Forall2 R l l' -> Forall2 R (skipn n l) (skipn n l').
Proof. induction n; intros l l' E; [exact E|]. destruct E; cbn; [constructor|auto]. Qed.
Lemma msum_split n vs Qs : length vs = length Qs -> msum vs Qs = msum (firstn n vs) (firstn n Qs) ⊕ msum (skipn n vs) (skipn n Qs).
Proof.
  intros L. unfold msum. rewrite <- (gsum_app g HG), <- map_app. f_equal. f_equal.
  revert vs Qs L. induction n as [|n IH]; intros [|v vs] [|Q Qs] L; cbn in L; try lia; try reflexivity. cbn. f_equal. apply IH. lia.
Qed.
Lemma chunks_spec ch : (0 < ch)%nat -> forall fuel fuel' ks vs bases Qs acc A, Forall2 rscalar ks vs -> Forall2 ra bases Qs -> length ks = length bases ->
  (length ks <= fuel)%nat -> (length ks <= fuel')%nat -> rp acc A ->
  exists rs, sequence (map (fun cb => msm_serial o c sc ln_ceil (fst cb) (snd cb) (proj_identity o))
      (combine (chunks fuel ch ks) (chunks fuel' ch bases))) = Some rs /\ rp (fold_left (proj_add o c) rs acc) (A ⊕ msum vs Qs).
Proof.
  intros Hch. induction fuel as [|fuel IH]; intros fuel' ks vs bases Qs acc A HK HB L U U' HA.
  - destruct HK; [|cbn in U; lia]. exists []. split; [reflexivity|]. unfold msum. cbn [combine map gsum fold_right]. rewrite (g_0_r g HG). exact HA.
  - destruct HK as [|k v ks vs Ek HK]; [exists []; split; [reflexivity|unfold msum; cbn [combine map gsum fold_right]; rewrite (g_0_r g HG); exact HA]|].
    destruct HB as [|b Q bases Qs Eb HB]; [cbn in L; lia|]. destruct fuel' as [|fuel']; [cbn in U'; lia|].
    assert (HK' := Forall2_cons _ _ Ek HK). assert (HB' := Forall2_cons _ _ Eb HB).
    set (ks' := k :: ks) in *. set (vs' := v :: vs) in *. set (bases' := b :: bases) in *. set (Qs' := Q :: Qs) in *.
    assert (E1 : chunks (S fuel) ch ks' = firstn ch ks' :: chunks fuel ch (skipn ch ks')) by reflexivity.
    assert (E2 : chunks (S fuel') ch bases' = firstn ch bases' :: chunks fuel' ch (skipn ch bases')) by reflexivity.
    rewrite E1, E2. cbn [combine map fst snd sequence fold_right].
    destruct (msm_serial_zero (firstn ch ks') (firstn ch vs') (firstn ch bases') (firstn ch Qs') (f2_firstn _ _ _ _ HK') (f2_firstn _ _ _ _ HB')) as (r & -> & R).
    assert (Lk : length ks' = S (length ks)) by reflexivity. pose proof (f2_len _ _ _ HK') as LV. pose proof (f2_len _ _ _ HB') as LQ.
    destruct (IH fuel' (skipn ch ks') (skipn ch vs') (skipn ch bases') (skipn ch Qs') (proj_add o c acc r) (A ⊕ msum (firstn ch vs') (firstn ch Qs'))
      (f2_skipn _ _ _ _ HK') (f2_skipn _ _ _ _ HB')) as (rs & E & RR).
    { rewrite !skipn_length. lia. } { rewrite skipn_length. lia. } { rewrite skipn_length. lia. } { apply rp_add; assumption. }
    exists (r :: rs). split; [unfold sequence in E; rewrite E; reflexivity|]. cbn [fold_left].
    rewrite (msum_split ch vs' Qs'), <- (gl_assoc _ HG) by lia. exact RR.
Qed.
Theorem msm_parallel_spec threads ks vs bases Qs : (0 < threads)%nat -> Forall2 rscalar ks vs -> Forall2 ra bases Qs -> length ks = length bases ->
  exists r, msm_parallel o c sc ln_ceil threads ks bases = Some r /\ rp r (msum vs Qs).
Proof.
  intros Ht HK HB L. unfold msm_parallel. rewrite L, Nat.eqb_refl. cbn [negb]. destruct (Nat.ltb_spec threads (length bases)) as [LT|GE].
  - assert (C0 : (0 < Nat.div (length bases) threads)%nat) by (apply Nat.div_str_pos; lia).
    destruct (Nat.eqb_spec (Nat.div (length bases) threads) 0) as [X|_]; [lia|].
    destruct (chunks_spec _ C0 (length bases) (length bases) ks vs bases Qs (proj_identity o) (g0 g) HK HB L) as (rs & -> & R); [lia|lia|exact rp_id|].
    cbn [bindo]. eexists. split; [reflexivity|]. rewrite (gl_0 _ HG) in R. exact R.
  - apply msm_serial_zero; assumption.
Qed.
End Serial.
