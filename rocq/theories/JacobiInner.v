(** The inner loop of [jacobi]: it follows the exact values, keeps the symbol up to
    the sign bit, and makes progress. *)
From Verif Require Import Base Word Limbs SpecField LimbsFacts Field Inverse InverseFacts
  SpecJacobi JacSymFacts Jacobi JacobiLint.

(** ** Bits *)
Lemma testbit_cong x y k i : (2 ^ k | x - y) -> 0 <= i < k -> Z.testbit x i = Z.testbit y i.
Proof.
  intros [q E] Hi. rewrite <- (Z.mod_pow2_bits_low x k) by lia. rewrite <- (Z.mod_pow2_bits_low y k) by lia.
  f_equal. replace x with (y + q * 2 ^ k) by lia. apply Z_mod_plus_full.
Qed.
Lemma odd_cong x y k : (2 ^ k | x - y) -> 0 < k -> Z.odd x = Z.odd y.
Proof. intros H Hk. rewrite <- !Z.bit0_odd. apply (testbit_cong x y k); [exact H|lia]. Qed.
Lemma land_one_odd x : (0 <? Z.land x 1) = Z.odd x.
Proof.
  change 1 with (Z.ones 1). rewrite Z.land_ones by lia. change (2 ^ 1) with 2. rewrite Zmod_odd.
  now destruct (Z.odd x).
Qed.
Lemma land_two x : Z.land x 2 = if Z.testbit x 1 then 2 else 0.
Proof.
  apply Z.bits_inj'. intros i Hi. rewrite Z.land_spec.
  assert (E : Z.testbit 2 i = (i =? 1)) by (change 2 with (2 ^ 1); rewrite Z.pow2_bits_eqb by lia; apply Z.eqb_sym).
  rewrite E. destruct (Z.eqb_spec i 1) as [-> | Hn].
  - rewrite andb_true_r. now destruct (Z.testbit x 1).
  - rewrite andb_false_r. destruct (Z.testbit x 1); [|now rewrite Z.bits_0].
    now rewrite E.
Qed.
Lemma jac_result_spec u t : jac_result u t = if u then sgn_of (Z.testbit t 1) else 0.
Proof. unfold jac_result. rewrite land_two. destruct u, (Z.testbit t 1); reflexivity. Qed.

Lemma half_bits b : Z.testbit (Z.lxor b (Z.shiftr b 1)) 1 = xorb (Z.testbit b 1) (Z.testbit b 2).
Proof. rewrite Z.lxor_spec, Z.shiftr_spec by lia. reflexivity. Qed.
Lemma batch_bits b z : Z.testbit (Z.land (Z.lxor b (Z.shiftr b 1)) (Z.shiftl z 1)) 1
  = xorb (Z.testbit b 1) (Z.testbit b 2) && Z.odd z.
Proof. rewrite Z.land_spec, half_bits, Z.shiftl_spec by lia. now rewrite <- Z.bit0_odd. Qed.

Lemma jm_pow2 z x y : 0 <= z -> Z.odd y = true ->
  jm (2 ^ z * x) y = sgn_of (xorb (Z.testbit y 1) (Z.testbit y 2) && Z.odd z) * jm x y.
Proof.
  intros Hz Hy. set (e := xorb _ _). pattern z. apply natlike_ind; [| |exact Hz].
  - cbn [Z.odd]. rewrite andb_false_r. cbn [sgn_of]. rewrite !Z.mul_1_l. reflexivity.
  - intros k Hk IH. rewrite Z.pow_succ_r, <- Z.mul_assoc, jm_double, IH by assumption. fold e.
    rewrite Z.mul_assoc, <- sgn_xor. do 2 f_equal. rewrite Z.odd_succ, <- Z.negb_odd.
    destruct e, (Z.odd k); reflexivity.
Qed.

Lemma pos_ctz_spec p : 0 <= pos_ctz p /\ exists q, Zpos p = 2 ^ pos_ctz p * q /\ Z.odd q = true.
Proof.
  induction p as [p IH|p IH|]; cbn [pos_ctz].
  - split; [lia|]. exists (Zpos p~1). split; [now rewrite Z.mul_1_l|reflexivity].
  - destruct IH as [H0 (q & E & O)]. split; [lia|]. exists q. split; [|exact O].
    rewrite Z.pow_add_r, <- Z.mul_assoc, <- E by lia. reflexivity.
  - split; [lia|]. exists 1. split; reflexivity.
Qed.
Lemma ctz64_spec x : 0 <= x < W -> 0 <= ctz64 x /\ (2 ^ ctz64 x | x) /\ (Z.odd x = false -> 1 <= ctz64 x).
Proof.
  intros Hx. destruct x as [|p|p]; [| |lia]; cbn [ctz64].
  - split; [lia|]. split; [apply Z.divide_0_r|lia].
  - destruct (pos_ctz_spec p) as [H0 (q & E & O)]. split; [exact H0|]. split; [exists q; lia|].
    intros Ev. destruct (Z.eq_dec (pos_ctz p) 0) as [Ez|]; [|lia].
    rewrite Ez in E. rewrite Z.mul_1_l in E. rewrite E in Ev. congruence.
Qed.

(** Arithmetic without the boolean hypotheses, which slow it down. *)
Ltac nobool := repeat match goal with H : @eq bool _ _ |- _ => clear H end.
Ltac zlia := nobool; lia.
Ltac znia := nobool; nia.

(** ** The exact values behind the inner loop *)
Section inner.
Context (n d sigma : Z).

Record jinv (s : jac_in) (N D : Z) : Prop := {
  jv_i : 0 <= ji s <= 30;
  jv_a : 0 <= ja s < W;
  jv_b : 0 <= jb s < W;
  jv_N : 2 ^ (30 - ji s) * N = n * ju0 s + d * ju1 s;
  jv_D : 2 ^ (30 - ji s) * D = n * jv0 s + d * jv1 s;
  jv_u : Z.abs (ju0 s) + Z.abs (ju1 s) <= 2 ^ (30 - ji s);
  jv_v : Z.abs (jv0 s) + Z.abs (jv1 s) <= 2 ^ (30 - ji s);
  jv_ca : (2 ^ (ji s + 2) | ja s - N);
  jv_cb : (2 ^ (ji s + 2) | jb s - D);
  jv_odd : Z.odd D = true;
  jv_pos : 0 < D \/ 0 < N;
  jv_sym : sgn_of (Z.testbit (jt s) 1) * jm N D = sigma
}.

(** What one round does to the approximations and the exact values. *)
Inductive jmove (a b N D i : Z) : Z -> Z -> Z -> Z -> Z -> Prop :=
| JM_sub a' N' : b <= a -> a = 2 * a' + b -> N = 2 * N' + D -> jmove a b N D i a' b N' D (i - 1)
| JM_swap a' N' : a < b -> b = 2 * a' + a -> D = 2 * N' + N -> jmove a b N D i a' a N' N (i - 1)
| JM_half a' N' z : 1 <= z <= i -> a = 2 ^ z * a' -> N = 2 ^ z * N' -> jmove a b N D i a' b N' D (i - z).

Lemma div_pow_cancel k x : 0 <= k -> (2 ^ (k + 1) | 2 * x) -> (2 ^ k | x).
Proof.
  intros Hk [q E]. rewrite Z.pow_add_r in E by lia. change (2 ^ 1) with 2 in E. exists q. lia.
Qed.
Lemma divide_lower a b x : 0 <= a <= b -> (2 ^ b | x) -> (2 ^ a | x).
Proof. intros H D. eapply Z.divide_trans; [apply pow_divide, H|exact D]. Qed.

Lemma p30 k : 0 <= k <= 30 -> 1 <= 2 ^ k <= 1073741824.
Proof.
  intros Hk. split; [apply (Z.pow_le_mono_r 2 0 k); lia|].
  change 1073741824 with (2 ^ 30). apply Z.pow_le_mono_r; lia.
Qed.
Lemma H63_30 : 4294967296 < H63. Proof. reflexivity. Qed.

Lemma jac_inner_step_spec s N D : 0 < ji s -> jinv s N D -> exists N' D',
  jinv (jac_inner_step s) N' D' /\ 0 <= ji (jac_inner_step s) < ji s /\
  jmove (ja s) (jb s) N D (ji s) (ja (jac_inner_step s)) (jb (jac_inner_step s)) N' D' (ji (jac_inner_step s)).
Proof.
  intros Hi [Vi Va Vb VN VD Vu Vv Vca Vcb Vodd Vpos Vsym].
  destruct s as [a b u0 u1 v0 v1 t i]. cbn [ja jb ju0 ju1 jv0 jv1 jt ji] in *.
  assert (Eb : Z.odd b = true) by (rewrite (odd_cong b D (i + 2)); [exact Vodd|exact Vcb|zlia]).
  assert (Ea : Z.odd a = Z.odd N) by (apply (odd_cong a N (i + 2)); [exact Vca|zlia]).
  pose proof (p30 (30 - i) ltac:(zlia)) as HP. pose proof H63_30 as H30.
  unfold jac_inner_step. cbn [ja jb ju0 ju1 jv0 jv1 jt ji]. rewrite land_one_odd.
  assert (S2 : forall x, Z.shiftl x 1 = 2 * x) by (intros x; rewrite Z.shiftl_mul_pow2 by zlia; change (2 ^ 1) with 2; ring).
  assert (PS : 2 ^ (30 - (i - 1)) = 2 * 2 ^ (30 - i)) by (replace (30 - (i - 1)) with (Z.succ (30 - i)) by zlia; apply Z.pow_succ_r; zlia).
  destruct (Z.odd a) eqn:Oa.
  - (* odd *)
    symmetry in Ea.
    assert (OO : forall x y, Z.odd x = true -> Z.odd y = true -> exists w, x = 2 * w + y).
    { intros x y Hx Hy. apply Z.odd_spec in Hx, Hy. destruct Hx as [p ->], Hy as [q ->]. exists (p - q). ring. }
    assert (SH : forall x y w, 0 <= y <= x -> x < W -> x = 2 * w + y -> Z.shiftr ((x - y) mod W) 1 = w).
    { intros x y w H1 H2 E. rewrite Z.mod_small by zlia. rewrite Z.shiftr_div_pow2 by zlia. change (2 ^ 1) with 2.
      replace (x - y) with (w * 2) by zlia. apply Z.div_mul. zlia. }
    assert (T1 : Z.testbit a 1 = Z.testbit N 1) by (apply (testbit_cong _ _ (i + 2)); [exact Vca|zlia]).
    assert (T1b : Z.testbit b 1 = Z.testbit D 1) by (apply (testbit_cong _ _ (i + 2)); [exact Vcb|zlia]).
    assert (T2 : Z.testbit a 2 = Z.testbit N 2) by (apply (testbit_cong _ _ (i + 2)); [exact Vca|zlia]).
    assert (T2b : Z.testbit b 2 = Z.testbit D 2) by (apply (testbit_cong _ _ (i + 2)); [exact Vcb|zlia]).
    set (q := 2 ^ (30 - i)) in *.
    assert (RU : forall x y, Z.abs x <= q -> Z.abs y <= q -> i64w (x - y) = x - y /\ i64w (2 * y) = 2 * y).
    { clear - HP H30. intros x y Hx Hy. split; apply i64w_id; lia. }
    assert (A0 : Z.abs u0 <= q) by (clear - Vu; lia). assert (A1 : Z.abs u1 <= q) by (clear - Vu; lia).
    assert (A2 : Z.abs v0 <= q) by (clear - Vv; lia). assert (A3 : Z.abs v1 <= q) by (clear - Vv; lia).
    assert (AS : forall x0 x1 y0 y1, Z.abs x0 + Z.abs x1 <= q -> Z.abs y0 + Z.abs y1 <= q ->
      Z.abs (x0 - y0) + Z.abs (x1 - y1) <= 2 * q) by (clear; intros; lia).
    assert (AD : forall x0 x1, Z.abs x0 + Z.abs x1 <= q -> Z.abs (2 * x0) + Z.abs (2 * x1) <= 2 * q) by (clear; intros; lia).
    assert (I1 : 0 <= i - 1 <= 30) by (clear - Vi Hi; lia).
    assert (I2 : 0 <= i - 1 + 2) by (clear - Hi; lia).
    assert (I3 : 0 <= i - 1 + 2 <= i + 2) by (clear - Hi; lia).
    assert (I4 : 0 <= i - 1 < i) by (clear - Hi; lia).
    destruct (Z.ltb_spec a b) as [C|C]; cbn [ja jb ju0 ju1 jv0 jv1 jt ji].
    + destruct (OO b a Eb Oa) as [a' E]. destruct (OO D N Vodd Ea) as [N' E'].
      rewrite (SH b a a' (conj (proj1 Va) (Z.lt_le_incl _ _ C)) (proj2 Vb) E). rewrite !S2.
      destruct (RU v0 u0 A2 A0) as [-> ->]. destruct (RU v1 u1 A3 A1) as [-> ->].
      exists N', N. split; [|split; [exact I4|apply JM_swap; assumption]].
      constructor; cbn [ja jb ju0 ju1 jv0 jv1 jt ji]; rewrite ?PS.
      * exact I1.
      * clear - E Vb Va C. lia.
      * exact Va.
      * rewrite E' in VD. clear - VD VN. nia.
      * clear - VN. nia.
      * now apply AS.
      * now apply AD.
      * apply div_pow_cancel; [exact I2|]. replace (i - 1 + 2 + 1) with (i + 2) by ring.
        replace (2 * (a' - N')) with ((b - D) - (a - N)) by (rewrite E, E'; ring). now apply Z.divide_sub_r.
      * apply (divide_lower _ (i + 2)); [exact I3|exact Vca].
      * exact Ea.
      * assert (N <> 0) by (intros ->; discriminate). clear - Vpos E' H. lia.
      * rewrite !Z.lxor_spec, Z.land_spec. rewrite Z.shiftr_spec by easy.
        change (1 + 1) with 2. rewrite T1, T1b, T2, !sgn_xor.
        rewrite <- Vsym. rewrite (jm_swap N D (match Vpos with or_introl x => or_intror x | or_intror x => or_introl x end) Ea Vodd).
        rewrite <- (jm_sub D N Ea). replace (D - N) with (2 * N') by (rewrite E'; ring). rewrite jm_double by exact Ea.
        rewrite sgn_xor, (andb_comm (Z.testbit N 1)). ring.
    + destruct (OO a b Oa Eb) as [a' E]. destruct (OO N D Ea Vodd) as [N' E'].
      rewrite (SH a b a' (conj (proj1 Vb) C) (proj2 Va) E). rewrite !S2.
      destruct (RU u0 v0 A0 A2) as [-> ->]. destruct (RU u1 v1 A1 A3) as [-> ->].
      exists N', D. split; [|split; [exact I4|apply JM_sub; assumption]].
      constructor; cbn [ja jb ju0 ju1 jv0 jv1 jt ji]; rewrite ?PS.
      * exact I1.
      * clear - E Vb Va C. lia.
      * exact Vb.
      * rewrite E' in VN. clear - VD VN. nia.
      * clear - VD. nia.
      * now apply AS.
      * now apply AD.
      * apply div_pow_cancel; [exact I2|]. replace (i - 1 + 2 + 1) with (i + 2) by ring.
        replace (2 * (a' - N')) with ((a - N) - (b - D)) by (rewrite E, E'; ring). now apply Z.divide_sub_r.
      * apply (divide_lower _ (i + 2)); [exact I3|exact Vcb].
      * exact Vodd.
      * clear - Vpos E'. lia.
      * rewrite !Z.lxor_spec. rewrite Z.shiftr_spec by easy.
        change (1 + 1) with 2. rewrite T1b, T2b, !sgn_xor.
        rewrite <- Vsym. rewrite <- (jm_sub N D Vodd). replace (N - D) with (2 * N') by (rewrite E'; ring). rewrite jm_double by exact Vodd.
        rewrite sgn_xor. ring.
  - (* even *)
    destruct (ctz64_spec a Va) as (Z0 & Zd & Z1). specialize (Z1 Oa).
    set (z := Z.min i (ctz64 a)). assert (Hz : 1 <= z <= i) by (clear - z Z1 Hi; lia).
    assert (Hz0 : 0 <= z) by (clear - Hz; lia).
    assert (P : 0 < 2 ^ z) by (apply Z.pow_pos_nonneg; [easy|exact Hz0]).
    assert (Dz : (2 ^ z | a)) by (apply (divide_lower _ (ctz64 a)); [clear - z Z1 Hi; lia|exact Zd]).
    clearbody z. destruct Dz as [a' E]. assert (DzN : (2 ^ z | N)).
    { replace N with (a - (a - N)) by ring. apply Z.divide_sub_r; [exists a'; exact E|].
      apply (divide_lower _ (i + 2)); [clear - Hz; lia|exact Vca]. }
    destruct DzN as [N' E'].
    assert (EA : Z.shiftr a z = a').
    { rewrite Z.shiftr_div_pow2, E, Z.div_mul; [reflexivity|clear - P; lia|exact Hz0]. }
    rewrite EA. rewrite !(Z.shiftl_mul_pow2 _ z) by exact Hz0.
    assert (PZ : 2 ^ (30 - (i - z)) = 2 ^ z * 2 ^ (30 - i)).
    { rewrite <- Z.pow_add_r by (clear - Hz Vi; lia). f_equal. ring. }
    pose proof (p30 (30 - (i - z)) ltac:(clear - Hz Vi; lia)) as HPz.
    assert (AV : Z.abs (v0 * 2 ^ z) + Z.abs (v1 * 2 ^ z) <= 2 ^ (30 - (i - z))).
    { rewrite !Z.abs_mul, (Z.abs_eq (2 ^ z)), PZ by (clear - P; lia). clear - Vv P. nia. }
    assert (W0 : i64w (v0 * 2 ^ z) = v0 * 2 ^ z) by (apply i64w_id; clear - AV HPz H30; lia).
    assert (W1 : i64w (v1 * 2 ^ z) = v1 * 2 ^ z) by (apply i64w_id; clear - AV HPz H30; lia).
    rewrite W0, W1.
    exists N', D. split; [|split; [cbn [ji]; clear - Hz; lia|]].
    2: { cbn [ja jb ju0 ju1 jv0 jv1 jt ji]. apply JM_half; [exact Hz|rewrite E; ring|rewrite E'; ring]. }
    constructor; cbn [ja jb ju0 ju1 jv0 jv1 jt ji]; rewrite ?PZ.
    + clear - Hz Vi. lia.
    + clear - E P Va. split; [nia|]. assert (0 <= a') by nia. nia.
    + exact Vb.
    + rewrite <- VN, E'. ring.
    + rewrite <- Z.mul_assoc, VD. ring.
    + clear - Vu P HP. nia.
    + rewrite <- PZ. exact AV.
    + destruct Vca as [q Eq]. exists q.
      assert (EP : 2 ^ (i + 2) = 2 ^ z * 2 ^ (i - z + 2)).
      { rewrite <- Z.pow_add_r by (clear - Hz Vi; lia). f_equal. ring. }
      rewrite EP, E, E' in Eq. clear - Eq P. nia.
    + apply (divide_lower _ (i + 2)); [clear - Hz; lia|exact Vcb].
    + exact Vodd.
    + clear - Vpos E' P. nia.
    + assert (B1 : 0 <= 1 < i + 2) by (clear - Hi; lia). assert (B2 : 0 <= 2 < i + 2) by (clear - Hi; lia).
      rewrite Z.lxor_spec, batch_bits, sgn_xor.
      rewrite (testbit_cong b D (i + 2) 1 Vcb B1), (testbit_cong b D (i + 2) 2 Vcb B2).
      rewrite <- Vsym, E', (Z.mul_comm N'), jm_pow2 by assumption. ring.
Qed.
End inner.
