(** Division steps of Bernstein and Yang: correctness and termination of the
    loops of Inverse.v. *)
From Verif Require Import Base Word Limbs SpecField LimbsFacts Field Inverse InverseFacts ConvertFacts.

(** ** Single steps *)
Record dst := mk_dst { dd : Z; df : Z; dg : Z }.
Definition divstep (s : dst) : dst :=
  if Z.odd (dg s) then
    if 0 <? dd s then mk_dst (1 - dd s) (dg s) ((dg s - df s) / 2)
    else mk_dst (1 + dd s) (df s) ((dg s + df s) / 2)
  else mk_dst (1 + dd s) (df s) (dg s / 2).
Fixpoint divsteps (n : nat) (s : dst) : dst :=
  match n with O => s | S n' => divsteps n' (divstep s) end.

Lemma divsteps_add : forall a b s, divsteps (a + b) s = divsteps b (divsteps a s).
Proof. induction a as [|a IH]; intros b s; cbn [divsteps Nat.add]; auto. Qed.
Lemma odd_half : forall a, Z.odd a = false -> a = 2 * (a / 2).
Proof. intros a H. rewrite (Zdiv2_odd_eqn a) at 1. rewrite H, Z.div2_div. lia. Qed.
Lemma odd_form : forall a, Z.odd a = true -> a = 2 * (a / 2) + 1.
Proof. intros a H. rewrite (Zdiv2_odd_eqn a) at 1. rewrite H, Z.div2_div. lia. Qed.
Lemma odd_sum_even : forall a b, Z.odd a = true -> Z.odd b = true -> Z.odd (a + b) = false.
Proof. intros a b Ha Hb. now rewrite Z.odd_add, Ha, Hb. Qed.
Lemma odd_diff_even : forall a b, Z.odd a = true -> Z.odd b = true -> Z.odd (a - b) = false.
Proof. intros a b Ha Hb. now rewrite Z.odd_sub, Ha, Hb. Qed.
Lemma odd_2x : forall a, Z.odd (2 * a) = false.
Proof. intros a. now rewrite Z.odd_mul. Qed.
Lemma even_divide : forall a, Z.odd a = false <-> (2 | a).
Proof.
  intros a. rewrite <- Z.negb_even. rewrite negb_false_iff. rewrite Z.even_spec. split; intros [k Hk]; exists k; lia.
Qed.

Lemma divstep_f_odd : forall s, Z.odd (df s) = true -> Z.odd (df (divstep s)) = true.
Proof.
  intros s H. unfold divstep. destruct (Z.odd (dg s)) eqn:E; [destruct (0 <? dd s)|]; cbn [df]; auto.
Qed.
Lemma divsteps_f_odd : forall n s, Z.odd (df s) = true -> Z.odd (df (divsteps n s)) = true.
Proof. induction n as [|n IH]; intros s H; cbn [divsteps]; auto. apply IH. now apply divstep_f_odd. Qed.

Lemma half_double : forall a, 2 * a / 2 = a.
Proof. intros a. rewrite Z.mul_comm. apply Z.div_mul. lia. Qed.
Lemma divsteps_zeros : forall j d f h, divsteps j (mk_dst d f (2 ^ Z.of_nat j * h)) = mk_dst (d + Z.of_nat j) f h.
Proof.
  induction j as [|j IH]; intros d f h.
  - cbn [divsteps]. change (2 ^ Z.of_nat 0) with 1. f_equal; lia.
  - cbn [divsteps]. rewrite Nat2Z.inj_succ, Z.pow_succ_r by lia.
    unfold divstep at 1. cbn [dd df dg]. rewrite <- Z.mul_assoc, odd_2x.
    rewrite half_double.
    rewrite IH. f_equal. lia.
Qed.
Lemma divsteps_elim : forall m d f g w, Z.odd f = true -> Z.of_nat m <= 1 - d -> 0 <= w < 2 ^ Z.of_nat m ->
  (2 ^ Z.of_nat m | g + w * f) ->
  divsteps m (mk_dst d f g) = mk_dst (d + Z.of_nat m) f ((g + w * f) / 2 ^ Z.of_nat m).
Proof.
  induction m as [|m IH]; intros d f g w Hf Hd Hw Hg.
  - change (2 ^ Z.of_nat 0) with 1 in *. replace w with 0 by lia. cbn [divsteps]. rewrite Z.div_1_r. f_equal; lia.
  - rewrite Nat2Z.inj_succ, Z.pow_succ_r in Hw, Hg by lia.
    destruct Hg as [q Hq]. set (P := 2 ^ Z.of_nat m) in *.
    assert (HP : 0 < P) by (apply Z.pow_pos_nonneg; lia).
    cbn [divsteps]. unfold divstep at 1. cbn [dd df dg].
    rewrite Nat2Z.inj_succ, Z.pow_succ_r by lia. fold P.
    destruct (Z.odd g) eqn:Eg.
    + replace (0 <? d) with false by (symmetry; apply Z.ltb_ge; lia).
      assert (Ew : Z.odd w = true).
      { assert (E : Z.odd (g + w * f) = false) by (rewrite Hq; replace (q * (2 * P)) with (2 * (q * P)) by ring; apply odd_2x).
        rewrite Z.odd_add, Z.odd_mul, Eg, Hf, andb_true_r in E. destruct (Z.odd w); auto. }
      pose proof (odd_half _ (odd_sum_even _ _ Eg Hf)) as Es. pose proof (odd_form _ Ew) as Ew2.
      set (h := (g + f) / 2) in *. set (v := w / 2) in *.
      assert (E : h + v * f = q * P) by nia.
      rewrite (IH (1 + d) f h v Hf ltac:(lia) ltac:(lia) ltac:(exists q; exact E)).
      rewrite E, Hq. rewrite !Z.div_mul by lia. f_equal. lia.
    + assert (Ew : Z.odd w = false).
      { assert (E : Z.odd (g + w * f) = false) by (rewrite Hq; replace (q * (2 * P)) with (2 * (q * P)) by ring; apply odd_2x).
        rewrite Z.odd_add, Z.odd_mul, Eg, Hf, andb_true_r in E. destruct (Z.odd w); auto. }
      pose proof (odd_half _ Eg) as Es. pose proof (odd_half _ Ew) as Ew2.
      set (h := g / 2) in *. set (v := w / 2) in *.
      assert (E : h + v * f = q * P) by nia.
      rewrite (IH (1 + d) f h v Hf ltac:(lia) ltac:(lia) ltac:(exists q; exact E)).
      rewrite E, Hq. rewrite !Z.div_mul by lia. f_equal. lia.
Qed.
Lemma divstep_swap : forall d f g, 0 < d -> Z.odd f = true -> Z.odd g = true ->
  divstep (mk_dst (- d) g (- f)) = divstep (mk_dst d f g).
Proof.
  intros d f g Hd Hf Hg. unfold divstep. cbn [dd df dg]. rewrite Z.odd_opp, Hf, Hg.
  replace (0 <? d) with true by (symmetry; apply Z.ltb_lt; lia).
  replace (0 <? - d) with false by (symmetry; apply Z.ltb_ge; lia).
  f_equal. f_equal. lia.
Qed.

(** ** [jump] *)
Lemma ctz_spec : forall g, g <> 0 -> exists h, g = 2 ^ ctz128 g * h /\ Z.odd h = true /\ 0 <= ctz128 g.
Proof.
  assert (P : forall p, exists q, Zpos p = 2 ^ pos_ctz p * Zpos q /\ Z.odd (Zpos q) = true /\ 0 <= pos_ctz p).
  { induction p as [p IH|p IH|]; cbn [pos_ctz].
    - exists (xI p). change (2 ^ 0) with 1. split; [lia|]. split; [reflexivity|lia].
    - destruct IH as (q & E & Ho & Hn). exists q. split; [|split; [auto|lia]].
      rewrite Z.pow_add_r by lia. change (2 ^ 1) with 2. lia.
    - exists 1%positive. change (2 ^ 0) with 1. split; [lia|]. split; [reflexivity|lia]. }
  intros [|p|p] Hg; [congruence| |].
  - destruct (P p) as (q & E & Ho & Hn). exists (Zpos q). auto.
  - destruct (P p) as (q & E & Ho & Hn). exists (Zneg q). cbn [ctz128]. repeat split; auto.
    change (Zneg p) with (- Zpos p). change (Zneg q) with (- Zpos q). lia.
Qed.

Definition norm1 (a b : Z) : Z := Z.abs a + Z.abs b.

Lemma norm1_l : forall a b K, norm1 a b <= K -> Z.abs a <= K /\ Z.abs b <= K.
Proof. unfold norm1. intros a b K H. pose proof (Z.abs_nonneg a). pose proof (Z.abs_nonneg b). lia. Qed.
Lemma row_bound : forall a b c d w K P, 0 <= w < P -> norm1 a b <= K -> norm1 c d <= K -> 0 < K ->
  norm1 (a * w + c) (b * w + d) <= K * P /\ Z.abs (a * w) <= K * P /\ Z.abs (b * w) <= K * P /\
  Z.abs (a * w + c) <= K * P /\ Z.abs (b * w + d) <= K * P.
Proof.
  unfold norm1. intros a b c d w K P Hw H1 H2 HK.
  assert (Ha : Z.abs (a * w) = Z.abs a * w) by (rewrite Z.abs_mul, (Z.abs_eq w); lia).
  assert (Hb : Z.abs (b * w) = Z.abs b * w) by (rewrite Z.abs_mul, (Z.abs_eq w); lia).
  pose proof (Z.abs_triangle (a * w) c) as T1. pose proof (Z.abs_triangle (b * w) d) as T2.
  pose proof (Z.abs_nonneg a). pose proof (Z.abs_nonneg b). pose proof (Z.abs_nonneg c). pose proof (Z.abs_nonneg d).
  pose proof (Z.abs_nonneg (a * w + c)). pose proof (Z.abs_nonneg (b * w + d)).
  rewrite Ha, Hb in *.
  revert H H0 H3 H4 H5 H6 T1 T2 H1 H2. clear Ha Hb.
  generalize (Z.abs (a * w + c)) (Z.abs (b * w + d)) (Z.abs a) (Z.abs b) (Z.abs c) (Z.abs d). intros.
  assert ((z1 + z2) * w <= K * w) by (apply Z.mul_le_mono_nonneg_r; lia).
  assert (0 <= z1 * w) by (apply Z.mul_nonneg_nonneg; lia).
  assert (0 <= z2 * w) by (apply Z.mul_nonneg_nonneg; lia).
  assert (K * (w + 1) <= K * P) by (apply Z.mul_le_mono_nonneg_l; lia).
  repeat split; lia.
Qed.
Lemma abs_i64 : forall x K, K <= B62 -> Z.abs x <= K -> - H63 <= x < H63.
Proof. intros x K H1 H2. rewrite H63_B62. pose proof B62_pos. lia. Qed.

Section Jump.
Variables (D0 F0 G0 : Z).
Hypothesis HF0 : Z.odd F0 = true.
Hypothesis HD0 : - B62 <= D0 <= B62.
Notation init := (mk_dst D0 F0 G0).

(** State at the head of the loop: [k] steps done, [m] more steps already
    folded into [G]. *)
Record jinv (steps delta f g : Z) (t : matrix) (k m : nat) (F G : Z) : Prop := {
  ji_steps : steps = 62 - Z.of_nat k;
  ji_m : Z.of_nat m <= steps;
  ji_div : (2 ^ Z.of_nat m | G);
  ji_state : divsteps (k + m) init = mk_dst (delta + Z.of_nat m) F (G / 2 ^ Z.of_nat m);
  ji_F : Z.odd F = true;
  ji_f : (2 ^ steps | f - F);
  ji_g : (2 ^ steps | g - G);
  ji_t0 : t00 t * F0 + t01 t * G0 = 2 ^ Z.of_nat k * F;
  ji_t1 : t10 t * F0 + t11 t * G0 = 2 ^ Z.of_nat k * G;
  ji_n0 : norm1 (t00 t) (t01 t) <= 2 ^ Z.of_nat k;
  ji_n1 : norm1 (t10 t) (t11 t) <= 2 ^ (Z.of_nat k + Z.of_nat m);
  ji_d : - B62 - Z.of_nat k <= delta <= B62 + Z.of_nat k }.

Lemma pow62_le : forall k, k <= 62 -> 2 ^ k <= B62.
Proof. intros k Hk. rewrite B62_pow. apply Z.pow_le_mono_r; lia. Qed.
Lemma div_cong_odd : forall s a b, 1 <= s -> (2 ^ s | a - b) -> Z.odd a = Z.odd b.
Proof.
  intros s a b Hs H.
  assert (E : Z.odd (a - b) = false).
  { apply even_divide. eapply Z.divide_trans; [|exact H]. exists (2 ^ (s - 1)).
    rewrite Z.mul_comm, <- Z.pow_succ_r by lia. f_equal. lia. }
  rewrite Z.odd_sub in E. destruct (Z.odd a), (Z.odd b); auto; discriminate.
Qed.

Lemma zeros_spec : forall steps g G z, 0 <= steps -> (2 ^ steps | g - G) ->
  z = Z.min steps (ctz128 g) -> steps <= 62 ->
  0 <= z <= steps /\ (2 ^ z | G) /\ (2 ^ (steps - z) | Z.shiftr g z - G / 2 ^ z) /\
  (z < steps -> Z.odd (G / 2 ^ z) = true) /\ (forall m, m <= steps -> (2 ^ m | G) -> m <= z).
Proof.
  intros steps g G z Hs [q Hq] Ez H62.
  assert (Hctz : exists h, g = 2 ^ z * h /\ 0 <= z <= steps /\ (z < steps -> Z.odd h = true)).
  { destruct (Z.eq_dec g 0) as [->|Hg].
    - exists 0. cbn in Ez. split; [lia|]. split; lia.
    - destruct (ctz_spec g Hg) as (h & E & Ho & Hn).
      exists (2 ^ (ctz128 g - z) * h). split.
      + rewrite Z.mul_assoc, <- Z.pow_add_r by lia. rewrite E at 1. do 2 f_equal. lia.
      + split; [lia|]. intros Hlt. replace (ctz128 g - z) with 0 by lia. now rewrite Z.mul_1_l. }
  destruct Hctz as (h & Eg & Hz & Hh).
  assert (HP : 0 < 2 ^ z) by (apply Z.pow_pos_nonneg; lia).
  assert (Esz : 2 ^ steps = 2 ^ z * 2 ^ (steps - z)) by (rewrite <- Z.pow_add_r by lia; f_equal; lia).
  assert (EG : G = (h - q * 2 ^ (steps - z)) * 2 ^ z) by (rewrite Esz in Hq; lia).
  assert (EGd : G / 2 ^ z = h - q * 2 ^ (steps - z)) by (rewrite EG; apply Z.div_mul; lia).
  assert (Eodd : z < steps -> Z.odd (G / 2 ^ z) = true).
  { intros Hlt. rewrite EGd. rewrite <- (Hh Hlt). symmetry. apply (div_cong_odd (steps - z)); [lia|].
    exists q. lia. }
  split; auto. split; [now exists (h - q * 2 ^ (steps - z))|]. split; [|split; [exact Eodd|]].
  - rewrite EGd. rewrite Z.shiftr_div_pow2 by lia.
    replace (g / 2 ^ z) with h by (rewrite Eg, Z.mul_comm, Z.div_mul; lia).
    exists q. lia.
  - intros m Hm Hd. destruct (Z.le_gt_cases m z); auto. exfalso.
    specialize (Eodd ltac:(lia)). destruct Hd as [r Hr].
    assert (E : G / 2 ^ z = 2 * (r * 2 ^ (m - z - 1))).
    { rewrite Hr. replace (2 ^ m) with (2 * 2 ^ (m - z - 1) * 2 ^ z).
      - rewrite !Z.mul_assoc, Z.div_mul by lia. ring.
      - rewrite <- Z.pow_succ_r, <- Z.pow_add_r by lia. f_equal. lia. }
    rewrite E, odd_2x in Eodd. discriminate.
Qed.

Lemma jump_loop_spec : forall fuel steps delta f g t k m F G,
  jinv steps delta f g t k m F G -> steps - Z.of_nat m + 1 <= Z.of_nat fuel ->
  exists delta' t' F' G', jump_loop fuel steps delta f g t = Some (delta', t') /\
    divsteps 62 init = mk_dst delta' F' G' /\
    t00 t' * F0 + t01 t' * G0 = B62 * F' /\ t10 t' * F0 + t11 t' * G0 = B62 * G' /\
    norm1 (t00 t') (t01 t') <= B62 /\ norm1 (t10 t') (t11 t') <= B62.
Proof.
  induction fuel as [|fuel IH]; intros steps delta f g t k m F G J Hfuel.
  { destruct J. lia. }
  cbn [jump_loop]. destruct J as [Js Jm Jd Jst JF Jf Jg Jt0 Jt1 Jn0 Jn1 Jdl].
  set (z := Z.min steps (ctz128 g)).
  destruct (zeros_spec steps g G z ltac:(lia) Jg eq_refl ltac:(lia)) as (Hz & ZG & Zg & Zo & Zm).
  pose proof (Zm (Z.of_nat m) Jm Jd) as Hmz. clear Zm.
  assert (HP : 0 < 2 ^ z) by (apply Z.pow_pos_nonneg; lia).
  assert (HPm : 0 < 2 ^ Z.of_nat m) by (apply Z.pow_pos_nonneg; lia).
  assert (HPk : 0 < 2 ^ Z.of_nat k) by (apply Z.pow_pos_nonneg; lia).
  pose proof half62_pos as HB1. pose proof B62_even as HB2. pose proof B62_pos as HB3.
  assert (HB4 : 62 < B62) by reflexivity.
  assert (Hdelta : i64w (delta + z) = delta + z) by (apply i64w_id; rewrite H63_B62; lia).
  rewrite Hdelta.
  (* the zero steps *)
  set (G1 := G / 2 ^ z) in *. assert (EG : G = 2 ^ z * G1) by (unfold G1; destruct ZG as [q Hq]; rewrite Hq, Z.div_mul by lia; ring).
  set (k1 := (k + Z.to_nat z)%nat).
  assert (Est : divsteps k1 init = mk_dst (delta + z) F G1).
  { unfold k1. replace (k + Z.to_nat z)%nat with ((k + m) + (Z.to_nat z - m))%nat by lia.
    rewrite divsteps_add, Jst.
    assert (E : G / 2 ^ Z.of_nat m = 2 ^ Z.of_nat (Z.to_nat z - m) * G1).
    { rewrite EG. replace (2 ^ z) with (2 ^ Z.of_nat (Z.to_nat z - m) * 2 ^ Z.of_nat m)
        by (rewrite <- Z.pow_add_r by lia; f_equal; lia).
      rewrite <- Z.mul_assoc, (Z.mul_comm (2 ^ Z.of_nat m)), Z.mul_assoc, Z.div_mul by lia. reflexivity. }
    rewrite E, divsteps_zeros. f_equal. lia. }
  assert (Ek1 : 2 ^ Z.of_nat k1 = 2 ^ z * 2 ^ Z.of_nat k) by (unfold k1; rewrite <- Z.pow_add_r by lia; f_equal; lia).
  assert (Hk1 : 2 ^ Z.of_nat k1 <= B62) by (apply pow62_le; unfold k1; lia).
  assert (Hb0 : norm1 (2 ^ z * t00 t) (2 ^ z * t01 t) <= 2 ^ Z.of_nat k1).
  { unfold norm1 in *. rewrite !Z.abs_mul, (Z.abs_eq (2 ^ z)), <- Z.mul_add_distr_l, Ek1 by (clear - HP; lia).
    apply Z.mul_le_mono_nonneg_l; [clear - HP; lia|assumption]. }
  assert (Hb1 : norm1 (t10 t) (t11 t) <= 2 ^ Z.of_nat k1).
  { eapply Z.le_trans; [exact Jn1|]. apply Z.pow_le_mono_r; unfold k1; lia. }
  assert (Hw00 : i64w (Z.shiftl (t00 t) z) = 2 ^ z * t00 t).
  { rewrite Z.shiftl_mul_pow2, Z.mul_comm by lia. apply i64w_id, (abs_i64 _ _ Hk1). apply norm1_l in Hb0. tauto. }
  assert (Hw01 : i64w (Z.shiftl (t01 t) z) = 2 ^ z * t01 t).
  { rewrite Z.shiftl_mul_pow2, Z.mul_comm by lia. apply i64w_id, (abs_i64 _ _ Hk1). apply norm1_l in Hb0. tauto. }
  rewrite Hw00, Hw01. cbn [t00 t01 t10 t11].
  assert (HT0 : 2 ^ z * t00 t * F0 + 2 ^ z * t01 t * G0 = 2 ^ Z.of_nat k1 * F).
  { rewrite Ek1. replace (2 ^ z * 2 ^ Z.of_nat k * F) with (2 ^ z * (2 ^ Z.of_nat k * F)) by ring.
    rewrite <- Jt0. ring. }
  assert (HT1 : t10 t * F0 + t11 t * G0 = 2 ^ Z.of_nat k1 * G1).
  { rewrite Jt1, Ek1, EG. ring. }
  destruct (Z.eqb_spec (steps - z) 0) as [Hend|Hmore].
  { exists (delta + z), (mk_mat (2 ^ z * t00 t) (2 ^ z * t01 t) (t10 t) (t11 t)), F, G1.
    cbn [t00 t01 t10 t11].
    assert (E62 : k1 = 62%nat) by (unfold k1; lia). rewrite E62 in *.
    change (2 ^ Z.of_nat 62) with B62 in *. repeat split; auto. }
  assert (HG1 : Z.odd G1 = true) by (apply Zo; lia).
  (* the swap *)
  set (u := Z.shiftr g z) in *. set (steps1 := steps - z) in *.
  assert (Hk1n : steps1 = 62 - Z.of_nat k1) by (unfold steps1, k1; lia).
  assert (Hf1 : (2 ^ steps1 | f - F)).
  { eapply Z.divide_trans; [apply pow_divide|exact Jf]. unfold steps1; lia. }
  set (r0 := 2 ^ z * t00 t) in *. set (r1 := 2 ^ z * t01 t) in *.
  assert (HS : exists delta2 f2 g2 t2 F2 G2,
    (if 0 <? delta + z then
       (i64w (- (delta + z)), i64w u, i64w (- f), mk_mat (t10 t) (t11 t) (i64w (- r0)) (i64w (- r1)))
     else (delta + z, f, u, mk_mat r0 r1 (t10 t) (t11 t))) = (delta2, f2, g2, t2) /\
    delta2 <= 0 /\ - B62 - Z.of_nat k1 <= delta2 /\ Z.odd F2 = true /\ Z.odd G2 = true /\
    (2 ^ steps1 | f2 - F2) /\ (2 ^ steps1 | g2 - G2) /\
    t00 t2 * F0 + t01 t2 * G0 = 2 ^ Z.of_nat k1 * F2 /\ t10 t2 * F0 + t11 t2 * G0 = 2 ^ Z.of_nat k1 * G2 /\
    norm1 (t00 t2) (t01 t2) <= 2 ^ Z.of_nat k1 /\ norm1 (t10 t2) (t11 t2) <= 2 ^ Z.of_nat k1 /\
    (forall n, (1 <= n)%nat -> divsteps (k1 + n) init = divsteps n (mk_dst delta2 F2 G2))).
  { assert (Hn : (1 <= k1)%nat -> True) by auto.
    destruct (Z.ltb_spec 0 (delta + z)) as [Hp|Hp].
    - exists (- (delta + z)), (i64w u), (i64w (- f)), (mk_mat (t10 t) (t11 t) (- r0) (- r1)), G1, (- F).
      cbn [t00 t01 t10 t11]. split.
      { apply norm1_l in Hb0 as [Hr0 Hr1].
        rewrite (i64w_id (- r0)) by (apply (abs_i64 _ _ Hk1); now rewrite Z.abs_opp).
        rewrite (i64w_id (- r1)) by (apply (abs_i64 _ _ Hk1); now rewrite Z.abs_opp).
        rewrite (i64w_id (- (delta + z))) by (clear - Jdl Hp Hz HB4 Js HB3; rewrite H63_B62; lia).
        reflexivity. }
      split; [lia|]. split; [unfold k1; lia|]. split; [auto|]. split; [now rewrite Z.odd_opp|].
      split.
      { replace (i64w u - G1) with ((i64w u - u) + (u - G1)) by ring. apply Z.divide_add_r; [|exact Zg].
        apply i64w_cong_le. unfold steps1; lia. }
      split.
      { replace (i64w (- f) - - F) with ((i64w (- f) - - f) + - (f - F)) by ring. apply Z.divide_add_r.
        - apply i64w_cong_le. unfold steps1; lia.
        - now apply Z.divide_opp_r. }
      split; [exact HT1|]. split; [lia|].
      split; [exact Hb1|]. split; [unfold norm1 in Hb0 |- *; rewrite !Z.abs_opp; exact Hb0|].
      intros n Hn1. rewrite divsteps_add, Est. destruct n as [|n]; [lia|]. cbn [divsteps].
      f_equal. symmetry. now apply divstep_swap.
    - exists (delta + z), f, u, (mk_mat r0 r1 (t10 t) (t11 t)), F, G1.
      cbn [t00 t01 t10 t11]. split; [reflexivity|].
      split; [lia|]. split; [unfold k1; lia|]. split; [auto|]. split; [auto|]. split; [auto|]. split; [exact Zg|].
      split; [exact HT0|]. split; [exact HT1|]. split; [auto|]. split; [auto|].
      intros n Hn1. now rewrite divsteps_add, Est. }
  destruct HS as (delta2 & f2 & g2 & t2 & F2 & G2 & -> & S1 & S2 & SF & SG & Sf & Sg & ST0 & ST1 & SN0 & SN1 & SD).
  clear Hw00 Hw01 HT0 HT1 Hb0 Hb1 Est Hdelta Zg Zo.
  set (mm := Z.min (Z.min steps1 (1 - delta2)) 5).
  assert (Hmm : 1 <= mm <= 5 /\ mm <= steps1 /\ mm <= 1 - delta2) by (unfold mm; lia).
  assert (HPmm : 1 < 2 ^ mm) by (apply Z.pow_gt_1; lia).
  set (w := Z.land (i64w (i64w g2 * Z.lxor (i64w (f2 * 3)) 28)) (Z.shiftl 1 mm - 1)).
  assert (Ew : w = i64w (i64w g2 * Z.lxor (i64w (f2 * 3)) 28) mod 2 ^ mm).
  { unfold w. rewrite Z.shiftl_1_l. replace (2 ^ mm - 1) with (Z.ones mm) by (rewrite Z.ones_equiv; lia).
    apply Z.land_ones. lia. }
  assert (Hw : 0 <= w < 2 ^ mm) by (rewrite Ew; apply Z.mod_pos_bound; lia).
  assert (Hf2 : Z.odd f2 = true).
  { rewrite <- SF. apply (div_cong_odd steps1); auto. lia. }
  assert (Hdvd : (2 ^ mm | G2 + w * F2)).
  { assert (D5 : (2 ^ mm | 32)) by (change 32 with (2 ^ 5); apply pow_divide; lia).
    set (f3 := i64w (f2 * 3)) in *.
    assert (H3 : (32 | f3 - 3 * f2)).
    { unfold f3. replace (3 * f2) with (f2 * 3) by ring. change 32 with (2 ^ 5). apply i64w_cong_le. lia. }
    pose proof (neg_inv_32 f2 f3 Hf2 H3) as Hinv. apply (Z.divide_trans _ _ _ D5) in Hinv.
    set (v := Z.lxor f3 28) in *.
    assert (Hwc : (2 ^ mm | w - g2 * v)).
    { rewrite Ew. set (y := i64w (i64w g2 * v)).
      assert (Y1 : (2 ^ mm | y - i64w g2 * v)) by (apply i64w_cong_le; lia).
      assert (Y2 : (2 ^ mm | i64w g2 - g2)) by (apply i64w_cong_le; lia).
      replace (y mod 2 ^ mm - g2 * v) with ((- (y / 2 ^ mm)) * 2 ^ mm + (y - i64w g2 * v) + (i64w g2 - g2) * v).
      - apply Z.divide_add_r; [apply Z.divide_add_r|]; auto; [apply Z.divide_factor_r|now apply Z.divide_mul_l].
      - pose proof (Z.div_mod y (2 ^ mm) ltac:(lia)). lia. }
    assert (Dm : (2 ^ mm | 2 ^ steps1)) by (apply pow_divide; lia).
    apply (Z.divide_trans _ _ _ Dm) in Sf, Sg.
    replace (G2 + w * F2) with (- (g2 - G2) + g2 * (v * f2 + 1) + (w - g2 * v) * f2 - w * (f2 - F2)) by ring.
    apply Z.divide_sub_r; [apply Z.divide_add_r; [apply Z.divide_add_r|]|].
    - now apply Z.divide_opp_r.
    - now apply Z.divide_mul_r.
    - now apply Z.divide_mul_l.
    - now apply Z.divide_mul_r. }
  assert (HPk1 : 0 < 2 ^ Z.of_nat k1) by (apply Z.pow_pos_nonneg; lia).
  assert (Hkm : 2 ^ Z.of_nat k1 * 2 ^ mm <= B62) by (rewrite <- Z.pow_add_r by lia; apply pow62_le; lia).
  destruct (row_bound (t00 t2) (t01 t2) (t10 t2) (t11 t2) w _ _ Hw SN0 SN1 HPk1) as (Hrow & R1 & R2 & R3 & R4).
  assert (Hp0 : - H63 <= t00 t2 * w < H63 /\ - H63 <= t01 t2 * w < H63).
  { split; (apply (abs_i64 _ (2 ^ Z.of_nat k1 * 2 ^ mm)); [assumption|assumption]). }
  assert (Hp1 : - H63 <= t00 t2 * w + t10 t2 < H63 /\ - H63 <= t01 t2 * w + t11 t2 < H63).
  { split; (apply (abs_i64 _ (2 ^ Z.of_nat k1 * 2 ^ mm)); [assumption|assumption]). }
  rewrite (i64w_id (t00 t2 * w)), (i64w_id (t01 t2 * w)) by tauto.
  rewrite (i64w_id (t00 t2 * w + t10 t2)), (i64w_id (t01 t2 * w + t11 t2)) by tauto.
  apply IH with (k := k1) (m := Z.to_nat mm) (F := F2) (G := G2 + w * F2).
  - assert (Hmn : Z.of_nat (Z.to_nat mm) = mm) by (apply Z2Nat.id; clear - Hmm; lia).
    constructor; cbn [t00 t01 t10 t11]; rewrite ?Hmn.
    + exact Hk1n.
    + apply Hmm.
    + exact Hdvd.
    + rewrite SD by (clear - Hmm; lia).
      rewrite (divsteps_elim (Z.to_nat mm) delta2 F2 G2 w); rewrite ?Hmn; auto; apply Hmm.
    + exact SF.
    + exact Sf.
    + replace (i128w (g2 + w * f2) - (G2 + w * F2)) with
        ((i128w (g2 + w * f2) - (g2 + w * f2)) + (g2 - G2) + w * (f2 - F2)) by ring.
      apply Z.divide_add_r; [apply Z.divide_add_r|]; auto; [|now apply Z.divide_mul_r].
      apply i128w_cong_le. clear - Hk1n Hmm. lia.
    + exact ST0.
    + replace ((t00 t2 * w + t10 t2) * F0 + (t01 t2 * w + t11 t2) * G0) with
        (w * (t00 t2 * F0 + t01 t2 * G0) + (t10 t2 * F0 + t11 t2 * G0)) by ring.
      rewrite ST0, ST1. ring.
    + exact SN0.
    + rewrite Z.pow_add_r by (clear - Hmm; lia). exact Hrow.
    + clear - S1 S2 HB3. lia.
  - unfold steps1. clear - Hmm Hfuel Hmz Jm. lia.
Qed.

Lemma jump_spec : forall f g, cint_lowest f = F0 mod B62 -> cint_lowest g = G0 mod B62 ->
  exists delta' t' F' G', jump f g D0 = Some (delta', t') /\
    divsteps 62 init = mk_dst delta' F' G' /\
    t00 t' * F0 + t01 t' * G0 = B62 * F' /\ t10 t' * F0 + t11 t' * G0 = B62 * G' /\
    norm1 (t00 t') (t01 t') <= B62 /\ norm1 (t10 t') (t11 t') <= B62.
Proof.
  intros f g Hf Hg. unfold jump.
  apply jump_loop_spec with (k := O) (m := O) (F := F0) (G := G0).
  - pose proof B62_pos.
    assert (forall x, (2 ^ 62 | x mod B62 - x)).
    { intros x. rewrite <- B62_pow. exists (- (x / B62)). pose proof (Z.div_mod x B62 ltac:(lia)). lia. }
    constructor; cbn [t00 t01 t10 t11 Z.of_nat Nat.add]; change (2 ^ 0) with 1; auto; try lia.
    + apply Z.divide_1_l.
    + cbn [divsteps]. rewrite Z.div_1_r. f_equal. lia.
    + rewrite Hf. auto.
    + rewrite Hg. auto.
    + unfold norm1; lia.
    + change (2 ^ (0 + 0)) with 1. unfold norm1; lia.
  - lia.
Qed.
End Jump.
