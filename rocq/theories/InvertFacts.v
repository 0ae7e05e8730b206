(** The inverter terminates and returns the adjusted inverse. *)
From Verif Require Import Base Word Limbs SpecField LimbsFacts Field FieldFacts Inverse InverseFacts ConvertFacts Divstep.

(** ** Termination measure *)
Definition szi (f g : Z) : Z :=
  if Z.abs g <? Z.abs f then 0 else if g =? f then 1 else 2.
Definition sz (f g : Z) : Z := 3 * Z.max (Z.abs f) (Z.abs g) + szi f g.

Lemma sz_swap : forall f g, Z.odd f = true -> Z.odd g = true -> sz g ((g - f) / 2) <= sz f g - 1.
Proof.
  intros f g Hf Hg. pose proof (odd_half _ (odd_diff_even _ _ Hg Hf)) as E.
  set (h := (g - f) / 2) in *. unfold sz, szi.
  assert (f <> 0) by (intros ->; discriminate). assert (g <> 0) by (intros ->; discriminate).
  destruct (Z.ltb_spec (Z.abs h) (Z.abs g)); destruct (Z.eqb_spec h g);
  destruct (Z.ltb_spec (Z.abs g) (Z.abs f)); destruct (Z.eqb_spec g f); lia.
Qed.
Lemma sz_plus : forall f g, Z.odd f = true -> Z.odd g = true -> sz f ((g + f) / 2) <= sz f g.
Proof.
  intros f g Hf Hg. pose proof (odd_half _ (odd_sum_even _ _ Hg Hf)) as E.
  set (h := (g + f) / 2) in *. unfold sz, szi.
  destruct (Z.ltb_spec (Z.abs h) (Z.abs f)); destruct (Z.eqb_spec h f);
  destruct (Z.ltb_spec (Z.abs g) (Z.abs f)); destruct (Z.eqb_spec g f); lia.
Qed.
Lemma sz_half : forall f g, Z.odd f = true -> Z.odd g = false -> sz f (g / 2) <= sz f g.
Proof.
  intros f g Hf Hg. pose proof (odd_half _ Hg) as E.
  set (h := g / 2) in *. unfold sz, szi.
  assert (g <> f) by congruence.
  destruct (Z.ltb_spec (Z.abs h) (Z.abs f)); destruct (Z.eqb_spec h f);
  destruct (Z.ltb_spec (Z.abs g) (Z.abs f)); destruct (Z.eqb_spec g f); lia.
Qed.

Section Potential.
Variables (B M0 : Z).
Hypothesis HB : 0 <= B.
Hypothesis HM0 : M0 < 2 ^ B.

Record dinv (s : dst) : Prop := {
  di_odd : Z.odd (df s) = true;
  di_f : Z.abs (df s) <= M0;
  di_g : Z.abs (dg s) <= M0;
  di_pos : 0 < dd s -> 2 ^ (dd s - 1) * Z.abs (dg s) <= M0;
  di_low : - B <= dd s }.
Definition phi (s : dst) : Z := sz (df s) (dg s) * (2 * B + 4) + (B + 1 - dd s).

Lemma dinv_high : forall s, dinv s -> dg s <> 0 -> dd s <= B + 1.
Proof.
  intros s H Hg. destruct (Z.le_gt_cases (dd s) (B + 1)); auto. exfalso.
  pose proof (di_pos s H ltac:(lia)) as Hp.
  assert (2 ^ B <= 2 ^ (dd s - 1)) by (apply Z.pow_le_mono_r; lia).
  assert (2 ^ (dd s - 1) * 1 <= 2 ^ (dd s - 1) * Z.abs (dg s)) by (apply Z.mul_le_mono_nonneg_l; lia).
  lia.
Qed.
Lemma dinv_step : forall s, dinv s -> dinv (divstep s).
Proof.
  intros s H. pose proof (divstep_f_odd s (di_odd s H)) as Ho. destruct H as [H1 H2 H3 H4 H5].
  unfold divstep in *. destruct (Z.odd (dg s)) eqn:Eg.
  - destruct (Z.ltb_spec 0 (dd s)) as [Hd|Hd]; constructor; cbn [dd df dg] in *; auto; try lia.
    + specialize (H4 Hd). destruct (Z.le_gt_cases (dd s) (B + 1)); [lia|]. exfalso.
      assert (2 ^ B <= 2 ^ (dd s - 1)) by (apply Z.pow_le_mono_r; lia).
      assert (dg s <> 0) by (intros E; rewrite E in Eg; discriminate).
      assert (2 ^ (dd s - 1) * 1 <= 2 ^ (dd s - 1) * Z.abs (dg s)) by (apply Z.mul_le_mono_nonneg_l; lia).
      lia.
    + intros Hp. replace (1 + dd s - 1) with 0 by lia. pose proof (odd_half _ (odd_sum_even _ _ Eg H1)). lia.
  - pose proof (odd_half _ Eg) as E. constructor; cbn [dd df dg] in *; auto; try lia.
    intros Hp. destruct (Z.eq_dec (dd s) 0) as [E0|E0].
    + rewrite E0. change (2 ^ (1 + 0 - 1)) with 1. lia.
    + specialize (H4 ltac:(lia)). rewrite E in H4.
      replace (1 + dd s - 1) with (Z.succ (dd s - 1)) by lia. rewrite Z.pow_succ_r by lia.
      rewrite Z.abs_mul in H4. change (Z.abs 2) with 2 in H4. lia.
Qed.
Lemma phi_nonneg : forall s, dinv s -> dg s <> 0 -> 0 <= phi s.
Proof.
  intros s H Hg. pose proof (dinv_high s H Hg). unfold phi.
  assert (0 <= sz (df s) (dg s)).
  { unfold sz, szi. destruct (_ <? _); [|destruct (_ =? _)]; lia. }
  assert (0 <= sz (df s) (dg s) * (2 * B + 4)) by (apply Z.mul_nonneg_nonneg; lia). lia.
Qed.
Lemma phi_step : forall s, dinv s -> phi (divstep s) <= phi s - 1.
Proof.
  intros s H. pose proof (di_odd s H) as Hf. unfold phi, divstep. destruct (Z.odd (dg s)) eqn:Eg.
  - assert (dg s <> 0) by (intros E; rewrite E in Eg; discriminate).
    pose proof (dinv_high s H H0).
    destruct (Z.ltb_spec 0 (dd s)) as [Hd|Hd]; cbn [dd df dg].
    + pose proof (sz_swap _ _ Hf Eg) as S.
      apply (Z.mul_le_mono_nonneg_r _ _ (2 * B + 4)) in S; [lia|lia].
    + pose proof (sz_plus _ _ Hf Eg) as S.
      apply (Z.mul_le_mono_nonneg_r _ _ (2 * B + 4)) in S; [lia|lia].
  - cbn [dd df dg]. pose proof (sz_half _ _ Hf Eg) as S.
    apply (Z.mul_le_mono_nonneg_r _ _ (2 * B + 4)) in S; [lia|lia].
Qed.
Lemma dinv_steps : forall n s, dinv s -> dinv (divsteps n s) /\ phi (divsteps n s) <= phi s - Z.of_nat n.
Proof.
  induction n as [|n IH]; intros s H; cbn [divsteps]; [split; auto; lia|].
  destruct (IH _ (dinv_step s H)) as [A C]. pose proof (phi_step s H). split; auto. lia.
Qed.
Lemma dd_step_high : forall s, dd (divstep s) <= Z.max (dd s) 0 + 1.
Proof. intros s. unfold divstep. destruct (Z.odd _); [destruct (Z.ltb_spec 0 (dd s))|]; cbn [dd]; lia. Qed.
Lemma dd_steps_high : forall n s, dd (divsteps n s) <= Z.max (dd s) 0 + Z.of_nat n.
Proof.
  induction n as [|n IH]; intros s; cbn [divsteps]; [lia|].
  pose proof (IH (divstep s)). pose proof (dd_step_high s). lia.
Qed.
End Potential.

(** ** The common divisors do not change *)
Lemma divstep_divides : forall k s, Z.odd (df s) = true ->
  ((k | df s) /\ (k | dg s)) <-> ((k | df (divstep s)) /\ (k | dg (divstep s))).
Proof.
  intros k s Hf.
  assert (Gauss : forall x, (k | df s) -> (k | 2 * x) -> (k | x)).
  { intros x Hk Hx. apply Gauss with 2; auto. apply rel_prime_div with (df s); auto.
    apply rel_prime_sym, bezout_rel_prime. pose proof (odd_form _ Hf) as E.
    apply Bezout_intro with (- (df s / 2)) 1. lia. }
  unfold divstep. destruct (Z.odd (dg s)) eqn:Eg.
  - destruct (0 <? dd s); cbn [df dg].
    + pose proof (odd_half _ (odd_diff_even _ _ Eg Hf)) as E. set (h := (dg s - df s) / 2) in *. split; intros [H1 H2].
      * split; auto. apply Gauss; auto. rewrite <- E. now apply Z.divide_sub_r.
      * split; auto. replace (df s) with (dg s - 2 * h) by lia. apply Z.divide_sub_r; auto. now apply Z.divide_mul_r.
    + pose proof (odd_half _ (odd_sum_even _ _ Eg Hf)) as E. set (h := (dg s + df s) / 2) in *. split; intros [H1 H2].
      * split; auto. apply Gauss; auto. rewrite <- E. now apply Z.divide_add_r.
      * split; auto. replace (dg s) with (2 * h - df s) by lia. apply Z.divide_sub_r; auto. now apply Z.divide_mul_r.
  - pose proof (odd_half _ Eg) as E. cbn [df dg]. set (h := dg s / 2) in *. split; intros [H1 H2].
    + split; auto. apply Gauss; auto. now rewrite <- E.
    + split; auto. rewrite E. now apply Z.divide_mul_r.
Qed.
Lemma divsteps_divides : forall n k s, Z.odd (df s) = true ->
  ((k | df s) /\ (k | dg s)) <-> ((k | df (divsteps n s)) /\ (k | dg (divsteps n s))).
Proof.
  induction n as [|n IH]; intros k s Hf; cbn [divsteps]; [tauto|].
  rewrite (divstep_divides k s Hf). apply IH. now apply divstep_f_odd.
Qed.

(** ** A row of [de] *)
Lemma T_half : forall L M, (1 <= L)%nat -> 0 < M -> M < 2 ^ (62 * Z.of_nat L - 64) -> 4 * B62 * M < T L.
Proof.
  intros L M HL HM H. rewrite T_pow.
  destruct (Z.le_gt_cases 64 (62 * Z.of_nat L)) as [H64|H64]; [|rewrite Z.pow_neg_r in H by lia; lia].
  replace (62 * Z.of_nat L) with (64 + (62 * Z.of_nat L - 64)) by lia.
  rewrite Z.pow_add_r by lia. change (4 * B62) with (2 ^ 64).
  apply Z.mul_lt_mono_pos_l; [lia|auto].
Qed.

Section Invert.
Variables (L : nat) (v : inverter) (M A : Z).
Hypothesis HL : (1 <= L)%nat.
Hypothesis HM : 1 < M.
Hypothesis HMo : Z.odd M = true.
Hypothesis HMT : 4 * B62 * M < T L.
Hypothesis Hmod : cin L (by_modulus v) M.
Hypothesis Hinv : 0 <= by_inverse v < B62 /\ (B62 | by_inverse v * M - 1).

Lemma srange_M : forall x, - (2 * M) <= x <= 2 * M -> srange L x.
Proof. intros x Hx. unfold srange. pose proof half62_pos. pose proof B62_even. split; nia. Qed.
Lemma srange_BM : forall x, - (2 * B62 * M) <= x <= 2 * B62 * M - 1 -> srange L x.
Proof. intros x Hx. unfold srange. lia. Qed.

Lemma row_dot : forall ta tb x y K, norm1 ta tb <= B62 -> 0 <= K -> Z.abs x <= K -> Z.abs y <= K ->
  Z.abs (ta * x + tb * y) <= B62 * K.
Proof.
  unfold norm1. intros ta tb x y K Hn HK Hx Hy.
  eapply Z.le_trans; [apply Z.abs_triangle|]. rewrite !Z.abs_mul.
  assert (Z.abs ta * Z.abs x <= Z.abs ta * K) by (apply Z.mul_le_mono_nonneg_l; lia).
  assert (Z.abs tb * Z.abs y <= Z.abs tb * K) by (apply Z.mul_le_mono_nonneg_l; lia).
  assert ((Z.abs ta + Z.abs tb) * K <= B62 * K) by (apply Z.mul_le_mono_nonneg_r; lia).
  revert H H0 H1. generalize (Z.abs ta * Z.abs x) (Z.abs tb * Z.abs y) (Z.abs ta) (Z.abs tb). intros. lia.
Qed.

Lemma de_row_spec : forall d e D E ta tb, cin L d D -> cin L e E ->
  - (2 * M) < D < M -> - (2 * M) < E < M -> norm1 ta tb <= B62 ->
  exists D', cin L (by_de_row v d e ta tb) D' /\ - (2 * M) < D' < M /\
    (M | B62 * D' - (ta * D + tb * E)).
Proof.
  intros d e D E ta tb Hd He RD RE Hn. unfold by_de_row.
  rewrite (cin_is_negative L d D), (cin_is_negative L e E), (cin_lowest L d D), (cin_lowest L e E)
    by (auto; apply srange_M; lia).
  pose proof B62_pos as HB. pose proof half62_pos as HB2. pose proof B62_even as HB3.
  destruct (norm1_l _ _ _ Hn) as [Ha Hb].
  set (nd := b2z (D <? 0)). set (ne := b2z (E <? 0)).
  assert (Hnd : (nd = 0 \/ nd = 1) /\ Z.abs (D + M * nd) <= M - 1).
  { unfold nd, b2z. destruct (Z.ltb_spec D 0); split; auto; lia. }
  assert (Hne : (ne = 0 \/ ne = 1) /\ Z.abs (E + M * ne) <= M - 1).
  { unfold ne, b2z. destruct (Z.ltb_spec E 0); split; auto; lia. }
  assert (Hm0 : Z.abs (ta * nd + tb * ne) <= B62 * 1).
  { apply row_dot; auto; lia. }
  assert (E1 : i64w (ta * nd) = ta * nd).
  { apply i64w_id, (abs_i64 _ B62); [lia|]. destruct (proj1 Hnd) as [-> | ->]; lia. }
  assert (E2 : i64w (tb * ne) = tb * ne).
  { apply i64w_id, (abs_i64 _ B62); [lia|]. destruct (proj1 Hne) as [-> | ->]; lia. }
  rewrite E1, E2. set (md := ta * nd + tb * ne) in *.
  rewrite (i64w_id md) by (apply (abs_i64 _ B62); lia).
  rewrite !land_mask62.
  set (cd := i64w (i64w (ta * (D mod B62)) + i64w (tb * (E mod B62))) mod B62).
  set (c := i64w (i64w (by_inverse v * cd) + md) mod B62).
  assert (Hc : 0 <= c < B62) by (apply Z.mod_pos_bound; lia).
  assert (C62 : forall x, (B62 | i64w x - x)) by (intros x; rewrite B62_pow; apply i64w_cong_le; lia).
  assert (M62 : forall x, (B62 | x mod B62 - x)).
  { intros x. exists (- (x / B62)). pose proof (Z.div_mod x B62 ltac:(lia)). lia. }
  assert (Ccd : (B62 | cd - (ta * D + tb * E))).
  { unfold cd. set (y1 := i64w (ta * (D mod B62))). set (y2 := i64w (tb * (E mod B62))).
    replace (i64w (y1 + y2) mod B62 - (ta * D + tb * E)) with
      ((i64w (y1 + y2) mod B62 - i64w (y1 + y2)) + (i64w (y1 + y2) - (y1 + y2)) + (y1 - ta * (D mod B62)) +
       (y2 - tb * (E mod B62)) + ta * (D mod B62 - D) + tb * (E mod B62 - E)) by ring.
    repeat (first [apply C62 | apply M62 | assumption | apply Z.divide_mul_r; solve [apply M62 | assumption] | apply Z.divide_add_r]). }
  assert (Cc : (B62 | c - (by_inverse v * (ta * D + tb * E) + md))).
  { unfold c. set (y := i64w (by_inverse v * cd)).
    replace (i64w (y + md) mod B62 - (by_inverse v * (ta * D + tb * E) + md)) with
      ((i64w (y + md) mod B62 - i64w (y + md)) + (i64w (y + md) - (y + md)) + (y - by_inverse v * cd) +
       by_inverse v * (cd - (ta * D + tb * E))) by ring.
    repeat (first [apply C62 | apply M62 | assumption | apply Z.divide_mul_r; solve [apply M62 | assumption] | apply Z.divide_add_r]). }
  rewrite (i64w_id (md - c)) by (rewrite H63_B62; lia).
  set (tot := ta * D + tb * E + (md - c) * M).
  assert (Htot : (B62 | tot)).
  { destruct Cc as [q Hq]. destruct Hinv as [_ [r Hr]]. unfold tot.
    exists (- q * M - (ta * D + tb * E) * r).
    replace c with (by_inverse v * (ta * D + tb * E) + md + q * B62) by lia.
    replace ((ta * D + tb * E + (md - (by_inverse v * (ta * D + tb * E) + md + q * B62)) * M)) with
      (- (ta * D + tb * E) * (by_inverse v * M - 1) - q * B62 * M) by ring.
    rewrite Hr. ring. }
  assert (Hcin : cin L (cint_add (cint_add (cint_mul_i64 d ta) (cint_mul_i64 e tb))
                                 (cint_mul_i64 (by_modulus v) (md - c))) tot).
  { unfold tot. apply cin_add; [apply cin_add|]; apply cin_mul; auto; rewrite H63_B62; lia. }
  assert (Hrng : - (2 * B62 * M) < tot < B62 * M).
  { assert (Z.abs (ta * (D + M * nd) + tb * (E + M * ne)) <= B62 * (M - 1)) by (apply row_dot; tauto || lia).
    assert (Et : tot = (ta * (D + M * nd) + tb * (E + M * ne)) - c * M) by (unfold tot, md; ring).
    assert (0 <= c * M <= (B62 - 1) * M) by (split; [apply Z.mul_nonneg_nonneg; lia|apply Z.mul_le_mono_nonneg_r; lia]).
    revert Et H H0. generalize (ta * (D + M * nd) + tb * (E + M * ne)) (c * M). intros. lia. }
  destruct (cin_shift L _ _ HL Hcin ltac:(apply srange_BM; lia)) as [Hs _].
  destruct Htot as [q Hq].
  exists q. split; [|split].
  - rewrite Hq, Z.div_mul in Hs by lia. exact Hs.
  - split; apply (Z.mul_lt_mono_pos_r B62); lia.
  - exists (md - c). rewrite (Z.mul_comm B62 q), <- Hq. unfold tot. ring.
Qed.

(** ** The main loop *)
Variable x M0 : Z.
Hypothesis Hx : 0 <= x.
Hypothesis HM0 : M <= M0 /\ x <= M0 /\ 4 * B62 * M0 < T L.
Notation B := (62 * Z.of_nat L).

Record oinv (s : by_state) (F G : Z) : Prop := {
  oi_f : cin L (by_f s) F;
  oi_g : cin L (by_g s) G;
  oi_dinv : dinv B M0 (mk_dst (by_delta s) F G);
  oi_high : by_delta s <= B62;
  oi_gcd : forall k, (k | M) /\ (k | x) <-> (k | F) /\ (k | G);
  oi_de : exists D E, cin L (by_d s) D /\ cin L (by_e s) E /\
    - (2 * M) < D < M /\ - (2 * M) < E < M /\ (M | D * x - F * A) /\ (M | E * x - G * A) }.

Hypothesis HLB : B + 64 <= B62.

Lemma M0_lt : M0 < 2 ^ B.
Proof. rewrite <- T_pow. pose proof half62_pos. pose proof B62_even. nia. Qed.
Lemma srange_M0 : forall y, Z.abs y <= M0 -> srange L y.
Proof. intros y Hy. unfold srange. pose proof half62_pos. pose proof B62_even. split; nia. Qed.
Lemma fg_row : forall f g F G F' ta tb, cin L f F -> cin L g G -> Z.abs F <= M0 -> Z.abs G <= M0 ->
  norm1 ta tb <= B62 -> ta * F + tb * G = B62 * F' ->
  cin L (cint_shift (cint_add (cint_mul_i64 f ta) (cint_mul_i64 g tb))) F'.
Proof.
  intros f g F G F' ta tb Hf Hg RF RG Hn E. pose proof B62_pos.
  destruct (norm1_l _ _ _ Hn) as [Ha Hb].
  assert (Hc : cin L (cint_add (cint_mul_i64 f ta) (cint_mul_i64 g tb)) (ta * F + tb * G)).
  { apply cin_add; apply cin_mul; auto; rewrite H63_B62; lia. }
  pose proof (row_dot ta tb F G M0 Hn ltac:(lia) RF RG) as Hd.
  destruct (cin_shift L _ _ HL Hc) as [Hs _].
  - unfold srange. nia.
  - rewrite E, Z.mul_comm, Z.div_mul in Hs by lia. exact Hs.
Qed.

Lemma cancel_B62 : forall y, (M | B62 * y) -> (M | y).
Proof.
  intros y H. apply Gauss with B62; auto. apply rel_prime_sym.
  assert (R : rel_prime 2 M).
  { apply bezout_rel_prime. pose proof (odd_form _ HMo). apply Bezout_intro with (- (M / 2)) 1. lia. }
  change B62 with (2 ^ 62). apply rel_prime_Zpower_l || idtac; auto; try lia.
  all: try (apply rel_prime_sym; apply rel_prime_Zpower_r; [lia|]; now apply rel_prime_sym).
Qed.

Lemma step_spec : forall s F G, oinv s F G ->
  (G = 0 /\ by_step L v s = inr (Some s)) \/
  (G <> 0 /\ exists s' F' G', by_step L v s = inl s' /\ oinv s' F' G' /\
     0 <= phi B (mk_dst (by_delta s) F G) /\
     phi B (mk_dst (by_delta s') F' G') <= phi B (mk_dst (by_delta s) F G) - 1).
Proof.
  intros s F G O. destruct O as [Of Og Od Oh Ogcd (D & E & OD & OE & RD & RE & CD & CE)].
  pose proof (di_f _ _ _ Od) as RF. pose proof (di_g _ _ _ Od) as RG. cbn [df dg] in RF, RG.
  unfold by_step. rewrite (cin_eqb L _ _ G 0 Og (cin_zero L)) by (apply srange_M0; lia).
  destruct (Z.eqb_spec G 0) as [HG|HG]; [left; auto|right]. split; auto.
  pose proof (di_odd _ _ _ Od) as Fo. cbn [df] in Fo.
  pose proof (di_low _ _ _ Od) as Dl. cbn [dd] in Dl.
  pose proof M0_lt as HM0B.
  pose proof (dinv_high B M0 ltac:(lia) HM0B _ Od HG) as Dh. cbn [dd] in Dh.
  destruct (jump_spec (by_delta s) F G Fo ltac:(lia) (by_f s) (by_g s)
              (cin_lowest L _ _ HL Of) (cin_lowest L _ _ HL Og))
    as (delta' & t & F' & G' & -> & Hst & T0 & T1 & N0 & N1).
  destruct (dinv_steps B M0 ltac:(lia) HM0B 62 _ Od) as [Od' Hphi]. rewrite Hst in Od', Hphi.
  unfold by_fg, by_de.
  destruct (de_row_spec _ _ _ _ (t00 t) (t01 t) OD OE RD RE N0) as (D' & OD' & RD' & CD').
  destruct (de_row_spec _ _ _ _ (t10 t) (t11 t) OD OE RD RE N1) as (E' & OE' & RE' & CE').
  eexists. exists F', G'. split; [reflexivity|]. split; [|split].
  - constructor; cbn [by_delta by_f by_g by_d by_e].
    + now apply fg_row with F G.
    + now apply fg_row with F G.
    + exact Od'.
    + pose proof (dd_steps_high (62 * Z.of_nat L) ltac:(lia) 62 (mk_dst (by_delta s) F G)) as Hh. rewrite Hst in Hh. cbn [dd] in Hh. lia.
    + intros k. rewrite Ogcd. pose proof (divsteps_divides 62 k (mk_dst (by_delta s) F G) Fo) as Hd.
      rewrite Hst in Hd. exact Hd.
    + exists D', E'. refine (conj OD' (conj OE' (conj RD' (conj RE' (conj _ _))))).
      * apply cancel_B62. replace (B62 * (D' * x - F' * A)) with
          ((B62 * D' - (t00 t * D + t01 t * E)) * x + t00 t * (D * x - F * A) + t01 t * (E * x - G * A) +
           (t00 t * F + t01 t * G - B62 * F') * A) by ring.
        rewrite T0, Z.sub_diag, Z.mul_0_l, Z.add_0_r.
        apply Z.divide_add_r; [apply Z.divide_add_r|]; [now apply Z.divide_mul_l|now apply Z.divide_mul_r|now apply Z.divide_mul_r].
      * apply cancel_B62. replace (B62 * (E' * x - G' * A)) with
          ((B62 * E' - (t10 t * D + t11 t * E)) * x + t10 t * (D * x - F * A) + t11 t * (E * x - G * A) +
           (t10 t * F + t11 t * G - B62 * G') * A) by ring.
        rewrite T1, Z.sub_diag, Z.mul_0_l, Z.add_0_r.
        apply Z.divide_add_r; [apply Z.divide_add_r|]; [now apply Z.divide_mul_l|now apply Z.divide_mul_r|now apply Z.divide_mul_r].
  - apply (phi_nonneg B M0); auto; lia.
  - cbn [by_delta]. lia.
Qed.

Lemma run_spec : forall n s F G, oinv s F G ->
  (exists s' F', run_until n (by_step L v) s = inr (Some s') /\ oinv s' F' 0) \/
  (exists s' F' G', run_until n (by_step L v) s = inl s' /\ oinv s' F' G' /\
    (0 <= phi B (mk_dst (by_delta s) F G)) /\
    phi B (mk_dst (by_delta s') F' G') <= phi B (mk_dst (by_delta s) F G) - 2 ^ Z.of_nat n /\
    (2 ^ Z.of_nat n - 1 <= phi B (mk_dst (by_delta s) F G))).
Proof.
  induction n as [|n IH]; intros s F G O; cbn [run_until].
  - destruct (step_spec s F G O) as [[-> ->]|(HG & s' & F' & G' & -> & O' & P0 & P1)].
    + left. eauto.
    + right. exists s', F', G'. change (2 ^ Z.of_nat 0) with 1.
      refine (conj eq_refl (conj O' (conj P0 (conj _ _)))); lia.
  - assert (HP : 2 ^ Z.of_nat (S n) = 2 * 2 ^ Z.of_nat n) by (rewrite Nat2Z.inj_succ, Z.pow_succ_r by (clear; lia); reflexivity).
    destruct (IH s F G O) as [(s' & F' & -> & O')|(s' & F' & G' & -> & O' & P0 & P1 & P2)].
    + left. eauto.
    + destruct (IH s' F' G' O') as [(s2 & F2 & -> & O2)|(s2 & F2 & G2 & -> & O2 & Q0 & Q1 & Q2)].
      * left. eauto.
      * right. exists s2, F2, G2. refine (conj eq_refl (conj O2 (conj P0 (conj _ _)))); lia.
Qed.

Lemma norm_spec : forall d D neg, cin L d D -> - (2 * M) < D < M ->
  cin L (by_norm v d neg) ((if neg then - D else D) mod M).
Proof.
  intros d D neg Hd RD. unfold by_norm.
  rewrite (cin_is_negative L d D) by (auto; apply srange_M; lia).
  set (d1 := if D <? 0 then cint_add d (by_modulus v) else d).
  assert (H1 : exists D1, cin L d1 D1 /\ - M < D1 < M /\ (M | D1 - D)).
  { unfold d1. destruct (Z.ltb_spec D 0).
    - exists (D + M). split; [now apply cin_add|]. split; [lia|]. exists 1. lia.
    - exists D. split; auto. split; [lia|]. exists 0. lia. }
  clearbody d1. destruct H1 as (D1 & H1 & R1 & C1).
  set (d2 := if neg then cint_neg d1 else d1).
  assert (H2 : exists D2, cin L d2 D2 /\ - M < D2 < M /\ (M | D2 - if neg then - D else D)).
  { unfold d2. destruct neg.
    - exists (- D1). split; [now apply cin_neg|]. split; [lia|]. replace (- D1 - - D) with (- (D1 - D)) by ring.
      now apply Z.divide_opp_r.
    - exists D1. auto. }
  clearbody d2. destruct H2 as (D2 & H2 & R2 & C2).
  rewrite (cin_is_negative L d2 D2) by (auto; apply srange_M; lia).
  set (Dn := if neg then - D else D) in *. destruct C2 as [q Hq].
  destruct (Z.ltb_spec D2 0).
  - replace (Dn mod M) with (D2 + M); [now apply cin_add|].
    symmetry. apply Zmod_unique_pos with (- q - 1); [lia|]. lia.
  - replace (Dn mod M) with D2; auto. symmetry. apply Zmod_unique_pos with (- q); lia.
Qed.
End Invert.

(** ** The inverter *)
Theorem by_invert_spec : forall L S m adj value,
  (1 <= L)%nat -> words m -> words adj -> words value ->
  1 < eval m -> Z.odd (eval m) = true -> eval m < 2 ^ (62 * Z.of_nat L - 64) ->
  eval value < 2 ^ (62 * Z.of_nat L - 64) -> eval adj < eval m -> eval m <= W ^ Z.of_nat S ->
  62 * Z.of_nat L + 64 <= B62 ->
  match by_invert L S (by_new L m adj) value with
  | Diverged => False
  | Done None => ~ rel_prime (eval m) (eval value)
  | Done (Some r) => rel_prime (eval m) (eval value) /\ length r = S /\ words r /\
      0 <= eval r < eval m /\ (eval m | eval r * eval value - eval adj)
  end.
Proof.
  intros L S m adj value HL Wm Wa Wv HM Ho HMb HVb HA HS HLB.
  set (M := eval m) in *. set (x := eval value) in *. set (A := eval adj) in *.
  assert (Hx : 0 <= x) by (apply eval_bound; auto).
  assert (HA0 : 0 <= A) by (apply eval_bound; auto).
  assert (HMT : 4 * B62 * M < T L) by (apply T_half; auto; lia).
  assert (HPos : 0 < 2 ^ (62 * Z.of_nat L - 64)) by lia.
  assert (H64 : 64 <= 62 * Z.of_nat L).
  { destruct (Z.le_gt_cases 64 (62 * Z.of_nat L)); auto. rewrite Z.pow_neg_r in HPos by lia. lia. }
  set (M0 := Z.max M x).
  assert (HM0 : M <= M0 /\ x <= M0 /\ 4 * B62 * M0 < T L).
  { unfold M0. split; [lia|]. split; [lia|]. apply T_half; auto; lia. }
  pose proof half62_pos as HB1. pose proof B62_even as HB2. pose proof B62_pos as HB3.
  assert (MT : M0 < T L) by nia.
  set (v := by_new L m adj).
  assert (Hmod : cin L (by_modulus v) M) by (apply to_chunks_spec; auto; fold M; lia).
  assert (Hadj : cin L (by_adjuster v) A) by (apply to_chunks_spec; auto; fold A; lia).
  assert (Hval : cin L (convert 64 62 L value) x) by (apply to_chunks_spec; auto; fold x; lia).
  assert (Hinv : 0 <= by_inverse v < B62 /\ (B62 | by_inverse v * M - 1)).
  { unfold v, by_new. cbn [by_inverse].
    destruct m as [|m0 m']; [cbn in M; lia|]. cbn [hd].
    assert (E0 : M = m0 + 2 * (2 * B62 * eval m')).
    { unfold M. cbn [eval]. rewrite <- B62_W. ring. }
    assert (O0 : Z.odd m0 = true) by (rewrite E0, Z.odd_add_mul_2 in Ho; auto).
    destruct (by_inv_spec m0 O0) as [R1 [q Hq]]. split; auto.
    exists (q + by_inv m0 * 4 * eval m'). rewrite E0. lia. }
  set (s0 := mk_by 1 (by_modulus v) (convert 64 62 L value) (cint_zero L) (by_adjuster v)).
  assert (O0 : oinv L M A x M0 s0 M x).
  { constructor; cbn [by_f by_g by_delta by_d by_e s0]; auto.
    - constructor; cbn [dd df dg]; auto; try lia.
    - lia.
    - tauto.
    - exists 0, A. split; [apply cin_zero|]. split; auto. split; [lia|]. split; [lia|]. split.
      + exists (- A). ring.
      + exists 0. ring. }
  unfold by_invert. fold v. fold s0.
  destruct (run_spec L v M A HL HM Ho HMT Hmod Hinv x M0 Hx HM0 HLB (124 * L + 6) s0 M x O0)
    as [(s' & F & -> & O)|(s' & F & G & _ & _ & _ & _ & Hbad)].
  - destruct O as [Of _ Od _ Ogcd (D & E & OD & _ & RD & _ & CD & _)].
    pose proof (di_f _ _ _ Od) as RF. cbn [df] in RF.
    assert (SF : srange L F) by (unfold srange; nia).
    assert (S1 : srange L 1) by (unfold srange; nia).
    assert (S2 : srange L (-1)) by (unfold srange; nia).
    rewrite (cin_eqb L _ _ F 1 Of (cin_one L HL) SF S1).
    rewrite (cin_eqb L _ _ F (-1) Of (cin_minus_one L) SF S2).
    assert (Hgcd : rel_prime M x <-> F = 1 \/ F = -1).
    { split; intros H.
      - assert (HF : (F | M) /\ (F | x)) by (apply Ogcd; split; [apply Z.divide_refl|apply Z.divide_0_r]).
        assert (H1 : (F | 1)) by (apply H; apply HF). apply Z.divide_1_r_abs in H1. lia.
      - constructor; try apply Z.divide_1_l. intros k K1 K2.
        assert (HK : (k | F) /\ (k | 0)) by (apply Ogcd; auto). destruct HK as [HK _].
        destruct H as [-> | ->]; auto. apply (Z.divide_opp_r k 1). exact HK. }
    pose proof (fun b => norm_spec L v M HL HM Ho HMT Hmod Hinv (by_d s') D b OD RD) as Hn.
    assert (Hfin : forall b, length (convert 62 64 S (by_norm v (by_d s') b)) = S /\
              words (convert 62 64 S (by_norm v (by_d s') b)) /\
              eval (convert 62 64 S (by_norm v (by_d s') b)) = (if b then - D else D) mod M).
    { intros b. set (y1 := (if b then - D else D) mod M).
      assert (Hy : 0 <= y1 < M) by (apply Z.mod_pos_bound; lia).
      apply (of_chunks_spec L S _ y1); [apply Hn|lia|lia]. }
    destruct (Z.eqb_spec F 1) as [E1|E1]; [|destruct (Z.eqb_spec F (-1)) as [E2|E2]]; cbn [negb andb].
    + replace (F =? -1) with false in * by (symmetry; apply Z.eqb_neq; lia).
      destruct (Hfin false) as (L1 & L2 & L3).
      split; [tauto|]. split; auto. split; auto. rewrite L3. split; [apply Z.mod_pos_bound; lia|].
      destruct CD as [q Hq]. rewrite E1 in Hq. exists (q - D / M * x).
      pose proof (Z.div_mod D M ltac:(lia)) as Dm. rewrite Dm in Hq at 1. lia.
    + destruct (Hfin true) as (L1 & L2 & L3).
      split; [tauto|]. split; auto. split; auto. rewrite L3. split; [apply Z.mod_pos_bound; lia|].
      destruct CD as [q Hq]. rewrite E2 in Hq. exists (- q - (- D) / M * x).
      pose proof (Z.div_mod (- D) M ltac:(lia)) as Dm. replace D with (- (- D)) in Hq at 1 by lia.
      rewrite Dm in Hq at 1. lia.
    + rewrite Hgcd. lia.
  - exfalso. cbn [by_delta s0] in Hbad. unfold phi in Hbad. cbn [dd df dg] in Hbad.
    assert (Hsz : sz M x <= 3 * M0 + 2).
    { unfold sz, szi. destruct (_ <? _); [|destruct (_ =? _)]; unfold M0; lia. }
    set (B := 62 * Z.of_nat L) in *.
    assert (HB : 62 <= B) by lia.
    assert (H2B : 2 ^ Z.of_nat (124 * L + 6) = 64 * (2 ^ B * 2 ^ B)).
    { change 64 with (2 ^ 6). rewrite <- !Z.pow_add_r by lia. f_equal. lia. }
    rewrite H2B in Hbad.
    assert (HM0B : M0 + 1 <= 2 ^ B) by (unfold B; rewrite <- T_pow; lia).
    assert (HBB : B + 1 <= 2 ^ B).
    { pose proof (Z.pow_gt_lin_r 2 B ltac:(lia) ltac:(lia)). lia. }
    set (P := 2 ^ B) in *. clearbody P.
    assert (sz M x * (2 * B + 4) <= (3 * P) * (2 * B + 4)).
    { apply Z.mul_le_mono_nonneg_r; lia. }
    assert ((3 * P) * (2 * B + 4) <= (3 * P) * (2 * P + 2)).
    { apply Z.mul_le_mono_nonneg_l; lia. }
    nia.
Qed.
