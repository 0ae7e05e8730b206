(** How many division steps it takes: the quadratic form f^2 - f G + G^2 with G = 2 g
    loses the factor (3/2)^n in n steps. *)
From Verif Require Import Base Word Limbs SpecField LimbsFacts Field Inverse InverseFacts ConvertFacts Divstep.

Definition nform (f G : Z) : Z := f * f - f * G + G * G.

Lemma nform_ge f G : 3 * (G * G) <= 4 * nform f G.
Proof. unfold nform. pose proof (Z.square_nonneg (2 * f - G)). nia. Qed.

(** One whole pass: from [delta = 1] over the zeros of [g], the exchange, and back to [delta = 1]. *)
Lemma clear_bits m : forall g f, Z.odd f = true ->
  exists w, 0 <= w < 2 ^ Z.of_nat m /\ (2 ^ Z.of_nat m | g + w * f).
Proof.
  induction m as [|m IH]; intros g f Hf.
  - exists 0. change (2 ^ Z.of_nat 0) with 1. split; [lia|apply Z.divide_1_l].
  - destruct (IH g f Hf) as (w & Hw & [c Hc]). rewrite Nat2Z.inj_succ, Z.pow_succ_r by lia.
    set (P := 2 ^ Z.of_nat m) in *. destruct (Z.odd c) eqn:Ec.
    + exists (w + P). split; [lia|]. pose proof (odd_half _ (odd_sum_even _ _ Ec Hf)) as E.
      exists ((c + f) / 2). replace (g + (w + P) * f) with ((c + f) * P) by (clear - Hc; lia). rewrite E at 1. ring.
    + exists w. split; [lia|]. pose proof (odd_half _ Ec) as E. exists (c / 2). rewrite Hc. rewrite E at 1. ring.
Qed.

Lemma divsteps_pass k f h : Z.odd f = true -> Z.odd h = true ->
  exists q g', divsteps (2 * S k) (mk_dst 1 f (2 ^ Z.of_nat k * h)) = mk_dst 1 h g' /\
    Z.odd q = true /\ 0 < q < 2 * 2 ^ Z.of_nat (S k) /\ 2 ^ Z.of_nat (S k) * (2 * g') = q * h - f.
Proof.
  intros Hf Hh. pose proof (odd_half _ (odd_diff_even _ _ Hh Hf)) as E.
  set (g1 := (h - f) / 2) in *.
  destruct (clear_bits (S k) g1 h Hh) as (w & Hw & Hd).
  pose proof Hd as [c Hc].
  exists (2 * w + 1), c.
  replace (2 * S k)%nat with (k + (1 + S k))%nat by lia.
  rewrite !divsteps_add, divsteps_zeros.
  change (divsteps 1 (mk_dst (1 + Z.of_nat k) f h)) with (divstep (mk_dst (1 + Z.of_nat k) f h)).
  unfold divstep. cbn [dd df dg]. rewrite Hh. destruct (Z.ltb_spec 0 (1 + Z.of_nat k)) as [_|N]; [|lia].
  fold g1. rewrite (divsteps_elim (S k) _ h g1 w Hh) by (assumption || lia).
  set (P := 2 ^ Z.of_nat (S k)) in *. assert (HP : 0 < P) by (apply Z.pow_pos_nonneg; lia).
  split; [|split; [|split]].
  - f_equal; [lia|]. rewrite Hc. apply Z.div_mul. lia.
  - rewrite Z.add_comm, Z.odd_add_mul_2. reflexivity.
  - lia.
  - replace (P * (2 * c)) with (2 * (c * P)) by ring. rewrite <- Hc. lia.
Qed.

(** A pass with [e] zeros to clear contracts the form by (4/9)^e. *)
Lemma contract_many E q f h G' : 0 <= q <= 2 * E -> E * G' = q * h - f ->
  E * E * nform h G' <= 3 * nform f (E * h).
Proof.
  intros Hq EG. unfold nform.
  replace (E * E * (h * h - h * G' + G' * G')) with (E * E * (h * h) - E * h * (E * G') + (E * G') * (E * G')) by ring.
  rewrite EG.
  assert (K : 0 <= (2 * f + (q - 2 * E) * h) * (2 * f + (q - 2 * E) * h) + 3 * (q * (2 * E - q)) * (h * h)).
  { pose proof (Z.square_nonneg (2 * f + (q - 2 * E) * h)). pose proof (Z.square_nonneg h).
    assert (0 <= q * (2 * E - q)) by (apply Z.mul_nonneg_nonneg; lia).
    assert (0 <= q * (2 * E - q) * (h * h)) by (apply Z.mul_nonneg_nonneg; lia). lia. }
  lia.
Qed.
Lemma contract_one q f h G' : q = 1 \/ q = 3 -> 2 * G' = q * h - f -> 9 * nform h G' <= 4 * nform f (2 * h).
Proof.
  intros Hq EG. unfold nform. assert (EF : f = q * h - 2 * G') by lia. subst f. clear EG.
  destruct Hq as [-> | ->].
  - pose proof (Z.square_nonneg (7 * (h - 2 * G') - 16 * h)). pose proof (Z.square_nonneg h). nia.
  - pose proof (Z.square_nonneg (7 * (3 * h - 2 * G') + 2 * h)). pose proof (Z.square_nonneg h). nia.
Qed.
Lemma pow_gap k : 3 * 9 ^ Z.of_nat (S (S k)) <= 16 ^ Z.of_nat (S (S k)).
Proof.
  induction k as [|k IH]; [vm_compute; discriminate|].
  rewrite (Nat2Z.inj_succ (S (S k))), !Z.pow_succ_r by lia. lia.
Qed.
Lemma contract k q f h G' : Z.odd q = true -> 0 < q < 2 * 2 ^ Z.of_nat (S k) -> 2 ^ Z.of_nat (S k) * G' = q * h - f ->
  9 ^ Z.of_nat (S k) * nform h G' <= 4 ^ Z.of_nat (S k) * nform f (2 ^ Z.of_nat (S k) * h).
Proof.
  intros Oq Hq EG. destruct k as [|k].
  - change (2 ^ Z.of_nat 1) with 2 in *. change (9 ^ Z.of_nat 1) with 9. change (4 ^ Z.of_nat 1) with 4.
    apply (contract_one q); [|exact EG]. assert (q <> 2) by (intros ->; discriminate). lia.
  - pose proof (contract_many (2 ^ Z.of_nat (S (S k))) q f h G' ltac:(lia) EG) as C.
    rewrite <- Z.pow_mul_l in C. change (2 * 2) with 4 in C. pose proof (pow_gap k) as G.
    set (N := nform f (2 ^ Z.of_nat (S (S k)) * h)) in *.
    assert (HN : 0 <= N).
    { unfold N. pose proof (nform_ge f (2 ^ Z.of_nat (S (S k)) * h)).
      pose proof (Z.square_nonneg (2 ^ Z.of_nat (S (S k)) * h)). lia. }
    set (N' := nform h G') in *. clearbody N N'.
    replace (16 ^ Z.of_nat (S (S k))) with (4 ^ Z.of_nat (S (S k)) * 4 ^ Z.of_nat (S (S k))) in G
      by (rewrite <- Z.pow_mul_l; reflexivity).
    assert (P4 : 0 < 4 ^ Z.of_nat (S (S k))) by (apply Z.pow_pos_nonneg; lia).
    assert (P9 : 0 < 9 ^ Z.of_nat (S (S k))) by (apply Z.pow_pos_nonneg; lia).
    set (a := 4 ^ Z.of_nat (S (S k))) in *. set (b := 9 ^ Z.of_nat (S (S k))) in *. clearbody a b.
    assert (b * (a * N') <= b * (3 * N)) by (apply Z.mul_le_mono_nonneg_l; lia).
    assert (3 * b * N <= a * a * N) by (apply Z.mul_le_mono_nonneg_r; lia).
    assert (a * (b * N') <= a * (a * N)) by lia.
    clear - H1 P4. nia.
Qed.

Lemma divsteps_zero n : forall d f, dg (divsteps n (mk_dst d f 0)) = 0.
Proof. induction n as [|n IH]; intros d f; cbn [divsteps]; [reflexivity|]. unfold divstep. cbn [dd df dg Z.odd]. apply IH. Qed.
Lemma two_part g : g <> 0 -> exists k h, g = 2 ^ Z.of_nat k * h /\ Z.odd h = true.
Proof.
  assert (P : forall p, exists k h, Zpos p = 2 ^ Z.of_nat k * h /\ Z.odd h = true).
  { induction p as [p IH|p IH|].
    - exists O, (Zpos p~1). split; [lia|reflexivity].
    - destruct IH as (k & h & E & O). exists (S k), h. split; [|exact O].
      rewrite Nat2Z.inj_succ, Z.pow_succ_r by lia. rewrite <- Z.mul_assoc, <- E. reflexivity.
    - exists O, 1. split; reflexivity. }
  intros Hg. destruct g as [|p|p]; [easy|apply P|]. destruct (P p) as (k & h & E & O).
  exists k, (- h). split; [|now rewrite Z.odd_opp]. change (Zneg p) with (- Zpos p). rewrite E. ring.
Qed.
Lemma ratio_mono n m X : (n <= m)%nat -> 0 <= X -> 3 ^ Z.of_nat m <= 2 ^ Z.of_nat m * X -> 3 ^ Z.of_nat n <= 2 ^ Z.of_nat n * X.
Proof.
  intros H HX. replace (Z.of_nat m) with (Z.of_nat n + Z.of_nat (m - n)) by lia. rewrite !Z.pow_add_r by lia.
  assert (2 ^ Z.of_nat (m - n) <= 3 ^ Z.of_nat (m - n)) by (apply Z.pow_le_mono_l; lia).
  assert (0 < 2 ^ Z.of_nat (m - n)) by (apply Z.pow_pos_nonneg; lia).
  assert (0 < 3 ^ Z.of_nat n) by (apply Z.pow_pos_nonneg; lia).
  set (a := 2 ^ Z.of_nat (m - n)) in *. set (b := 3 ^ Z.of_nat (m - n)) in *. set (c := 3 ^ Z.of_nat n) in *.
  set (d := 2 ^ Z.of_nat n). clearbody a b c d. intros K. assert (c * a <= d * X * a) by nia. nia.
Qed.

(** The bound: as long as [g] is not zero, (3/2)^n is at most the form at the start. *)
Theorem divsteps_bound : forall n f g, Z.odd f = true -> dg (divsteps n (mk_dst 1 f g)) <> 0 ->
  3 ^ Z.of_nat n <= 2 ^ Z.of_nat n * nform f (2 * g).
Proof.
  induction n as [n IH] using (well_founded_induction lt_wf). intros f g Hf Hn.
  assert (Hg : g <> 0) by (intros ->; now rewrite divsteps_zero in Hn).
  destruct (two_part g Hg) as (k & h & -> & Hh).
  assert (E2 : 2 * (2 ^ Z.of_nat k * h) = 2 ^ Z.of_nat (S k) * h) by (rewrite Nat2Z.inj_succ, Z.pow_succ_r by lia; ring).
  rewrite E2. set (N := nform f (2 ^ Z.of_nat (S k) * h)).
  assert (Hh1 : 1 <= h * h) by (assert (h <> 0) by (intros ->; discriminate); nia).
  assert (HN : 3 * 4 ^ Z.of_nat k <= N).
  { pose proof (nform_ge f (2 ^ Z.of_nat (S k) * h)) as G. fold N in G.
    replace (2 ^ Z.of_nat (S k) * h * (2 ^ Z.of_nat (S k) * h)) with (4 ^ Z.of_nat (S k) * (h * h)) in G
      by (change 4 with (2 * 2); rewrite Z.pow_mul_l; ring).
    rewrite Nat2Z.inj_succ, Z.pow_succ_r in G by lia.
    assert (0 < 4 ^ Z.of_nat k) by (apply Z.pow_pos_nonneg; lia). nia. }
  assert (P4 : 0 < 4 ^ Z.of_nat k) by (apply Z.pow_pos_nonneg; lia).
  destruct (le_lt_dec (2 * S k) n) as [C|C].
  - destruct (divsteps_pass k f h Hf Hh) as (q & g' & Ep & Oq & Hq & Eg).
    replace n with (2 * S k + (n - 2 * S k))%nat in Hn by lia. rewrite divsteps_add, Ep in Hn.
    specialize (IH (n - 2 * S k)%nat ltac:(lia) h g' Hh Hn).
    pose proof (contract k q f h (2 * g') Oq Hq Eg) as CT. fold N in CT.
    replace (Z.of_nat n) with (2 * Z.of_nat (S k) + Z.of_nat (n - 2 * S k)) by lia.
    rewrite !Z.pow_add_r, !Z.pow_mul_r by lia. change (3 ^ 2) with 9. change (2 ^ 2) with 4.
    set (m := (n - 2 * S k)%nat) in *. set (N' := nform h (2 * g')) in *.
    assert (P2 : 0 < 2 ^ Z.of_nat m) by (apply Z.pow_pos_nonneg; lia).
    assert (P9 : 0 < 9 ^ Z.of_nat (S k)) by (apply Z.pow_pos_nonneg; lia).
    assert (9 ^ Z.of_nat (S k) * 3 ^ Z.of_nat m <= 9 ^ Z.of_nat (S k) * (2 ^ Z.of_nat m * N')) by (apply Z.mul_le_mono_nonneg_l; lia).
    assert (2 ^ Z.of_nat m * (9 ^ Z.of_nat (S k) * N') <= 2 ^ Z.of_nat m * (4 ^ Z.of_nat (S k) * N)) by (apply Z.mul_le_mono_nonneg_l; lia).
    clear - H H0. lia.
  - apply (ratio_mono n (S (2 * k))); [lia|lia|].
    assert (EZ : Z.of_nat (S (2 * k)) = 1 + 2 * Z.of_nat k) by lia. rewrite EZ, !Z.pow_add_r, !Z.pow_mul_r by lia.
    change (3 ^ 1) with 3. change (2 ^ 1) with 2. change (3 ^ 2) with 9. change (2 ^ 2) with 4.
    assert (9 ^ Z.of_nat k <= 16 ^ Z.of_nat k) by (apply Z.pow_le_mono_l; lia).
    replace (16 ^ Z.of_nat k) with (4 ^ Z.of_nat k * 4 ^ Z.of_nat k) in H by (rewrite <- Z.pow_mul_l; reflexivity).
    clear - H HN P4. set (a := 4 ^ Z.of_nat k) in *. set (b := 9 ^ Z.of_nat k) in *. clearbody a b. nia.
Qed.

Corollary divsteps_done n f g M : Z.odd f = true -> 0 <= f <= M -> 0 <= g <= M ->
  2 ^ Z.of_nat n * (4 * (M * M)) < 3 ^ Z.of_nat n -> dg (divsteps n (mk_dst 1 f g)) = 0.
Proof.
  intros Hf Bf Bg H. destruct (Z.eq_dec (dg (divsteps n (mk_dst 1 f g))) 0) as [|N]; [assumption|exfalso].
  pose proof (divsteps_bound n f g Hf N) as K.
  assert (nform f (2 * g) <= 4 * (M * M)).
  { unfold nform. destruct (Z.le_gt_cases f (2 * g)); nia. }
  assert (0 < 2 ^ Z.of_nat n) by (apply Z.pow_pos_nonneg; lia). nia.
Qed.
