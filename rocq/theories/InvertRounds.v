(** The loop of the inverter follows the division steps, 62 at a time. *)
From Verif Require Import Base Word Limbs SpecField LimbsFacts Field FieldFacts Inverse InverseFacts ConvertFacts Divstep InvertFacts DivstepBound.

(** A [while] loop cut off after [k] rounds. *)
Fixpoint rounds {S R} (k : nat) (step : S -> S + R) (s : S) : S + R :=
  match k with
  | O => inl s
  | Datatypes.S k' => match step s with inl s' => rounds k' step s' | inr r => inr r end
  end.

Lemma rounds_add {S R} (step : S -> S + R) a : forall b s,
  rounds (a + b) step s = match rounds a step s with inl s' => rounds b step s' | inr r => inr r end.
Proof. induction a as [|a IH]; intros b s; cbn [rounds Nat.add]; [reflexivity|]. destruct (step s); [apply IH|reflexivity]. Qed.
Lemma run_until_rounds {S R} (step : S -> S + R) n : forall s, run_until n step s = rounds (2 ^ n) step s.
Proof.
  induction n as [|n IH]; intros s; cbn [run_until].
  - cbn [Nat.pow rounds]. now destruct (step s).
  - replace (2 ^ Datatypes.S n)%nat with (2 ^ n + 2 ^ n)%nat by (cbn [Nat.pow]; lia).
    rewrite rounds_add, <- IH. destruct (run_until n step s); [apply IH|reflexivity].
Qed.
Lemma rounds_more {S R} (step : S -> S + R) a b s r : rounds a step s = inr r -> (a <= b)%nat -> rounds b step s = inr r.
Proof. intros E H. replace b with (a + (b - a))%nat by lia. now rewrite rounds_add, E. Qed.
Lemma rounds_same {S R} (step : S -> S + R) a b s r r' : rounds a step s = inr r -> rounds b step s = inr r' -> r = r'.
Proof.
  intros A B. destruct (le_ge_dec a b) as [H|H].
  - rewrite (rounds_more step a b s r A H) in B. congruence.
  - rewrite (rounds_more step b a s r' B H) in A. congruence.
Qed.

Section Rounds.
Variables (L : nat) (v : inverter) (M A : Z).
Hypothesis HL : (1 <= L)%nat.
Hypothesis HM : 1 < M.
Hypothesis HMo : Z.odd M = true.
Hypothesis HMT : 4 * B62 * M < T L.
Hypothesis Hmod : cin L (by_modulus v) M.
Hypothesis Hinv : 0 <= by_inverse v < B62 /\ (B62 | by_inverse v * M - 1).
Variable x M0 : Z.
Hypothesis Hx : 0 <= x.
Hypothesis HM0 : M <= M0 /\ x <= M0 /\ 4 * B62 * M0 < T L.
Notation B := (62 * Z.of_nat L).
Hypothesis HLB : B + 64 <= B62.

Lemma cin_uniq a F F' : cin L a F -> cin L a F' -> srange L F -> srange L F' -> F = F'.
Proof using All.
  intros H1 H2 R1 R2. pose proof (cin_eqb L a a F F' H1 H2 R1 R2) as E.
  rewrite (proj2 (cint_eqb_spec a a) eq_refl) in E. symmetry in E. now apply Z.eqb_eq in E.
Qed.
Lemma step_follow s F G : oinv L M A x M0 s F G -> G <> 0 ->
  exists s' F' G', by_step L v s = inl s' /\ oinv L M A x M0 s' F' G' /\
    divsteps 62 (mk_dst (by_delta s) F G) = mk_dst (by_delta s') F' G'.
Proof using All.
  intros O HG. destruct (step_spec L v M A HL HM HMo HMT Hmod Hinv x M0 Hx HM0 HLB s F G O)
    as [[E _]|(_ & s' & F1 & G1 & E & O' & _)]; [easy|].
  exists s', F1, G1. split; [exact E|]. split; [exact O'|].
  destruct O as [Of Og Od Oh _ _]. destruct O' as [Of' Og' Od' _ _ _].
  pose proof (M0_lt L v M HL HM HMo HMT Hinv x M0 Hx HM0 HLB) as HM0B.
  pose proof (di_odd _ _ _ Od) as Fo. pose proof (di_low _ _ _ Od) as Dl. cbn [dd df] in Fo, Dl.
  pose proof (dinv_high B M0 ltac:(lia) HM0B _ Od HG) as Dh. cbn [dd] in Dh.
  pose proof (di_f _ _ _ Od) as RF. pose proof (di_g _ _ _ Od) as RG. cbn [df dg] in RF, RG.
  destruct (jump_spec (by_delta s) F G Fo ltac:(lia) (by_f s) (by_g s)
              (cin_lowest L _ _ HL Of) (cin_lowest L _ _ HL Og))
    as (delta' & t & F' & G' & Ej & Hst & T0 & T1 & N0 & N1).
  destruct (dinv_steps B M0 ltac:(lia) HM0B 62 _ Od) as [Od2 _]. rewrite Hst in Od2 |- *.
  unfold by_step in E. destruct (cint_eqb (by_g s) (cint_zero L)); [discriminate|].
  rewrite Ej in E. unfold by_fg, by_de in E. injection E as E. subst s'. cbn [by_delta by_f by_g] in *.
  pose proof (fg_row L v M HL HM HMo HMT Hinv x M0 HM0 HLB _ _ F G F' (t00 t) (t01 t) Of Og RF RG N0 T0) as C1.
  pose proof (fg_row L v M HL HM HMo HMT Hinv x M0 HM0 HLB _ _ F G G' (t10 t) (t11 t) Of Og RF RG N1 T1) as C2.
  pose proof (srange_M0 L v M HL HM HMo HMT Hinv x M0 Hx HM0 HLB) as SR.
  f_equal.
  - refine (cin_uniq _ _ _ C1 Of' (SR _ (di_f _ _ _ Od2)) (SR _ (di_f _ _ _ Od'))).
  - refine (cin_uniq _ _ _ C2 Og' (SR _ (di_g _ _ _ Od2)) (SR _ (di_g _ _ _ Od'))).
Qed.

Lemma rounds_follow k : forall s F G, oinv L M A x M0 s F G ->
  (exists s', rounds (S k) (by_step L v) s = inr (Some s')) \/
  dg (divsteps (62 * k) (mk_dst (by_delta s) F G)) <> 0.
Proof using All.
  induction k as [|k IH]; intros s F G O.
  - destruct (Z.eq_dec G 0) as [E|N]; [left|right; cbn [divsteps Nat.mul dg]; exact N].
    destruct (step_spec L v M A HL HM HMo HMT Hmod Hinv x M0 Hx HM0 HLB s F G O) as [[_ E']|[N _]]; [|easy].
    exists s. cbn [rounds]. now rewrite E'.
  - destruct (Z.eq_dec G 0) as [E|N].
    + left. destruct (step_spec L v M A HL HM HMo HMT Hmod Hinv x M0 Hx HM0 HLB s F G O) as [[_ E']|[N _]]; [|easy].
      exists s. cbn [rounds]. now rewrite E'.
    + destruct (step_follow s F G O N) as (s' & F' & G' & E & O' & D).
      replace (62 * S k)%nat with (62 + 62 * k)%nat by lia. rewrite divsteps_add, D.
      destruct (IH s' F' G' O') as [(s2 & R)|R]; [left|right; exact R].
      exists s2. cbn [rounds] in R |- *. rewrite E. exact R.
Qed.
End Rounds.

(** [invert] with the loop cut off after [k] rounds, the last of which only finds [g = 0]. *)
Definition by_invert_in (k L S : nat) (v : inverter) (value : list Z) : run (option (list Z)) :=
  let s0 := mk_by 1 (by_modulus v) (convert 64 62 L value) (cint_zero L) (by_adjuster v) in
  match rounds k (by_step L v) s0 with
  | inr (Some s) =>
      let antiunit := cint_eqb (by_f s) (cint_minus_one L) in
      if negb (cint_eqb (by_f s) (cint_one L)) && negb antiunit then Done None
      else Done (Some (convert 62 64 S (by_norm v (by_d s) antiunit)))
  | _ => Diverged
  end.

Theorem by_invert_rounds : forall k L S m adj value,
  (1 <= L)%nat -> words m -> words adj -> words value ->
  1 < eval m -> Z.odd (eval m) = true -> eval m < 2 ^ (62 * Z.of_nat L - 64) ->
  eval value < 2 ^ (62 * Z.of_nat L - 64) -> eval adj < eval m -> eval m <= W ^ Z.of_nat S ->
  62 * Z.of_nat L + 64 <= B62 ->
  2 ^ Z.of_nat (62 * k) * (4 * (Z.max (eval m) (eval value) * Z.max (eval m) (eval value))) < 3 ^ Z.of_nat (62 * k) ->
  by_invert_in (k + 1) L S (by_new L m adj) value = by_invert L S (by_new L m adj) value.
Proof.
  intros k L S m adj value HL Wm Wa Wv HM Ho HMb HVb HA HS HLB HK.
  pose proof (by_invert_spec L S m adj value HL Wm Wa Wv HM Ho HMb HVb HA HS HLB) as SP.
  set (M := eval m) in *. set (x := eval value) in *. set (A := eval adj) in *.
  assert (Hx : 0 <= x) by (apply eval_bound; auto).
  assert (HA0 : 0 <= A) by (apply eval_bound; auto).
  assert (HMT : 4 * B62 * M < T L) by (apply T_half; auto; lia).
  assert (HPos : 0 < 2 ^ (62 * Z.of_nat L - 64)) by lia.
  assert (H64 : 64 <= 62 * Z.of_nat L).
  { destruct (Z.le_gt_cases 64 (62 * Z.of_nat L)); auto. rewrite Z.pow_neg_r in HPos by lia. lia. }
  set (M0 := Z.max M x) in *.
  assert (HM0 : M <= M0 /\ x <= M0 /\ 4 * B62 * M0 < T L).
  { unfold M0. split; [lia|]. split; [lia|]. apply T_half; auto; lia. }
  pose proof half62_pos as HB1. pose proof B62_even as HB2. pose proof B62_pos as HB3.
  assert (MT : M0 < T L) by (clear - HM0 HB1 HB2 HB3 HM; nia).
  set (v := by_new L m adj) in *.
  assert (Hmod : cin L (by_modulus v) M) by (apply to_chunks_spec; auto; fold M; lia).
  assert (Hadj : cin L (by_adjuster v) A) by (apply to_chunks_spec; auto; fold A; lia).
  assert (Hval : cin L (convert 64 62 L value) x) by (apply to_chunks_spec; auto; fold x; lia).
  assert (Hinv : 0 <= by_inverse v < B62 /\ (B62 | by_inverse v * M - 1)).
  { unfold v, by_new. cbn [by_inverse].
    destruct m as [|m0 m']; [cbn in M; lia|]. cbn [hd].
    assert (E0 : M = m0 + 2 * (2 * B62 * eval m')).
    { unfold M. cbn [eval]. rewrite <- B62_W. ring. }
    assert (O0 : Z.odd m0 = true) by (rewrite E0, Z.odd_add_mul_2 in Ho; auto).
    destruct (by_inv_spec m0 O0) as [R1 [q Hq]]. split; auto.
    exists (q + by_inv m0 * 4 * eval m'). rewrite E0. lia. }
  set (s0 := mk_by 1 (by_modulus v) (convert 64 62 L value) (cint_zero L) (by_adjuster v)).
  assert (O0 : oinv L M A x M0 s0 M x).
  { constructor; cbn [by_f by_g by_delta by_d by_e s0]; auto.
    - constructor; cbn [dd df dg]; auto; try lia.
    - lia.
    - tauto.
    - exists 0, A. split; [apply cin_zero|]. split; auto. split; [lia|]. split; [lia|]. split.
      + exists (- A). ring.
      + exists 0. ring. }
  unfold by_invert_in, by_invert in *. fold s0 in SP |- *. rewrite run_until_rounds in SP |- *.
  destruct (rounds_follow L v M A HL HM Ho HMT Hmod Hinv x M0 Hx HM0 HLB k s0 M x O0) as [(s' & R)|N].
  - replace (k + 1)%nat with (Datatypes.S k) by lia. rewrite R.
    destruct (rounds (2 ^ (124 * L + 6)) (by_step L v) s0) as [s2|[s2|]] eqn:R2; [easy| |easy].
    pose proof (rounds_same _ _ _ _ _ _ R R2) as E. injection E as ->. reflexivity.
  - exfalso. apply N. cbn [by_delta s0]. apply (divsteps_done _ M x M0 Ho); [lia|lia|exact HK].
Qed.
