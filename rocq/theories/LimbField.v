(** Inversion of field elements, and the limb code as an instance of the
    abstract field interface: everything proved about [fops] records that are
    prime fields applies to the Montgomery limb arithmetic itself. *)
From Verif Require Import Base Word Limbs SpecField LimbsFacts Bytes Field FieldFacts Algebra PrimeField.
From Verif Require Import Inverse InverseFacts InvertFacts.

(** Configurations a 64-bit machine can hold; far beyond anything practical. *)
Definition sized (c : fconf) : Prop := Z.of_nat (num_limbs c) < 2 ^ 50.

Lemma by_loop_spec : forall c fuel k j, 0 <= j < Z.of_nat fuel -> modulus c < 2 ^ (62 * (k + j) - 64) ->
  exists L, by_loop c fuel k = Some L /\ k <= L <= k + j /\ modulus c < 2 ^ (62 * L - 64).
Proof.
  intros c. induction fuel as [|fuel IH]; intros k j Hj Hm; [lia|]. cbn [by_loop].
  destruct (Z.ltb_spec (modulus c) (2 ^ (62 * k - 64))) as [H|H].
  - exists k. repeat split; auto; lia.
  - destruct (Z.eq_dec j 0) as [->|Hn]; [rewrite Z.add_0_r in Hm; lia|].
    destruct (IH (k + 1) (j - 1)) as (L & E & R & B); [lia|now replace (k + 1 + (j - 1)) with (k + j) by lia|].
    exists L. repeat split; auto; lia.
Qed.
Lemma by_constant_spec : forall c, odd_conf c ->
  exists L, by_inverter_constant c = Some L /\ 2 <= L <= 2 * Z.of_nat (num_limbs c) + 3 /\
    modulus c < 2 ^ (62 * L - 64).
Proof.
  intros c Hc. pose proof (num_limbs_pos c Hc) as Hn. pose proof (p_lt_R c Hc) as Hp.
  unfold by_inverter_constant.
  destruct (by_loop_spec c (2 * num_limbs c + 2) 2 (2 * Z.of_nat (num_limbs c) + 1)) as (L & E & R & B).
  - lia.
  - eapply Z.lt_le_trans; [apply Hp|]. rewrite W_pow, <- Z.pow_mul_r by lia. apply Z.pow_le_mono_r; lia.
  - exists L. repeat split; auto; lia.
Qed.

Lemma sized_bound : forall k n, 2 <= k <= 2 * n + 3 -> 0 <= n < 2 ^ 50 -> 62 * k + 64 <= B62.
Proof.
  intros k n Hk Hn. rewrite B62_pow.
  assert (2 ^ 62 = 4096 * 2 ^ 50) by reflexivity. assert (2 ^ 50 > 1000) by reflexivity. lia.
Qed.

Section Invert.
Variable c : fconf.
Hypothesis Hc : odd_conf c.
Hypothesis Hs : sized c.
Notation p := (modulus c).
Notation n := (num_limbs c).
Notation repr := (represents (num_limbs c) (modulus c)).

Lemma fe_invert_spec : forall a x, repr a x ->
  match fe_invert c a with
  | Diverged => False
  | Done None => ~ rel_prime p x
  | Done (Some i) => exists y, repr i y /\ (x * y) mod p = 1
  end.
Proof.
  intros a x Ha. unfold fe_invert.
  destruct (by_constant_spec c Hc) as (L & -> & HL & HB).
  destruct (modulus_limbs_spec c Hc) as (M1 & M2 & M3).
  pose proof (p_gt1 c Hc) as P1. pose proof (p_lt_R c Hc) as PR.
  assert (Hr2 : 0 <= r2 c < p) by (apply Z.mod_pos_bound; lia).
  destruct (token_canon c Hc (r2 c) Hr2) as [(R1 & R2' & R3) R4]. fold (R2 c) in *.
  destruct Ha as ((A1 & A2 & A3) & A4 & A5).
  pose proof (by_invert_spec (Z.to_nat L) n (modulus_limbs c) (R2 c) a ltac:(lia) M2 R2' A2) as HI.
  rewrite M3, R4, Z2Nat.id in HI by lia.
  specialize (HI P1 (proj2 Hc) HB ltac:(lia) (proj2 Hr2) ltac:(lia)).
  unfold sized in Hs. specialize (HI (sized_bound L (Z.of_nat n) HL ltac:(lia))).
  destruct (by_invert _ _ _ _) as [[i|]|]; auto.
  - destruct HI as (Hrp & I1 & I2 & I3 & I4).
    destruct (canon_repr c Hc i) as [y' Hy]; [repeat split; auto; apply I3|].
    exists y'. split; auto.
    destruct Hy as (_ & Y2 & Y3).
    assert (E : (Wn n * Wn n * (x * y')) mod p = (Wn n * Wn n * 1) mod p).
    { assert (E1 : (eval i * eval a) mod p = r2 c mod p) by (apply Zmod_eq_iff; [lia|exact I4]).
      rewrite A5, Y3, <- Zmult_mod in E1. unfold r2, r1 in E1. rewrite Zmod_mod, <- Zmult_mod in E1.
      replace (Wn n * Wn n * (x * y')) with (y' * Wn n * (x * Wn n)) by ring.
      rewrite Z.mul_1_r. exact E1. }
    apply mod_cancel in E; [|apply rel_prime_sym, rel_prime_mult; apply rel_prime_sym, (R_coprime c Hc)|lia].
    rewrite E. apply Z.mod_small. lia.
  - intros H. apply HI. clear HI.
    assert (Hxr : rel_prime p (x * Wn n)).
    { apply rel_prime_mult; auto. apply rel_prime_sym, (R_coprime c Hc). }
    rewrite A5. apply rel_prime_sym, rel_prime_mod; [lia|]. now apply rel_prime_sym.
Qed.

Lemma fe_invert_prime : prime p -> forall a x, repr a x ->
  (x = 0 -> fe_invert c a = Done None) /\
  (x <> 0 -> exists i y, fe_invert c a = Done (Some i) /\ repr i y /\ (x * y) mod p = 1).
Proof.
  intros Hp a x Ha. pose proof (fe_invert_spec a x Ha) as H. pose proof (repr_bound c a x Ha) as Hx.
  pose proof (p_gt1 c Hc) as P1. split; intros Hz.
  - destruct (fe_invert c a) as [[i|]|]; auto; [|contradiction].
    destruct H as (y & _ & E). rewrite Hz, Z.mul_0_l, Z.mod_0_l in E by lia. discriminate.
  - destruct (fe_invert c a) as [[i|]|].
    + destruct H as (y & Hy & E). exists i, y. auto.
    + exfalso. apply H. apply rel_prime_sym, rel_prime_le_prime; auto. lia.
    + contradiction.
Qed.

(** ** The limb type as a field *)
Definition canonb (l : list Z) : bool :=
  Nat.eqb (length l) n && forallb (fun w => (0 <=? w) && (w <? W)) l && (eval l <? p).
Lemma canonb_spec : forall l, canonb l = true <-> canonical n p l.
Proof.
  intros l. unfold canonb, canonical, words. rewrite !andb_true_iff, Nat.eqb_eq, forallb_forall, Forall_forall, Z.ltb_lt.
  split.
  - intros [[H1 H2] H3]. repeat split; auto; specialize (H2 x H); lia.
  - intros (H1 & H2 & H3). repeat split; auto. intros w Hw. specialize (H2 w Hw). lia.
Qed.
End Invert.

Definition lf (c : fconf) : Type := { l : list Z | canonb c l = true }.
Definition limbs {c} (x : lf c) : list Z := proj1_sig x.
Lemma lf_ext c (x y : lf c) : limbs x = limbs y -> x = y.
Proof.
  destruct x as [x Hx], y as [y Hy]. cbn. intros ->. f_equal. apply Eqdep_dec.UIP_dec. apply bool_dec.
Qed.
(** Wrap a limb list; the default is only used for non-canonical lists. *)
Definition lf_of {c} (d : lf c) (l : list Z) : lf c :=
  match bool_dec (canonb c l) true with left H => exist _ l H | right _ => d end.
Lemma lf_of_limbs c (d : lf c) l : canonb c l = true -> limbs (lf_of d l) = l.
Proof. intros H. unfold lf_of. destruct (bool_dec _ _); [reflexivity|contradiction]. Qed.

Section LF.
Variable c : fconf.
Hypothesis Hc : odd_conf c.
Lemma canonb_zero : canonb c (fe_zero c) = true.
Proof. apply canonb_spec. apply (repr_canon c _ 0 (fe_zero_repr c Hc)). Qed.
Definition lf0 : lf c := exist _ (fe_zero c) canonb_zero.

(** The derived operators on the wrapped type. *)
Definition lf_ops : fops (lf c) :=
  let up := lf_of lf0 in
  {| f0 := lf0; f1 := up (fe_one c);
     fadd := fun a b => up (fe_add c (limbs a) (limbs b));
     fsub := fun a b => up (fe_sub c (limbs a) (limbs b));
     fmul := fun a b => up (fe_mul c (limbs a) (limbs b));
     fneg := fun a => up (fe_neg c (limbs a));
     fsqr := fun a => up (fe_square c (limbs a));
     fdbl := fun a => up (fe_double c (limbs a));
     finv := fun a => match fe_invert c (limbs a) with
                      | Done (Some i) => Some (up i)
                      | _ => None
                      end;
     feqb := fun a b => fe_eqb (limbs a) (limbs b);
     fis0 := fun a => fe_eqb (limbs a) (fe_zero c) |}.
Definition lf_inj (z : Z) : lf c := lf_of lf0 (to_token c (mont c z)).
Definition lf_val (x : lf c) : Z := eval (fe_from_mont c (limbs x)).

Notation repr := (represents (num_limbs c) (modulus c)).
Lemma lf_repr : forall x, repr (limbs x) (lf_val x).
Proof.
  intros [l Hl]. cbn [limbs proj1_sig]. pose proof (proj1 (canonb_spec c l) Hl) as Hcan.
  destruct (canon_repr c Hc l Hcan) as [v Hv].
  unfold lf_val. cbn [limbs proj1_sig]. destruct (fe_from_mont_spec c Hc l v Hv) as (_ & _ & E).
  now rewrite E.
Qed.
Lemma repr_val : forall d l v, repr l v -> lf_val (lf_of d l) = v /\ limbs (lf_of d l) = l.
Proof.
  intros d l v H. assert (E : limbs (lf_of d l) = l).
  { apply lf_of_limbs. apply canonb_spec. apply H. }
  split; auto. unfold lf_val. rewrite E. now destruct (fe_from_mont_spec c Hc l v H) as (_ & _ & ->).
Qed.

Hypothesis Hs : sized c.
Hypothesis Hp : prime (modulus c).

Theorem lf_zrep : zrep (modulus c) lf_ops lf_inj lf_val.
Proof.
  pose proof (p_gt1 c Hc) as P1.
  constructor; intros; cbn [f0 f1 fadd fsub fmul fneg fsqr fdbl finv feqb fis0 lf_ops].
  - apply repr_val. apply (token_mont_repr c Hc).
  - apply lf_ext. unfold lf_inj.
    pose proof (token_mont_repr c Hc (lf_val x)) as Ht.
    rewrite (proj2 (repr_val lf0 _ _ Ht)).
    rewrite Z.mod_small in Ht by apply (repr_bound c _ _ (lf_repr x)).
    apply (repr_inj c _ _ (lf_val x)); auto. apply lf_repr.
  - unfold lf_val. cbn [limbs lf0 proj1_sig].
    now destruct (fe_from_mont_spec c Hc _ _ (fe_zero_repr c Hc)) as (_ & _ & ->).
  - apply repr_val. apply (fe_one_repr c Hc).
  - apply repr_val. apply (fe_add_repr c Hc); apply lf_repr.
  - apply repr_val. apply (fe_sub_repr c Hc); apply lf_repr.
  - apply repr_val. apply (fe_mul_repr c Hc); apply lf_repr.
  - apply repr_val. apply (fe_neg_repr c Hc); apply lf_repr.
  - apply repr_val. apply (fe_square_repr c Hc); apply lf_repr.
  - replace (lf_val x + lf_val x) with (2 * lf_val x) by ring.
    apply repr_val. apply (fe_double_repr c Hc); apply lf_repr.
  - destruct (Z.eqb_spec (lf_val x) 0) as [E|E]; [|reflexivity].
    now rewrite (proj1 (fe_invert_prime c Hc Hs Hp _ _ (lf_repr x)) E).
  - destruct (proj2 (fe_invert_prime c Hc Hs Hp _ _ (lf_repr x)) H) as (i & y & -> & Hy & E).
    eexists. split; [reflexivity|]. now rewrite (proj1 (repr_val lf0 i y Hy)).
  - pose proof (fe_eqb_repr c Hc _ _ _ _ (lf_repr x) (lf_repr y)) as H.
    destruct (fe_eqb (limbs x) (limbs y)); destruct (Z.eqb_spec (lf_val x) (lf_val y)); auto; [|tauto].
    exfalso. apply n. now apply H.
  - pose proof (fe_eqb_repr c Hc _ _ _ _ (lf_repr x) (fe_zero_repr c Hc)) as H.
    destruct (fe_eqb (limbs x) (fe_zero c)); destruct (Z.eqb_spec (lf_val x) 0); auto; [|tauto].
    exfalso. apply n. now apply H.
Qed.
Theorem lf_prime_field : prime_field (modulus c) lf_ops lf_inj.
Proof. exact (zrep_prime_field _ _ _ lf_val Hp lf_zrep). Qed.
End LF.
