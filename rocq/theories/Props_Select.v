(** Property theorems C63: the branch-free selection and comparison functions; and the part of C07
    about the two's complement integers of src/ff_ext/jacobi.rs. *)
From Verif Require Import Base Word Limbs LimbsFacts Field SpecField Params FieldFacts Algebra Tower Curve Inverse InverseFacts Jacobi JacobiLint JacobiLoop
  Props_Field2 Select.
Local Open Scope Z_scope.

Lemma mask_false : word_mask false = 0. Proof. reflexivity. Qed.
Lemma mask_true : word_mask true = Z.ones 64. Proof. reflexivity. Qed.
Lemma lxor_word a b : 0 <= a < W -> 0 <= b < W -> 0 <= Z.lxor a b < W.
Proof.
  intros Ha Hb. split; [apply Z.lxor_nonneg; lia|]. destruct (Z.eq_dec (Z.lxor a b) 0) as [E|N]; [rewrite E; reflexivity|].
  change W with (2 ^ 64) in *. apply Z.log2_lt_pow2; [assert (0 <= Z.lxor a b) by (apply Z.lxor_nonneg; lia); lia|].
  pose proof (Z.log2_lxor a b ltac:(lia) ltac:(lia)) as L.
  assert (forall x, 0 <= x < 2 ^ 64 -> Z.log2 x < 64) as K.
  { intros x Hx. destruct (Z.eq_dec x 0) as [-> |]; [reflexivity|]. apply Z.log2_lt_pow2; lia. }
  pose proof (K a Ha). pose proof (K b Hb). lia.
Qed.
Lemma word_select_spec a b ch : 0 <= a < W -> 0 <= b < W -> word_select a b ch = if ch then b else a.
Proof.
  intros Ha Hb. unfold word_select. destruct ch.
  - rewrite mask_true, Z.land_comm, Z.land_ones by lia. rewrite Z.mod_small by (change (2 ^ 64) with W; apply lxor_word; assumption).
    rewrite <- Z.lxor_assoc, Z.lxor_nilpotent. reflexivity.
  - rewrite mask_false, Z.land_0_l, Z.lxor_0_r. reflexivity.
Qed.
Lemma high_bit x : 0 <= x < W -> Z.shiftr (Z.lor x ((- x) mod W)) 63 = if x =? 0 then 0 else 1.
Proof.
  intros Hx. destruct (Z.eqb_spec x 0) as [-> | N]; [reflexivity|].
  assert (E : (- x) mod W = W - x) by (symmetry; apply (Zmod_unique _ _ (-1)); lia). rewrite E.
  rewrite Z.shiftr_lor, !Z.shiftr_div_pow2 by lia. change W with (2 * 2 ^ 63) in *.
  assert (H : forall y, 0 <= y < 2 * 2 ^ 63 -> y / 2 ^ 63 = if 2 ^ 63 <=? y then 1 else 0).
  { intros y Hy. destruct (Z.leb_spec (2 ^ 63) y); [symmetry; apply Z.div_unique with (y - 2 ^ 63); lia|apply Z.div_small; lia]. }
  rewrite !H by lia. destruct (Z.leb_spec (2 ^ 63) x); destruct (Z.leb_spec (2 ^ 63) (2 * 2 ^ 63 - x)); try reflexivity. lia.
Qed.
Lemma word_ct_eq_spec a b : 0 <= a < W -> 0 <= b < W -> word_ct_eq a b = (a =? b).
Proof.
  intros Ha Hb. unfold word_ct_eq. rewrite (high_bit _ (lxor_word a b Ha Hb)).
  assert (E : (Z.lxor a b =? 0) = (a =? b)).
  { destruct (Z.eqb_spec a b) as [-> | N]; [rewrite Z.lxor_nilpotent; reflexivity|]. apply Z.eqb_neq. intros X. apply N. apply Z.lxor_eq. exact X. }
  rewrite E. destruct (a =? b); reflexivity.
Qed.

(** ** Selections and comparisons of a type, on the values that occur *)
Definition selects {A} (ok : A -> Prop) (sel : A -> A -> bool -> A) : Prop :=
  forall a b, ok a -> ok b -> sel a b true = b /\ sel a b false = a.
Definition compares {A} (ok : A -> Prop) (eq : A -> A -> bool) : Prop := forall a b, ok a -> ok b -> (eq a b = true <-> a = b).
(** An array of [n] words. *)
Definition limbs_ok (n : nat) (a : list Z) : Prop := length a = n /\ Forall (fun x => 0 <= x < W) a.
Lemma nth_all n (a : list Z) : length a = n -> map (fun i => nth i a 0) (seq 0 n) = a.
Proof.
  intros <-. induction a as [|x a IH]; [reflexivity|]. cbn [length seq map nth]. f_equal. rewrite <- seq_shift, map_map. exact IH.
Qed.
Lemma limbs_sel n : selects (limbs_ok n) (limbs_select n).
Proof.
  intros a b [La Ha] [Lb Hb].
  assert (X : forall ch, limbs_select n a b ch = map (fun i => if ch then nth i b 0 else nth i a 0) (seq 0 n)).
  { intros ch. unfold limbs_select. apply map_ext_in. intros i HI. apply in_seq in HI. rewrite Forall_forall in Ha, Hb.
    apply word_select_spec; [apply Ha; apply nth_In; lia|apply Hb; apply nth_In; lia]. }
  rewrite !X. split; [exact (nth_all n b Lb)|exact (nth_all n a La)].
Qed.
Lemma limbs_cmp n : compares (limbs_ok n) limbs_ct_eq.
Proof.
  intros a b [La Ha] [Lb Hb]. revert n b La Lb Hb. induction a as [|x a IH]; intros n b La Lb Hb.
  - cbn in La. subst n. destruct b; [|discriminate]. split; reflexivity.
  - destruct b as [|y b]; [cbn in *; congruence|]. inversion_clear Ha. inversion_clear Hb. cbn [length] in La, Lb. destruct n as [|n]; [discriminate|].
    unfold limbs_ct_eq. cbn [combine forallb fst snd]. rewrite word_ct_eq_spec by assumption. fold (limbs_ct_eq a b). rewrite Bool.andb_true_iff, Z.eqb_eq.
    rewrite (IH ltac:(assumption) n b ltac:(congruence) ltac:(congruence) ltac:(assumption)). split; [intros [-> ->]; reflexivity|intros E; injection E; auto].
Qed.
Section Structures.
Context {F : Type} (ok : F -> Prop) (sel : F -> F -> bool -> F) (eq : F -> F -> bool) (HS : selects ok sel) (HE : compares ok eq).
Definition quad_of (a : quad F) : Prop := ok (q0 a) /\ ok (q1 a).
Definition cubic_of (a : cubic F) : Prop := ok (k0 a) /\ ok (k1 a) /\ ok (k2 a).
Definition aff_of (a : aff F) : Prop := ok (ax a) /\ ok (ay a).
Definition proj_of (a : proj F) : Prop := ok (px a) /\ ok (py a) /\ ok (pz a).
Lemma quad_sel : selects quad_of (quad_select sel).
Proof using HS. intros [a0 a1] [b0 b1] [A0 A1] [B0 B1]. unfold quad_select. cbn [q0 q1] in *. destruct (HS _ _ A0 B0) as [-> ->]. destruct (HS _ _ A1 B1) as [-> ->]. split; reflexivity. Qed.
Lemma quad_cmp : compares quad_of (quad_ct_eq eq).
Proof using HE.
  intros [a0 a1] [b0 b1] [A0 A1] [B0 B1]. unfold quad_ct_eq. cbn [q0 q1] in *. rewrite Bool.andb_true_iff, (HE _ _ A0 B0), (HE _ _ A1 B1).
  split; [intros [-> ->]; reflexivity|intros E; injection E; auto].
Qed.
Lemma cubic_sel : selects cubic_of (cubic_select sel).
Proof using HS.
  intros [a0 a1 a2] [b0 b1 b2] (A0 & A1 & A2) (B0 & B1 & B2). unfold cubic_select. cbn [k0 k1 k2] in *.
  destruct (HS _ _ A0 B0) as [-> ->]. destruct (HS _ _ A1 B1) as [-> ->]. destruct (HS _ _ A2 B2) as [-> ->]. split; reflexivity.
Qed.
Lemma cubic_cmp : compares cubic_of (cubic_ct_eq eq).
Proof using HE.
  intros [a0 a1 a2] [b0 b1 b2] (A0 & A1 & A2) (B0 & B1 & B2). unfold cubic_ct_eq. cbn [k0 k1 k2] in *.
  rewrite !Bool.andb_true_iff, (HE _ _ A0 B0), (HE _ _ A1 B1), (HE _ _ A2 B2). split; [intros [[-> ->] ->]; reflexivity|intros E; injection E; auto].
Qed.
Lemma aff_sel : selects aff_of (aff_select sel).
Proof using HS. intros [a0 a1] [b0 b1] [A0 A1] [B0 B1]. unfold aff_select. cbn [ax ay] in *. destruct (HS _ _ A0 B0) as [-> ->]. destruct (HS _ _ A1 B1) as [-> ->]. split; reflexivity. Qed.
Lemma proj_sel : selects proj_of (proj_select sel).
Proof using HS.
  intros [a0 a1 a2] [b0 b1 b2] (A0 & A1 & A2) (B0 & B1 & B2). unfold proj_select. cbn [px py pz] in *.
  destruct (HS _ _ A0 B0) as [-> ->]. destruct (HS _ _ A1 B1) as [-> ->]. destruct (HS _ _ A2 B2) as [-> ->]. split; reflexivity.
Qed.
End Structures.

(** [conditional_select(a, b, choice)] is [b] if the choice is set and [a] otherwise: arrays of
    any number of limbs (canonical or not), the extensions of degree 2, 6 and 12, the target
    group, and points over the prime field and over its quadratic extension. *)
Theorem C63_select : forall n, let s := limbs_select n in let ok := limbs_ok n in
  let s2 := quad_select s in let ok2 := quad_of ok in let s6 := cubic_select s2 in let ok6 := cubic_of ok2 in
  selects ok s /\ selects ok2 s2 /\ selects ok6 s6 /\ selects (quad_of ok6) (quad_select s6) /\ selects (quad_of ok6) (gt_select (quad_select s6)) /\
  selects (aff_of ok) (aff_select s) /\ selects (proj_of ok) (proj_select s) /\
  selects (aff_of ok2) (aff_select s2) /\ selects (proj_of ok2) (proj_select s2).
Proof.
  intros n s ok s2 ok2 s6 ok6. pose proof (limbs_sel n) as S1. pose proof (quad_sel _ _ S1) as S2. pose proof (cubic_sel _ _ S2) as S6.
  pose proof (quad_sel _ _ S6) as S12. repeat split; try assumption; try (apply S1); try (apply S2); try (apply S6); try (apply S12); try assumption;
  first [apply (aff_sel _ _ S1)|apply (proj_sel _ _ S1)|apply (aff_sel _ _ S2)|apply (proj_sel _ _ S2)]; assumption.
Qed.
Print Assumptions C63_select.
(** [ct_eq] holds exactly for equal arrays, componentwise on the extensions. *)
Theorem C63_ct_eq : forall n, let e := limbs_ct_eq in let ok := limbs_ok n in let e2 := quad_ct_eq e in let ok2 := quad_of ok in
  let e6 := cubic_ct_eq e2 in let ok6 := cubic_of ok2 in
  compares ok e /\ compares ok2 e2 /\ compares ok6 e6 /\ compares (quad_of ok6) (quad_ct_eq e6) /\ compares (quad_of ok6) (gt_ct_eq (quad_ct_eq e6)).
Proof.
  intros n e ok e2 ok2 e6 ok6. pose proof (limbs_cmp n) as E1. pose proof (quad_cmp _ _ E1) as E2. pose proof (cubic_cmp _ _ E2) as E6.
  pose proof (quad_cmp _ _ E6) as E12. exact (conj E1 (conj E2 (conj E6 (conj E12 E12)))).
Qed.
Print Assumptions C63_ct_eq.
(** On field elements: the abbreviations of the model (Field.v, Curve.v) are these functions. *)
Theorem C63_fields : forall c, In c all_fields -> forall a b x y, represents (num_limbs c) (modulus c) a x -> represents (num_limbs c) (modulus c) b y ->
  forall ch, limbs_select (num_limbs c) a b ch = fe_select a b ch /\ limbs_select (num_limbs c) a b ch = select a b ch /\
  represents (num_limbs c) (modulus c) (limbs_select (num_limbs c) a b ch) (if ch then y else x) /\
  limbs_ct_eq a b = fe_eqb a b /\ limbs_ct_eq a b = (x =? y).
Proof.
  intros c I a b x y Ra Rb ch. pose proof (field_odd c I) as Hc.
  assert (K : forall l v, represents (num_limbs c) (modulus c) l v -> limbs_ok (num_limbs c) l).
  { intros l v ((K1 & K2 & _) & _). split; [exact K1|exact K2]. }
  pose proof (limbs_sel _ a b (K _ _ Ra) (K _ _ Rb)) as [ET EF].
  assert (E : limbs_select (num_limbs c) a b ch = if ch then b else a) by (destruct ch; assumption).
  split; [exact E|]. split; [exact E|]. split; [rewrite E; destruct ch; assumption|].
  assert (EQ : limbs_ct_eq a b = fe_eqb a b).
  { unfold limbs_ct_eq, fe_eqb. destruct (K _ _ Ra) as [_ Wa]. destruct (K _ _ Rb) as [_ Wb]. clear - Wa Wb.
    revert b Wb. induction Wa as [|u a U _ IH]; intros b Wb; [reflexivity|]. destruct Wb as [|v b V Wb]; [reflexivity|].
    cbn [combine forallb fst snd]. rewrite (word_ct_eq_spec u v U V), IH by assumption. reflexivity. }
  split; [exact EQ|]. rewrite EQ. destruct (Z.eqb_spec x y) as [-> | N].
  - apply (fe_eqb_repr c Hc a b y y Ra Rb). reflexivity.
  - apply Bool.not_true_is_false. intros X. apply N. apply (fe_eqb_repr c Hc a b x y Ra Rb). exact X.
Qed.
Print Assumptions C63_fields.
Example ex_C63 : limbs_select 2 [1; W - 1] [7; 0] true = [7; 0] /\ limbs_select 2 [1; W - 1] [7; 0] false = [1; W - 1]
  /\ limbs_ct_eq [1; W - 1] [1; W - 1] = true /\ limbs_ct_eq [1; W - 1] [1; W - 2] = false.
Proof. vm_compute. auto. Qed.

(** ** C07: [LInt] *)
(** [a] holds the integer [v] in two's complement with [L] limbs. *)
Definition lint_holds (L : nat) (a : list Z) (v : Z) : Prop :=
  length a = L /\ Forall (fun x => 0 <= x < W) a /\ eval a = v mod 2 ^ (64 * Z.of_nat L).
Definition lint_fits (L : nat) (v : Z) : Prop := - 2 ^ (64 * Z.of_nat L) <= 2 * v < 2 ^ (64 * Z.of_nat L).
(** All operations of the type, also those that [jacobi] does not use. *)
Theorem C07_lint : forall L, (1 <= L)%nat ->
  (lint_holds L (lint_zero L) 0 /\ lint_holds L (lint_one L) 1 /\ lint_holds L (lint_minus_one L) (-1)) /\
  (forall a b v w, lint_holds L a v -> lint_holds L b w ->
     lint_holds L (lint_add a b) (v + w) /\ lint_holds L (lint_sub a b) (v - w) /\ lint_holds L (lint_neg a) (- v) /\
     lint_holds L (lint_mul a b) (v * w) /\ (forall k, - 2 ^ 63 < k < 2 ^ 63 -> lint_holds L (lint_mul_i64 a k) (v * k)) /\
     (lint_fits L v -> (lint_is_negative a = (v <? 0)) /\ (forall k, 0 < k < 64 -> lint_holds L (lint_shr a k) (v / 2 ^ k))) /\
     (lint_fits L v -> lint_fits L w -> lint_eqb a b = (v =? w))) /\
  (forall data, Forall (fun x => 0 <= x < W) data ->
     match lint_new L data with Some a => (length data <= L)%nat /\ lint_holds L a (eval data) | None => (L < length data)%nat end).
Proof.
  intros L HL. assert (H : forall a v, lint_holds L a v <-> lin L a v) by (intros a v; unfold lint_holds, lin; rewrite Wn_pow2; reflexivity).
  assert (R : forall v, lint_fits L v <-> lrange L v) by (intros v; unfold lint_fits, lrange; rewrite Wn_pow2; reflexivity).
  split. { rewrite !H. split; [apply lin_zero|]. split; [apply lin_one; exact HL|apply lin_minus_one]. }
  split.
  - intros a b v w Ha Hb. apply H in Ha, Hb. rewrite !H, !R. split; [apply lin_add; assumption|]. split; [apply lin_sub; assumption|].
    split; [apply lin_neg; assumption|]. split; [apply lin_mul; assumption|]. split; [intros k Hk; apply H; apply lin_mul_i64; assumption|].
    split; [intros Rv; split; [apply (lin_is_negative L); assumption|intros k Hk; apply H; apply lin_shr; assumption]|].
    intros Rv Rw. exact (lin_eqb L a b v w Ha Hb Rv Rw).
  - intros data Wd. pose proof (lint_new_spec L data Wd) as X. destruct (lint_new L data) as [a|]; [|exact X]. destruct X as (X1 & X2 & _).
    split; [exact X1|]. apply H. exact X2.
Qed.
Print Assumptions C07_lint.
Example ex_C07_lint : lint_holds 2 (lint_mul (lint_minus_one 2) [5; 0]) (-5) /\ lint_holds 2 (lint_sub [3; 0] [5; 0]) (-2).
Proof. split; (split; [reflexivity|]); (split; [repeat (constructor; [split; [discriminate|reflexivity]|]); constructor|reflexivity]). Qed.
