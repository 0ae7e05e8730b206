(** Property theorems C61: the text forms of field elements and points. *)
From Coq Require Import String.
From Verif Require Import Base Word Limbs Bytes Field SpecField Params LimbsFacts FieldFacts BytesFacts FieldSerdeFacts
  Algebra Pow Tower TowerFacts FiniteField PrimeField Primality Certs TowerParams TowerInst SpecCurve SpecCurveFacts Group
  Curve CurveFacts CurveGroup CurveParams CurveInst CrateCurves Inverse LimbField Props_Field Props_Field2 Props_Tower Props_Jacobi Serde
  HashToCurve SerdeText Props_SerdeText Text.
Local Open Scope Z_scope.

(** ** What a text denotes *)
(** The digits [s], most significant first, spell the number [x] in base 16. *)
Inductive hex_num : list Z -> Z -> Prop :=
| hn_nil : hex_num [] 0
| hn_snoc s x ch d : hex_num s x -> hex_digit ch d -> hex_num (s ++ [ch]) (16 * x + d).
(** Comparison of texts, character by character. *)
Fixpoint text_cmp (s t : list Z) : comparison :=
  match s, t with
  | [], [] => Eq
  | [], _ => Lt
  | _, [] => Gt
  | a :: s, b :: t => match a ?= b with Eq => text_cmp s t | r => r end
  end.
(** Different values have different texts. *)
Definition faithful {A} (show : A -> list Z) : Prop := forall x y, show x = show y <-> x = y.

Section Digits.
Lemma text_snoc s : forall t a b, length s = length t ->
  text_cmp (s ++ [a]) (t ++ [b]) = match text_cmp s t with Eq => a ?= b | r => r end.
Proof.
  induction s as [|x s IH]; intros [|y t] a b L; try discriminate L.
  - cbn. destruct (a ?= b); reflexivity.
  - cbn [app text_cmp]. destruct (x ?= y); [|reflexivity..]. apply IH. cbn in L. congruence.
Qed.
Lemma text_cmp_refl s : text_cmp s s = Eq.
Proof. induction s as [|x s IH]; [reflexivity|]. cbn. rewrite Z.compare_refl. exact IH. Qed.
Lemma text_cmp_prefix r s t : text_cmp (r ++ s) (r ++ t) = text_cmp s t.
Proof. induction r as [|x r IH]; [reflexivity|]. cbn. rewrite Z.compare_refl. exact IH. Qed.
Lemma digit_cmp a b d e : (48 <= a <= 57 \/ 97 <= a <= 102) -> (48 <= b <= 57 \/ 97 <= b <= 102) ->
  hex_digit a d -> hex_digit b e -> (a ?= b) = (d ?= e).
Proof. unfold hex_digit. intros. destruct (Z.compare_spec a b), (Z.compare_spec d e); try reflexivity; exfalso; lia. Qed.
Lemma step_cmp x y d e : 0 <= d < 16 -> 0 <= e < 16 ->
  (16 * x + d ?= 16 * y + e) = match x ?= y with Eq => d ?= e | r => r end.
Proof.
  intros. destruct (Z.compare_spec x y) as [-> | L | L].
  - destruct (Z.compare_spec d e), (Z.compare_spec (16 * y + d) (16 * y + e)); try reflexivity; exfalso; lia.
  - apply Z.compare_lt_iff. lia.
  - apply Z.compare_gt_iff. lia.
Qed.
Lemma num_cmp s x : hex_num s x -> forall t y, hex_num t y -> length s = length t -> lower s -> lower t ->
  text_cmp s t = (x ?= y).
Proof.
  induction 1 as [|s x a d Hs IH Hd]; intros t y Ht L Ls Lt.
  - destruct Ht; [reflexivity|]. rewrite app_length in L. cbn in L. lia.
  - destruct Ht as [|t y b e Ht He]; [rewrite app_length in L; cbn in L; lia|].
    rewrite !app_length in L. cbn in L. apply Forall_app in Ls, Lt. destruct Ls as [Ls La], Lt as [Lt Lb].
    inversion La as [|? ? La' _]; subst. inversion Lb as [|? ? Lb' _]; subst.
    rewrite text_snoc by lia. rewrite (IH t y Ht) by (assumption || lia).
    rewrite step_cmp by (eapply hex_digit_range; eassumption). rewrite (digit_cmp a b d e La' Lb' Hd He). reflexivity.
Qed.
Lemma encode_snoc l b : hex_encode (l ++ [b]) = (hex_encode l ++ [hex_char (b / 16)]) ++ [hex_char (b mod 16)].
Proof. unfold hex_encode. rewrite flat_map_app, <- app_assoc. reflexivity. Qed.
Lemma encode_num l : is_bytes l -> hex_num (hex_encode (rev l)) (le_int l) /\ lower (hex_encode (rev l))
  /\ length (hex_encode (rev l)) = (2 * length l)%nat.
Proof.
  induction 1 as [|b l Hb H (I1 & I2 & I3)]; cbn [rev le_int length]; [repeat constructor|].
  rewrite encode_snoc. set (s := hex_encode (rev l)) in *.
  destruct (hex_char_digit (b / 16)) as [A1 A2]; [split; [apply Z.div_pos; lia|apply Z.div_lt_upper_bound; lia]|].
  destruct (hex_char_digit (b mod 16)) as [B1 B2]; [apply Z.mod_pos_bound; lia|].
  split; [|split].
  - replace (b + 256 * le_int l) with (16 * (16 * le_int l + b / 16) + b mod 16)
      by (pose proof (Z.div_mod b 16 ltac:(lia)); lia).
    constructor; [constructor; assumption|assumption].
  - unfold lower. rewrite !Forall_app. repeat split; auto.
  - rewrite !app_length, I3. cbn. lia.
Qed.
(** [acc] holds the digits already produced. *)
Lemma app_num s x t : hex_num s x -> forall n y, hex_num t y -> length t = n -> hex_num (s ++ t) (16 ^ Z.of_nat n * x + y).
Proof.
  intros Hs. intros n y Ht. revert n. induction Ht as [|t y ch d Ht IH Hd]; intros n L.
  - subst n. rewrite app_nil_r. cbn [length Z.of_nat]. rewrite Z.pow_0_r, Z.mul_1_l, Z.add_0_r. exact Hs.
  - rewrite app_length in L. cbn in L. subst n. rewrite app_assoc.
    replace (16 ^ Z.of_nat (length t + 1) * x + (16 * y + d)) with (16 * (16 ^ Z.of_nat (length t) * x + y) + d).
    + constructor; [apply IH; reflexivity|exact Hd].
    + rewrite Nat2Z.inj_add, Z.pow_add_r by lia. change (16 ^ Z.of_nat 1) with 16. ring.
Qed.
Lemma digits_acc f : forall n acc, hex_digits f n acc = hex_digits f n [] ++ acc.
Proof.
  induction f as [|f IH]; intros n acc; [reflexivity|]. cbn [hex_digits]. destruct (n =? 0); [reflexivity|].
  rewrite IH, (IH _ [_]), <- app_assoc. reflexivity.
Qed.
Lemma digits_num f : forall n, 0 <= n < 2 ^ Z.of_nat f -> hex_num (hex_digits f n []) n /\ lower (hex_digits f n [])
  /\ (0 < n -> match hex_digits f n [] with [] => False | d :: _ => d <> 48 end).
Proof.
  induction f as [|f IH]; intros n Hn.
  - cbn in Hn. assert (n = 0) as -> by lia. cbn. repeat split; try constructor. lia.
  - cbn [hex_digits]. destruct (Z.eqb_spec n 0) as [-> | N]; [repeat split; try constructor; lia|].
    rewrite digits_acc. rewrite Nat2Z.inj_succ, Z.pow_succ_r in Hn by lia.
    assert (Q : 0 <= n / 16 < 2 ^ Z.of_nat f) by (split; [apply Z.div_pos; lia|apply Z.div_lt_upper_bound; lia]).
    destruct (IH _ Q) as (I1 & I2 & I3). pose proof (Z.mod_pos_bound n 16 ltac:(lia)) as M. pose proof (Z.div_mod n 16 ltac:(lia)) as E.
    destruct (hex_char_digit (n mod 16) M) as [B1 B2]. split; [|split].
    + pose proof (hn_snoc _ _ _ _ I1 B1) as K. rewrite <- E in K. exact K.
    + apply Forall_app. split; [exact I2|constructor; [exact B2|constructor]].
    + intros _. destruct (Z.eq_dec (n / 16) 0) as [Z0 | Z0].
      * rewrite Z0. assert (X : hex_digits f 0 [] = []) by (destruct f; reflexivity). rewrite X. cbn [app].
        unfold hex_char. destruct (Z.ltb_spec (n mod 16) 10); lia.
      * specialize (I3 ltac:(lia)). destruct (hex_digits f (n / 16) []); [contradiction|exact I3].
Qed.
End Digits.

(** ** Field elements *)
(** The text of an element is 0x and its integer value with two digits per byte of the encoding. *)
Theorem C61_field : forall c a x, odd_conf c -> represents (num_limbs c) (modulus c) a x ->
  exists s, fe_debug c a = ascii_bytes "0x" ++ s /\ hex_num s x /\ lower s /\ length s = (2 * size c)%nat.
Proof.
  intros c a x Hc R. destruct (C04_to_repr c a x Hc R) as (L & B & E). destruct (encode_num _ B) as (N & Lo & Ln).
  exists (hex_encode (rev (to_repr c a))). rewrite E in N. rewrite L in Ln. auto.
Qed.
Print Assumptions C61_field.
(** Texts are ordered like the values; in particular equal texts mean equal elements. *)
Theorem C61_field_order : forall c a b x y, odd_conf c ->
  represents (num_limbs c) (modulus c) a x -> represents (num_limbs c) (modulus c) b y ->
  text_cmp (fe_debug c a) (fe_debug c b) = (x ?= y).
Proof.
  intros c a b x y Hc Ra Rb. destruct (C61_field c a x Hc Ra) as (s & -> & N1 & L1 & E1).
  destruct (C61_field c b y Hc Rb) as (t & -> & N2 & L2 & E2). rewrite text_cmp_prefix.
  apply num_cmp; auto. congruence.
Qed.
Print Assumptions C61_field_order.
(** [MODULUS] is the modulus, without leading zeros. *)
Theorem C61_modulus : forall c, odd_conf c ->
  exists d s, modulus_str c = ascii_bytes "0x" ++ d :: s /\ d <> 48 /\ hex_num (d :: s) (modulus c) /\ lower (d :: s).
Proof.
  intros c Hc. pose proof (p_gt1 c Hc) as P. unfold modulus_str, to_hex. destruct (Z.eqb_spec (modulus c) 0) as [E | _]; [lia|].
  destruct (digits_num (Z.to_nat (Z.log2 (modulus c) + 1)) (modulus c)) as (N & L & D).
  { pose proof (Z.log2_nonneg (modulus c)). rewrite Z2Nat.id by lia. pose proof (Z.log2_spec (modulus c) ltac:(lia)). lia. }
  specialize (D ltac:(lia)). destruct (hex_digits _ _ _) as [|d s]; [contradiction|]. exists d, s. auto.
Qed.
Print Assumptions C61_modulus.

(** ** Extensions and points *)
Section Faithful.
Lemma app_split {A} (a b c d : list A) : length a = length c -> a ++ b = c ++ d -> a = c /\ b = d.
Proof.
  revert c. induction a as [|x a IH]; intros [|y c] L E; try discriminate L; [auto|].
  cbn in L, E. injection E as -> E. injection L as L. destruct (IH c L E) as [-> ->]. auto.
Qed.
Context {F : Type} (show : F -> list Z) (n : nat).
Hypothesis Hf : faithful show.
Hypothesis Hn : forall x, length (show x) = n.
Ltac split_app := repeat match goal with
  | H : ?a ++ ?b = ?a ++ ?c |- _ => apply app_inv_head in H
  | H : show ?x ++ ?b = show ?y ++ ?c |- _ =>
      apply app_split in H; [let E := fresh "E" in destruct H as [E H]; apply Hf in E|rewrite !Hn; reflexivity]
  end.
Lemma quad_faithful : faithful (quad_debug show) /\ exists m, forall x, length (quad_debug show x) = m.
Proof using All.
  split.
  - intros [a b] [a' b']. split; [|intros ->; reflexivity]. unfold quad_debug, debug_struct. cbn [debug_fields q0 q1].
    rewrite <- !app_assoc. intros H. split_app. congruence.
  - eexists. intros x. unfold quad_debug, debug_struct. cbn [debug_fields]. rewrite !app_length, !Hn. reflexivity.
Qed.
Lemma cubic_faithful : faithful (cubic_debug show) /\ exists m, forall x, length (cubic_debug show x) = m.
Proof using All.
  split.
  - intros [a b d] [a' b' d']. split; [|intros ->; reflexivity]. unfold cubic_debug, debug_struct. cbn [debug_fields k0 k1 k2].
    rewrite <- !app_assoc. intros H. split_app. congruence.
  - eexists. intros x. unfold cubic_debug, debug_struct. cbn [debug_fields]. rewrite !app_length, !Hn. reflexivity.
Qed.
Lemma proj_faithful name : faithful (proj_debug show name).
Proof using All.
  intros [a b d] [a' b' d']. split; [|intros ->; reflexivity]. unfold proj_debug, debug_struct. cbn [debug_fields px py pz].
  rewrite <- !app_assoc. intros H. split_app. congruence.
Qed.
Lemma gt_faithful name : faithful (gt_debug show name).
Proof using All.
  intros a a'. split; [|intros ->; reflexivity]. unfold gt_debug. intros H. split_app. assumption.
Qed.
Lemma aff_faithful (o : fops F) : (forall x, fis0 o x = true <-> x = f0 o) -> faithful (aff_debug o show).
Proof using All.
  intros Z0 [a b] [a' b']. split; [|intros ->; reflexivity]. unfold aff_debug, aff_is_identity. cbn [ax ay].
  destruct (fis0 o a && fis0 o b) eqn:I1, (fis0 o a' && fis0 o b') eqn:I2; intros H; try discriminate H.
  - apply andb_true_iff in I1, I2. destruct I1 as [A1 A2], I2 as [B1 B2]. apply Z0 in A1, A2, B1, B2. congruence.
  - split_app. congruence.
Qed.
End Faithful.

Definition show_lf (c : fconf) (x : lf c) : list Z := fe_debug c (limbs x).
Lemma show_lf_ok c (Hc : odd_conf c) : faithful (show_lf c) /\ forall x, length (show_lf c x) = (2 + 2 * size c)%nat.
Proof.
  assert (R : forall x : lf c, exists v, represents (num_limbs c) (modulus c) (limbs x) v).
  { intros [l Hl]. destruct (represents_total c l Hc (proj1 (canonb_spec c l) Hl)) as (v & V & _). exists v. exact V. }
  split.
  - intros x y. split; [|intros ->; reflexivity]. intros E. destruct (R x) as (v & V), (R y) as (w & W).
    assert (K : (v ?= w) = Eq) by (rewrite <- (C61_field_order c _ _ v w Hc V W); unfold show_lf in E; rewrite E; apply text_cmp_refl).
    apply Z.compare_eq in K. subst w. apply lf_ext. exact (repr_inj c _ _ _ V W).
  - intros x. destruct (R x) as (v & V). unfold show_lf. destruct (C61_field c _ v Hc V) as (s & -> & _ & _ & L).
    rewrite app_length, L. reflexivity.
Qed.

Lemma show_lf_zero c (Hc : odd_conf c) : is0_law (lf_ops c Hc).
Proof.
  intros x. cbn [lf_ops fis0 f0].
  rewrite (fe_eqb_spec c) by (exact (proj1 (proj1 (canonb_spec c _) (proj2_sig x))) || exact (proj1 (repr_canon c _ 0 (fe_zero_repr c Hc)))).
  split; [|intros ->; reflexivity]. intros E. apply lf_ext. exact E.
Qed.
Lemma quad_zero F (o : fops F) mnr sq : is0_law o -> is0_law (quad_ops o mnr sq).
Proof.
  intros Z0 [a b]. cbn. unfold quad_is_zero. cbn [q0 q1]. rewrite andb_true_iff, (Z0 a), (Z0 b). unfold Tower.quad_zero.
  split; [intros [-> ->]; reflexivity|intros E; injection E; auto].
Qed.
Lemma aff_infinity F (o : fops F) show : is0_law o -> forall P, aff_debug o show P = ascii_bytes "Infinity" <-> P = aff_identity o.
Proof.
  intros Z0 [a b]. unfold aff_debug, aff_is_identity, aff_identity. cbn [ax ay].
  destruct (fis0 o a && fis0 o b) eqn:I1.
  - apply andb_true_iff in I1. destruct I1 as [A1 A2]. apply Z0 in A1, A2. subst. tauto.
  - split; [discriminate|]. intros E. injection E as -> ->.
    rewrite (proj2 (Z0 (f0 o)) eq_refl) in I1. discriminate I1.
Qed.

(** Elements of the tower of degree 12 and of the target group: equal texts mean equal elements. *)
Theorem C61_tower : forall c, odd_conf c -> let fp := show_lf c in
  faithful fp /\ faithful (quad_debug fp) /\ faithful (cubic_debug (quad_debug fp))
  /\ faithful (quad_debug (cubic_debug (quad_debug fp))) /\ (forall name, faithful (gt_debug (quad_debug (cubic_debug (quad_debug fp))) name)).
Proof.
  intros c Hc fp. destruct (show_lf_ok c Hc) as [F1 L1]. fold fp in F1, L1.
  destruct (quad_faithful fp _ F1 L1) as [F2 [n2 L2]]. destruct (cubic_faithful _ _ F2 L2) as [F6 [n6 L6]].
  destruct (quad_faithful _ _ F6 L6) as [F12 [n12 L12]]. repeat (split; [assumption|]).
  intros name. exact (gt_faithful _ n12 F12 L12 name).
Qed.
Print Assumptions C61_tower.
(** Affine points over a prime field and over its quadratic extension: equal texts mean equal
    points, and only the identity prints as Infinity. *)
Theorem C61_point : forall c (Hc : odd_conf c),
  let text1 := aff_debug (lf_ops c Hc) (show_lf c) in
  (faithful text1 /\ forall P, text1 P = ascii_bytes "Infinity" <-> P = aff_identity (lf_ops c Hc))
  /\ forall mnr sq, let o2 := quad_ops (lf_ops c Hc) mnr sq in let text2 := aff_debug o2 (quad_debug (show_lf c)) in
     faithful text2 /\ forall P, text2 P = ascii_bytes "Infinity" <-> P = aff_identity o2.
Proof.
  intros c Hc text1. destruct (show_lf_ok c Hc) as [F1 L1]. pose proof (show_lf_zero c Hc) as Z1. split.
  - exact (conj (aff_faithful _ _ F1 L1 _ Z1) (aff_infinity _ _ _ Z1)).
  - intros mnr sq o2 text2. pose proof (quad_zero _ _ mnr sq Z1) as Z2. destruct (quad_faithful _ _ F1 L1) as [F2 [n2 L2]].
    exact (conj (aff_faithful _ _ F2 L2 _ Z2) (aff_infinity _ _ _ Z2)).
Qed.
Print Assumptions C61_point.
(** Projective points print their coordinates: equal texts mean equal coordinates. *)
Theorem C61_proj : forall c (Hc : odd_conf c) name,
  faithful (proj_debug (show_lf c) name) /\ faithful (proj_debug (quad_debug (show_lf c)) name).
Proof.
  intros c Hc name. destruct (show_lf_ok c Hc) as [F1 L1]. destruct (quad_faithful _ _ F1 L1) as [F2 [n2 L2]].
  exact (conj (proj_faithful _ _ F1 L1 name) (proj_faithful _ _ F2 L2 name)).
Qed.
Print Assumptions C61_proj.
Lemma odd_gt2 c : odd_conf c -> 2 < modulus c.
Proof. intros [A B]. destruct (Z.eq_dec (modulus c) 2) as [E | E]; [rewrite E in B; discriminate B|lia]. Qed.
Section Double.
Context {F : Type} (o : fops F) (HR : ring_laws o).
Add Ring FRt : (rl_ring _ HR).
Lemma dbl_mul a : fadd o a a = fmul o a (fadd o (f1 o) (f1 o)).
Proof. ring. Qed.
Lemma cross a z : fmul o a (fadd o z z) = fmul o (fadd o a a) z.
Proof. ring. Qed.
Lemma dbl_fix z : fadd o z z = z -> z = f0 o.
Proof. intros E. transitivity (fsub o (fadd o z z) z); [ring|]. rewrite E. ring. Qed.
End Double.
(** So the text does not determine equality in the sense of the crate: every point other than the identity has other
    coordinates that the crate considers equal and that print differently. *)
Theorem C61_proj_ambiguous : forall c (Hc : odd_conf c), In c all_fields -> let o := lf_ops c Hc in
  forall name P, pz P <> f0 o -> exists Q, proj_eq o P Q = true /\ proj_debug (show_lf c) name P <> proj_debug (show_lf c) name Q.
Proof.
  intros c Hc Hi o name [x y z] N. cbn [pz] in N. pose proof (lf_pf7 c Hi Hc) as HP. pose proof (pf_laws _ _ _ HP) as HF.
  pose proof (fl_rl _ HF) as HR. pose proof (pf_is0 _ _ _ HP) as HZ. fold o in HF, HR, HZ.
  pose proof (pf_two _ _ _ HP) as T2. fold o in T2.
  assert (P2 : 2 < modulus c) by exact (odd_gt2 c Hc). specialize (T2 P2).
  assert (E2 : forall a, fadd o a a = fmul o a (fadd o (f1 o) (f1 o))) by (intros a; exact (dbl_mul o HR a)).
  assert (N2 : fadd o z z <> f0 o) by (rewrite E2; intros E; destruct (mul_integral o HF _ _ E); contradiction).
  exists (mk_proj (fadd o x x) (fadd o y y) (fadd o z z)). split.
  - unfold proj_eq, proj_is_identity. cbn [px py pz].
    destruct (fis0 o z) eqn:Z1; [apply HZ in Z1; contradiction|]. destruct (fis0 o (fadd o z z)) eqn:Z2; [apply HZ in Z2; contradiction|].
    cbn [andb negb orb]. apply andb_true_iff. split; apply (fl_eqb _ HF); exact (cross o HR _ _).
  - intros E. apply (proj1 (C61_proj c Hc name)) in E. injection E as _ _ E. apply N.
    exact (dbl_fix o HR z (eq_sym E)).
Qed.
Print Assumptions C61_proj_ambiguous.

(** ** Concrete texts *)
(** [from(1000)] of bn256::Fr and the modulus string of src/bn256/fr.rs. *)
Example C61_example_field : represents (num_limbs bn256_fr) (modulus bn256_fr) (from_u64 bn256_fr 1000) 1000
  /\ fe_debug bn256_fr (from_u64 bn256_fr 1000) = ascii_bytes "0x00000000000000000000000000000000000000000000000000000000000003e8"
  /\ modulus_str bn256_fr = ascii_bytes "0x30644e72e131a029b85045b68181585d2833e84879b9709143e1f593f0000001"
  /\ modulus_str bls12381_fq = ascii_bytes "0x1a0111ea397fe69a4b1ba7b6434bacd764774b84f38512bf6730d2a0f6b0f6241eabfffeb153ffffb9feffffffffaaab".
Proof.
  split; [|repeat split; vm_compute; reflexivity].
  change 1000 with (1000 mod modulus bn256_fr) at 2. apply (from_u64_repr bn256_fr); [apply field_odd; cbn; tauto|split; [lia|reflexivity]].
Qed.
(** The generator of bn256 G1 and the identity. *)
Definition C61_example_point_text : list Z := ascii_bytes ("(0x0000000000000000000000000000000000000000000000000000000000000001, "
  ++ "0x0000000000000000000000000000000000000000000000000000000000000002)")%string.
Example C61_example_point : forall Hc, let o := lf_ops bn256_fq Hc in
  aff_debug o (show_lf bn256_fq) (mk_aff (lf_inj bn256_fq Hc 1) (lf_inj bn256_fq Hc 2)) = C61_example_point_text
  /\ aff_debug o (show_lf bn256_fq) (aff_identity o) = ascii_bytes "Infinity".
Proof. intros Hc. split; vm_compute; reflexivity. Qed.
