(** The chord-and-tangent law is an abelian group. *)
From Verif Require Import Base Algebra TowerFacts SpecCurve.

Section Group.
Context {F : Type} (o : fops F) (a b : F) (H : field_laws o).
Notation "0" := (f0 o). Notation "1" := (f1 o).
Infix "+" := (fadd o). Infix "-" := (fsub o). Infix "*" := (fmul o).
Notation "- x" := (fneg o x).
Notation "x / y" := (fdiv o x y).
Hypothesis H2 : 1 + 1 <> 0.
(** No rational singular point. *)
Hypothesis Hns : forall x, x * x * x + a * x + b = 0 -> (1 + 1 + 1) * (x * x) + a <> 0.
Add Field FF : (field_thy o H).

Notation on := (on_curve o a b).
Notation add := (pt_add o a).
Notation neg := (pt_neg o).

Lemma quot_mul n d : d <> 0 -> quot o n d * d = n.
Proof.
  intros Hd. unfold quot. destruct (fl_inv _ H d Hd) as (i & -> & E).
  transitivity (n * (d * i)); [ring|]. rewrite E. ring.
Qed.

Lemma div_eq n d q : d <> 0 -> q * d = n -> q = n / d.
Proof. intros Hd <-. field. exact Hd. Qed.

Lemma diff_nz x y : x <> y -> x - y <> 0.
Proof. intros N E. apply N. apply (sub_zero_eq o H). exact E. Qed.

Lemma dbl_nz y : y <> 0 -> y + y <> 0.
Proof.
  intros Hy E. apply (mul_nonzero o H (1 + 1) y H2 Hy). etransitivity; [|exact E]. ring.
Qed.

(** The slope [l] of the line through two points that are not opposite
    satisfies both equations, for chords and for tangents. *)
Definition slope (l x1 y1 x2 y2 : F) : Prop :=
  y1 - y2 = l * (x1 - x2) /\ l * (y1 + y2) = x1 * x1 + x1 * x2 + x2 * x2 + a.

Definition opp_pts (x1 y1 x2 y2 : F) : Prop := x1 = x2 /\ y1 = - y2.

Lemma add_opp x1 y1 x2 y2 : opp_pts x1 y1 x2 y2 -> add (Some (x1, y1)) (Some (x2, y2)) = None.
Proof.
  intros (-> & ->). cbn [pt_add]. rewrite !(feqb_refl o H). reflexivity.
Qed.

Lemma add_slope x1 y1 x2 y2 : on (Some (x1, y1)) -> on (Some (x2, y2)) ->
  ~ opp_pts x1 y1 x2 y2 ->
  exists l, slope l x1 y1 x2 y2 /\ add (Some (x1, y1)) (Some (x2, y2)) = pt_line o l x1 y1 x2.
Proof.
  cbn [on_curve]. intros E1 E2 N. cbn [pt_add].
  destruct (feqb o x1 x2) eqn:Ex.
  - apply (fl_eqb _ H) in Ex. subst x2.
    destruct (feqb o y1 (- y2)) eqn:Ey.
    + apply (fl_eqb _ H) in Ey. exfalso. apply N. split; auto.
    + apply (feqb_false o H) in Ey.
      assert (E : (y1 - y2) * (y1 + y2) = 0).
      { transitivity (y1 * y1 - y2 * y2); [ring|]. rewrite E1, E2. ring. }
      apply (mul_integral o H) in E. destruct E as [E|E].
      * apply (sub_zero_eq o H) in E. subst y2.
        assert (Hy : y1 <> 0). { intros ->. apply Ey. ring. }
        set (l := quot o _ _). exists l. split; [|reflexivity].
        assert (El : l * ((1 + 1) * y1) = (1 + 1 + 1) * (x1 * x1) + a).
        { apply quot_mul. apply (mul_nonzero o H); assumption. }
        clearbody l. split; [ring|]. transitivity (l * ((1 + 1) * y1)); [ring|]. rewrite El. ring.
      * exfalso. apply Ey. apply (sub_zero_eq o H). etransitivity; [|exact E]. ring.
  - apply (feqb_false o H) in Ex. set (l := quot o _ _). exists l. split; [|reflexivity].
    assert (Hx : x2 - x1 <> 0) by (apply diff_nz; congruence).
    assert (El : l * (x2 - x1) = y2 - y1) by (apply quot_mul; exact Hx).
    clearbody l. split.
    + transitivity (- (y2 - y1)); [ring|]. rewrite <- El. ring.
    + apply (mul_cancel_l o H (x2 - x1)); [exact Hx|].
      transitivity (l * (x2 - x1) * (y2 + y1)); [ring|]. rewrite El.
      transitivity (y2 * y2 - y1 * y1); [ring|]. rewrite E1, E2. ring.
Qed.

(** With a slope, the curve constants are determined. *)
Lemma slope_a l x1 y1 x2 y2 : slope l x1 y1 x2 y2 ->
  y1 = y2 + l * (x1 - x2) /\
  a = l * (y2 + l * (x1 - x2) + y2) - (x1 * x1 + x1 * x2 + x2 * x2).
Proof.
  intros (E1 & E2). assert (E : y1 = y2 + l * (x1 - x2)) by (rewrite <- E1; ring).
  split; [exact E|]. rewrite <- E, E2. ring.
Qed.

Lemma on_b x y : on (Some (x, y)) -> b = y * y - x * x * x - a * x.
Proof. cbn [on_curve]. intros ->. ring. Qed.

Lemma line_on l x1 y1 x2 y2 : on (Some (x2, y2)) -> slope l x1 y1 x2 y2 ->
  on (pt_line o l x1 y1 x2).
Proof.
  intros E2 S. destruct (slope_a _ _ _ _ _ S) as [-> Ea]. apply on_b in E2.
  unfold pt_line. cbn [on_curve]. rewrite E2, Ea. ring.
Qed.

Lemma add_on P Q : on P -> on Q -> on (add P Q).
Proof.
  destruct P as [[x1 y1]|], Q as [[x2 y2]|]; try (intros; assumption).
  intros E1 E2.
  destruct (feqb_dec o H x1 x2) as [Ex|Ex]; [destruct (feqb_dec o H y1 (- y2)) as [Ey|Ey]|].
  - rewrite add_opp by (split; assumption). exact I.
  - destruct (add_slope x1 y1 x2 y2 E1 E2) as (l & S & ->); [intros (? & ?); contradiction|].
    eapply line_on; eassumption.
  - destruct (add_slope x1 y1 x2 y2 E1 E2) as (l & S & ->); [intros (? & ?); contradiction|].
    eapply line_on; eassumption.
Qed.

Lemma opp_dec x1 y1 x2 y2 : opp_pts x1 y1 x2 y2 \/ ~ opp_pts x1 y1 x2 y2.
Proof.
  destruct (feqb_dec o H x1 x2) as [Ex|Ex]; [destruct (feqb_dec o H y1 (- y2)) as [Ey|Ey]|].
  - left. split; assumption.
  - right. intros (? & ?). contradiction.
  - right. intros (? & ?). contradiction.
Qed.

Lemma opp_sym x1 y1 x2 y2 : opp_pts x1 y1 x2 y2 -> opp_pts x2 y2 x1 y1.
Proof. intros (-> & ->). split; [reflexivity|ring]. Qed.

Lemma neg_on P : on P -> on (neg P).
Proof.
  destruct P as [[x y]|]; [|auto]. cbn [on_curve pt_neg]. intros <-. ring.
Qed.

Lemma neg_neg P : neg (neg P) = P.
Proof. destruct P as [[x y]|]; [|reflexivity]. cbn. f_equal. f_equal. ring. Qed.

Lemma add_neg P : add P (neg P) = None.
Proof.
  destruct P as [[x y]|]; [|reflexivity]. apply add_opp. split; [reflexivity|ring].
Qed.

Lemma add_0_l P : add None P = P.
Proof. reflexivity. Qed.
Lemma add_0_r P : add P None = P.
Proof. destruct P as [[x y]|]; reflexivity. Qed.

(** Two values for the slope of the same pair agree. *)
Lemma slope_unique l m x1 y1 x2 y2 : on (Some (x1, y1)) -> on (Some (x2, y2)) ->
  ~ opp_pts x1 y1 x2 y2 ->
  slope l x1 y1 x2 y2 -> slope m x1 y1 x2 y2 -> l = m.
Proof.
  intros E1 E2 N (A & B) (A' & B').
  destruct (feqb_dec o H x1 x2) as [Ex|Ex].
  - assert (Hy : y1 + y2 <> 0).
    { intros E. apply N. split; [exact Ex|]. apply (sub_zero_eq o H). etransitivity; [|exact E]. ring. }
    apply (mul_cancel_l o H (y1 + y2) _ _ Hy).
    transitivity (l * (y1 + y2)); [ring|]. rewrite B, <- B'. ring.
  - apply (mul_cancel_l o H (x1 - x2)); [apply diff_nz; exact Ex|].
    transitivity (l * (x1 - x2)); [ring|]. rewrite <- A, A'. ring.
Qed.

Lemma add_of_slope l x1 y1 x2 y2 : on (Some (x1, y1)) -> on (Some (x2, y2)) ->
  ~ opp_pts x1 y1 x2 y2 -> slope l x1 y1 x2 y2 ->
  add (Some (x1, y1)) (Some (x2, y2)) = pt_line o l x1 y1 x2.
Proof.
  intros E1 E2 N S. destruct (add_slope x1 y1 x2 y2 E1 E2 N) as (m & S' & ->).
  rewrite (slope_unique l m x1 y1 x2 y2); auto.
Qed.

Lemma slope_sym l x1 y1 x2 y2 : slope l x1 y1 x2 y2 -> slope l x2 y2 x1 y1.
Proof.
  intros (A & B). split.
  - transitivity (- (y1 - y2)); [ring|]. rewrite A. ring.
  - transitivity (l * (y1 + y2)); [ring|]. rewrite B. ring.
Qed.

Lemma add_comm P Q : on P -> on Q -> add P Q = add Q P.
Proof.
  destruct P as [[x1 y1]|], Q as [[x2 y2]|]; try reflexivity. intros E1 E2.
  destruct (opp_dec x1 y1 x2 y2) as [O|N].
  - rewrite !add_opp by auto using opp_sym. reflexivity.
  - destruct (add_slope x1 y1 x2 y2 E1 E2 N) as (l & S & ->).
    rewrite (add_of_slope l x2 y2 x1 y1); auto using slope_sym, opp_sym.
    unfold pt_line. destruct S as (A & _).
    f_equal. f_equal; [ring|].
    assert (y1 = y2 + l * (x1 - x2)) as -> by (rewrite <- A; ring). ring.
Qed.

Lemma neg_slope l x1 y1 x2 y2 : slope l x1 y1 x2 y2 -> slope (- l) x1 (- y1) x2 (- y2).
Proof.
  intros (A & B). split.
  - transitivity (- (y1 - y2)); [ring|]. rewrite A. ring.
  - transitivity (l * (y1 + y2)); [ring|]. rewrite B. ring.
Qed.

Lemma neg_add P Q : on P -> on Q -> neg (add P Q) = add (neg P) (neg Q).
Proof.
  destruct P as [[x1 y1]|], Q as [[x2 y2]|]; try reflexivity. intros E1 E2.
  destruct (opp_dec x1 y1 x2 y2) as [O|N].
  - rewrite add_opp by exact O. destruct O as (-> & ->). cbn [pt_neg]. symmetry. apply add_opp.
    split; reflexivity.
  - destruct (add_slope x1 y1 x2 y2 E1 E2 N) as (l & S & ->).
    assert (N' : ~ opp_pts x1 (- y1) x2 (- y2)).
    { intros (A & B). apply N. split; [exact A|].
      transitivity (- - y1); [ring|]. rewrite B. ring. }
    cbn [pt_neg].
    rewrite (add_of_slope (- l)); auto using neg_slope.
    + unfold pt_line, pt_neg. f_equal. f_equal; ring.
    + exact (neg_on (Some (x1, y1)) E1).
    + exact (neg_on (Some (x2, y2)) E2).
Qed.

(** Cancellation: -P + (P + Q) = Q. *)
Lemma add_cancel P Q : on P -> on Q -> add (neg P) (add P Q) = Q.
Proof.
  destruct P as [[x1 y1]|], Q as [[x2 y2]|]; try reflexivity.
  2:{ intros E1 _. rewrite add_0_r. rewrite add_comm; auto using neg_on. apply add_neg. }
  intros E1 E2.
  destruct (opp_dec x1 y1 x2 y2) as [O|N].
  { rewrite add_opp by exact O. destruct O as (-> & ->). cbn [pt_neg]. rewrite add_0_r.
    f_equal. f_equal. ring. }
  destruct (add_slope x1 y1 x2 y2 E1 E2 N) as (l & S & ->).
  pose proof (line_on _ _ _ _ _ E2 S) as E3. unfold pt_line in *. cbn [pt_neg].
  set (x3 := l * l - x1 - x2) in *. set (y3 := l * (x1 - x3) - y1) in *.
  assert (S' : slope (- l) x1 (- y1) x3 y3).
  { destruct (slope_a _ _ _ _ _ S) as [Ey Ea]. split.
    - unfold y3. ring.
    - rewrite Ea. unfold y3, x3. rewrite Ey. ring. }
  assert (N' : ~ opp_pts x1 (- y1) x3 y3).
  { intros (A & B). destruct S' as (_ & C).
    (* then P + Q = P with Q affine *)
    assert (Ey : y3 = y1).
    { transitivity (- - y3); [ring|]. rewrite <- B. ring. }
    rewrite Ey in *. rewrite <- A in *.
    assert (T : (1 + 1 + 1) * (x1 * x1) + a = 0).
    { transitivity (x1 * x1 + x1 * x1 + x1 * x1 + a); [ring|]. rewrite <- C. ring. }
    assert (Y1 : y1 + y1 = 0).
    { transitivity (y3 + y1); [rewrite Ey; reflexivity|]. unfold y3. rewrite <- A. ring. }
    assert (Z1 : y1 = 0).
    { destruct (feqb_dec o H y1 0) as [e|n]; [exact e|]. exfalso. exact (dbl_nz _ n Y1). }
    apply (Hns x1); [|exact T]. cbn [on_curve] in E1. rewrite <- E1, Z1. ring. }
  rewrite (add_of_slope (- l)); auto.
  - unfold pt_line. f_equal. f_equal.
    + unfold x3. ring.
    + destruct S as (A & _). unfold x3. transitivity (y1 - l * (x1 - x2)); [ring|].
      rewrite <- A. ring.
  - exact (neg_on (Some (x1, y1)) E1).
Qed.

(** *** Associativity *)
Lemma assoc_collinear l x1 y1 x2 y2 x3 y3 :
  slope l x1 y1 x2 y2 -> slope l x2 y2 x3 y3 -> (x1 = x3 /\ y1 = y3) \/ l * l = x1 + x2 + x3.
Proof.
  intros (A & B) (C & D).
  destruct (feqb_dec o H x1 x3) as [e|n].
  - left. split; [exact e|]. subst x3. transitivity (y1 - y2 + y2); [ring|]. rewrite A.
    transitivity (l * (x1 - x2) + (y2 - y3) + y3); [ring|]. rewrite C. ring.
  - right. apply (mul_cancel_l o H (x1 - x3)); [apply diff_nz; exact n|].
    transitivity (l * (l * (x1 - x2) + l * (x2 - x3))); [ring|]. rewrite <- A, <- C.
    transitivity (l * (y1 + y2) - l * (y2 + y3)); [ring|]. rewrite B, D. ring.
Qed.

Lemma assoc_generic l m n k x1 y1 x2 y2 x3 y3 :
  slope l x1 y1 x2 y2 -> slope m x2 y2 x3 y3 -> l <> m ->
  let xs := l * l - x1 - x2 in let ys := l * (x1 - xs) - y1 in
  let xt := m * m - x2 - x3 in let yt := m * (x2 - xt) - y2 in
  slope n xs ys x3 y3 -> ~ opp_pts xs ys x3 y3 ->
  slope k x1 y1 xt yt -> ~ opp_pts x1 y1 xt yt ->
  pt_line o n xs ys x3 = pt_line o k x1 y1 xt.
Proof.
  intros S1 S2 Nlm xs ys xt yt S3 N3 S4 N4.
  destruct (slope_a _ _ _ _ _ S1) as [Ey1 Ea].
  destruct (slope_a _ _ _ _ _ (slope_sym _ _ _ _ _ S2)) as [Ey3 Ea'].
  assert (Hlm : l - m <> 0) by (apply diff_nz; exact Nlm).
  assert (Hd : (1 + 1) * (l - m) <> 0) by (apply (mul_nonzero o H); assumption).
  assert (Ey2 : y2 = (m * m * (x3 - x2) - l * l * (x1 - x2) + (x1 * x1 + x1 * x2) - (x2 * x3 + x3 * x3))
                     / ((1 + 1) * (l - m))).
  { apply div_eq; [exact Hd|]. rewrite Ea in Ea'. apply (sub_eq_zero o H) in Ea'.
    apply (sub_zero_eq o H). etransitivity; [|exact Ea']. ring. }
  assert (Cn : n = (ys - y3) / (xs - x3) /\ xs - x3 <> 0 \/
               n = (xs * xs + xs * x3 + x3 * x3 + a) / (ys + y3) /\ ys + y3 <> 0).
  { destruct S3 as (A & B). destruct (feqb_dec o H xs x3) as [e|ne].
    - right. assert (Z : ys + y3 <> 0).
      { intros E. apply N3. split; [exact e|]. apply (sub_zero_eq o H). etransitivity; [|exact E]. ring. }
      split; [apply div_eq; assumption|exact Z].
    - left. assert (Z : xs - x3 <> 0) by (apply diff_nz; exact ne).
      split; [apply div_eq; [exact Z|symmetry; exact A]|exact Z]. }
  assert (Ck : k = (y1 - yt) / (x1 - xt) /\ x1 - xt <> 0 \/
               k = (x1 * x1 + x1 * xt + xt * xt + a) / (y1 + yt) /\ y1 + yt <> 0).
  { destruct S4 as (A & B). destruct (feqb_dec o H x1 xt) as [e|ne].
    - right. assert (Z : y1 + yt <> 0).
      { intros E. apply N4. split; [exact e|]. apply (sub_zero_eq o H). etransitivity; [|exact E]. ring. }
      split; [apply div_eq; assumption|exact Z].
    - left. assert (Z : x1 - xt <> 0) by (apply diff_nz; exact ne).
      split; [apply div_eq; [exact Z|symmetry; exact A]|exact Z]. }
  clear S1 S2 S3 S4 N3 N4 Ea'.
  unfold pt_line.
  subst ys yt. rewrite Ea in Cn, Ck. clear Ea. subst y1 y3.
  assert (D1 : l * (x1 - xs) - (y2 + l * (x1 - x2)) + (y2 + m * (x3 - x2))
    = l * (x1 - xs) - l * (x1 - x2) + m * (x3 - x2)) by ring.
  assert (D2 : y2 + l * (x1 - x2) + (m * (x2 - xt) - y2) = l * (x1 - x2) + m * (x2 - xt)) by ring.
  rewrite D1 in Cn. rewrite D2 in Ck. clear D1 D2.
  subst y2 xs xt.
  destruct Cn as [[-> Zn]|[-> Zn]], Ck as [[-> Zk]|[-> Zk]];
    f_equal; (f_equal; [field|field]); auto.
Qed.

Theorem add_assoc P Q R : on P -> on Q -> on R -> add (add P Q) R = add P (add Q R).
Proof.
  intros HP HQ HR.
  destruct P as [[x1 y1]|]; [|reflexivity].
  destruct Q as [[x2 y2]|]; [|rewrite add_0_r; reflexivity].
  destruct R as [[x3 y3]|]; [|rewrite !add_0_r; reflexivity].
  destruct (opp_dec x1 y1 x2 y2) as [O|N1].
  { rewrite (add_opp x1 y1 x2 y2 O). rewrite add_0_l.
    destruct O as (-> & ->). symmetry. exact (add_cancel (Some (x2, y2)) _ HQ HR). }
  destruct (opp_dec x2 y2 x3 y3) as [O|N2].
  { rewrite (add_opp x2 y2 x3 y3 O), add_0_r.
    destruct O as (-> & ->).
    rewrite (add_comm (add _ _)) by auto using add_on.
    rewrite (add_comm (Some (x1, y1))) by assumption.
    pose proof (add_cancel (Some (x3, - y3)) (Some (x1, y1)) HQ HP) as C. cbn [pt_neg] in C.
    replace (- - y3) with y3 in C by ring. exact C. }
  assert (Opp : forall A B C, on A -> on B -> on C -> add A B = neg C -> add A (add B C) = None).
  { intros A B C HA HB HC E.
    assert (EC : C = add (neg A) (neg B)).
    { rewrite <- neg_add, E by assumption. symmetry. apply neg_neg. }
    assert (EB : add B C = neg A).
    { rewrite EC, (add_comm (neg A)) by auto using neg_on.
      pose proof (add_cancel (neg B) (neg A) (neg_on _ HB) (neg_on _ HA)) as X.
      rewrite neg_neg in X. exact X. }
    rewrite EB. apply add_neg. }
  destruct (add_slope _ _ _ _ HP HQ N1) as (l & S1 & E1).
  destruct (add_slope _ _ _ _ HQ HR N2) as (m & S2 & E2).
  pose proof (line_on _ _ _ _ _ HQ S1) as HS. pose proof (line_on _ _ _ _ _ HR S2) as HT.
  unfold pt_line in HS, HT, E1, E2.
  set (xs := l * l - x1 - x2) in *. set (ys := l * (x1 - xs) - y1) in *.
  set (xt := m * m - x2 - x3) in *. set (yt := m * (x2 - xt) - y2) in *.
  destruct (opp_dec xs ys x3 y3) as [O|N3].
  { rewrite E1, (add_opp xs ys x3 y3 O). symmetry. apply Opp; try assumption. rewrite E1.
    destruct O as (-> & ->). reflexivity. }
  destruct (opp_dec x1 y1 xt yt) as [O|N4].
  { rewrite E2, (add_opp x1 y1 xt yt O).
    rewrite (add_comm (add _ _)), (add_comm (Some (x1, y1))) by auto using add_on.
    apply Opp; try assumption.
    rewrite add_comm, E2 by assumption. destruct O as (-> & ->). cbn [pt_neg]. f_equal. f_equal. ring. }
  destruct (feqb_dec o H l m) as [e|ne].
  { subst m. destruct (assoc_collinear _ _ _ _ _ _ _ S1 S2) as [[-> ->]|L].
    - rewrite (add_comm (add _ _)), (add_comm (Some (x3, y3)) (Some (x2, y2))) by auto using add_on.
      reflexivity.
    - exfalso. apply N3. split.
      + unfold xs. rewrite L. ring.
      + unfold ys, xs. rewrite L. destruct S1 as (A & _), S2 as (C & _).
        transitivity (- (y1 + l * (x3 - x1))); [ring|].
        replace (l * (x3 - x1)) with (- (l * (x1 - x2)) - l * (x2 - x3)) by ring.
        rewrite <- A, <- C. ring. }
  rewrite E1, E2.
  destruct (add_slope _ _ _ _ HS HR N3) as (n & S3 & ->).
  destruct (add_slope _ _ _ _ HP HT N4) as (k & S4 & ->).
  exact (assoc_generic l m n k x1 y1 x2 y2 x3 y3 S1 S2 ne S3 N3 S4 N4).
Qed.

(** *** Multiples *)
Notation mul := (pt_mul o a).
Lemma mul_on k P : on P -> on (mul k P).
Proof. intros HP. induction k as [|k IH]; [exact I|]. cbn [pt_mul]. apply add_on; assumption. Qed.

Lemma mul_add j k P : on P -> mul (j + k) P = add (mul j P) (mul k P).
Proof.
  intros HP. induction j as [|j IH]; [reflexivity|]. cbn [Nat.add pt_mul].
  rewrite IH, add_assoc by auto using mul_on. reflexivity.
Qed.

Lemma mul_mul j k P : on P -> mul (j * k) P = mul j (mul k P).
Proof.
  intros HP. induction j as [|j IH]; [reflexivity|]. cbn [Nat.mul pt_mul].
  rewrite mul_add, IH by assumption. reflexivity.
Qed.

Lemma mul_add_pt k P Q : on P -> on Q -> mul k (add P Q) = add (mul k P) (mul k Q).
Proof.
  intros HP HQ. induction k as [|k IH]; [reflexivity|]. cbn [pt_mul]. rewrite IH.
  rewrite !add_assoc by auto using add_on, mul_on. f_equal.
  rewrite <- !add_assoc by auto using add_on, mul_on. f_equal.
  apply add_comm; auto using mul_on.
Qed.

Lemma mul_None k : mul k None = None.
Proof. induction k as [|k IH]; [reflexivity|]. cbn [pt_mul]. rewrite IH. reflexivity. Qed.

Lemma mul_neg k P : on P -> mul k (neg P) = neg (mul k P).
Proof.
  intros HP. induction k as [|k IH]; [reflexivity|]. cbn [pt_mul].
  rewrite IH, neg_add by auto using mul_on. reflexivity.
Qed.

Lemma add_cancel_r P Q R : on P -> on Q -> on R -> add P R = add Q R -> P = Q.
Proof.
  intros HP HQ HR E. rewrite (add_comm P), (add_comm Q) in E by assumption.
  rewrite <- (add_cancel R P HR HP), <- (add_cancel R Q HR HQ), E. reflexivity.
Qed.
End Group.
