(** The maps of RFC 9380 (SpecH2c.v) determine the point when [odd] distinguishes the two
    square roots, and depend on [odd] only through its values. *)
From Verif Require Import Base Algebra Pow Tower TowerFacts FiniteField SpecCurve SpecCurveFacts Curve CurveFacts SpecH2c H2cFacts.

Section Unique.
Context {F : Type} (o : fops F) (H : field_laws o).
Notation "0" := (f0 o). Notation "1" := (f1 o).
Infix "+" := (fadd o). Infix "-" := (fsub o). Infix "*" := (fmul o).
Notation "- x" := (fneg o x).
Let HR := fl_rl _ H.
Add Field FU : (field_thy o H).

Definition sgn_ok (odd : F -> bool) : Prop := forall x, x <> 0 -> odd (- x) = negb (odd x).

Lemma signed_root_ext odd odd' : (forall x, odd x = odd' x) -> forall u gx y, signed_root o odd u gx y -> signed_root o odd' u gx y.
Proof. intros E u gx y (r & A & B). exists r. rewrite <- !E. auto. Qed.
Lemma sswu_spec_ext odd odd' : (forall x, odd x = odd' x) -> forall a b z u x y, sswu_spec o odd a b z u x y -> sswu_spec o odd' a b z u x y.
Proof.
  intros E a b z u x y (x1 & A & B & C & D & S). exists x1. do 4 (split; [assumption|]). exact (signed_root_ext _ _ E _ _ _ S).
Qed.
Lemma svdw_spec_ext odd odd' : (forall x, odd x = odd' x) -> forall a b z u x y, svdw_spec o odd a b z u x y -> svdw_spec o odd' a b z u x y.
Proof.
  intros E a b z u x y (tv3 & tv4 & tv6 & h & x1 & x2 & x3 & A & B & C & D & G & (r & R) & P1 & P2 & P3 & S1 & S2 & S3 & S).
  exists tv3, tv4, tv6, h, x1, x2, x3. cbv zeta. do 5 (split; [assumption|]). split; [exists r; rewrite <- E; exact R|].
  do 6 (split; [assumption|]). exact (signed_root_ext _ _ E _ _ _ S).
Qed.

(** The same with two signs that agree on the elements of [N]. *)
Lemma signed_root_sub (N : F -> Prop) odd odd' : (forall x, N x -> odd x = odd' x) -> (forall x, N (- x) -> N x) ->
  forall u gx y, N u -> N y -> signed_root o odd u gx y -> signed_root o odd' u gx y.
Proof.
  intros E NN u gx y Nu Ny (r & A & B). exists r. split; [exact A|]. rewrite <- (E u Nu), <- (E r); [exact B|].
  destruct (Bool.eqb _ _); [rewrite <- B; exact Ny|]. apply NN. rewrite <- B. exact Ny.
Qed.
Lemma sswu_spec_sub (N : F -> Prop) odd odd' : (forall x, N x -> odd x = odd' x) -> (forall x, N (- x) -> N x) ->
  forall a b z u x y, N u -> N y -> sswu_spec o odd a b z u x y -> sswu_spec o odd' a b z u x y.
Proof.
  intros E NN a b z u x y Nu Ny (x1 & A & B & C & D & S). exists x1. do 4 (split; [assumption|]).
  exact (signed_root_sub N _ _ E NN _ _ _ Nu Ny S).
Qed.
Lemma svdw_spec_sub (N : F -> Prop) odd odd' : (forall x, N x -> odd x = odd' x) -> (forall x, N (- x) -> N x) ->
  forall a b z u x y, (forall r, r * r = - curve_rhs o a b z * ((1 + 1 + 1) * (z * z) + (1 + 1 + 1 + 1) * a) -> N r) ->
  N u -> N y -> svdw_spec o odd a b z u x y -> svdw_spec o odd' a b z u x y.
Proof.
  intros E NN a b z u x y NT Nu Ny (tv3 & tv4 & tv6 & h & x1 & x2 & x3 & A & B & C & D & G & (r & R) & P1 & P2 & P3 & S1 & S2 & S3 & S).
  exists tv3, tv4, tv6, h, x1, x2, x3. cbv zeta. do 5 (split; [assumption|]). split.
  { exists r. rewrite <- (E r); [exact R|]. apply NT. rewrite <- C, R. destruct (odd r); ring. }
  do 6 (split; [assumption|]). exact (signed_root_sub N _ _ E NN _ _ _ Nu Ny S).
Qed.

Lemma root_cases x y : x * x = y * y -> x = y \/ x = - y.
Proof.
  intros E. destruct (feqb_dec o H (x - y) 0) as [Z|Z].
  - left. transitivity (x - y + y); [ring|]. rewrite Z. ring.
  - right. destruct (feqb_dec o H (x + y) 0) as [W|W].
    + transitivity (x + y - y); [ring|]. rewrite W. ring.
    + exfalso. apply (mul_nonzero o H _ _ Z W). transitivity (x * x - y * y); [ring|]. rewrite E. ring.
Qed.
Lemma fneg_0 : - 0 = 0.
Proof. ring. Qed.
Lemma fmul_0_r x : x * 0 = 0.
Proof. ring. Qed.
Lemma fneg_neg x : - - x = x.
Proof. ring. Qed.
(** the square of an element with first coefficient zero *)
Lemma quad_sq_c1 mnr (x : quad F) : q0 x = 0 -> q1 (quad_mul o mnr x x) = 0.
Proof. intros E. unfold quad_mul. cbn [q1]. rewrite !E. ring. Qed.
Lemma neg_zero x : x = 0 -> - x = x.
Proof. intros ->. ring. Qed.

Lemma sswu_on odd a b z u x y : sswu_spec o odd a b z u x y -> on_curve o a b (Some (x, y)).
Proof.
  intros (x1 & _ & _ & _ & _ & r & E & ->).
  cbn [on_curve]. transitivity (r * r); [|exact E]. destruct (Bool.eqb _ _); ring.
Qed.

Section Sgn.
Context (odd : F -> bool) (SO : sgn_ok odd).
(** The result has the sign of [u]. *)
Lemma signed_root_sgn u gx y : signed_root o odd u gx y -> y * y = gx /\ (y <> 0 -> odd y = odd u).
Proof using All.
  intros (r & <- & ->). destruct (odd u) eqn:Eu, (odd r) eqn:Er; cbn [Bool.eqb]; split; try ring; intros N; try exact Er.
  - rewrite SO, Er; [reflexivity|]. intros Z. apply N. rewrite Z. ring.
  - rewrite SO, Er; [reflexivity|]. intros Z. apply N. rewrite Z. ring.
Qed.
Lemma same_sign y y' : y * y = y' * y' -> (y <> 0 -> y' <> 0 -> odd y = odd y') -> y = y'.
Proof using All.
  intros E S. destruct (root_cases _ _ E) as [-> | ->]; [reflexivity|].
  destruct (feqb_dec o H y' 0) as [Z|Z]; [apply neg_zero; exact Z|].
  assert (N : - y' <> 0) by (intros X; apply Z; transitivity (- - y'); [ring|]; rewrite X; ring).
  specialize (S N Z). rewrite (SO _ Z) in S. destruct (odd y'); discriminate S.
Qed.
Lemma signed_root_unique u gx y y' : signed_root o odd u gx y -> signed_root o odd u gx y' -> y = y'.
Proof using All.
  intros A B. apply signed_root_sgn in A, B. destruct A as [A A'], B as [B B']. apply same_sign; [congruence|].
  intros N N'. rewrite (A' N), (B' N'). reflexivity.
Qed.
Context (sq_dec : forall x, is_square o x \/ ~ is_square o x).
Lemma sswu_unique a b z u x y x' y' : a <> 0 -> z <> 0 ->
  sswu_spec o odd a b z u x y -> sswu_spec o odd a b z u x' y' -> x = x' /\ y = y'.
Proof using All.
  intros Za Zz (x1 & A1 & A2 & A3 & A4 & A5) (x1' & B1 & B2 & B3 & B4 & B5). cbv zeta in *.
  set (t1 := z * (u * u)) in *. set (tv := t1 * t1 + t1) in *.
  assert (E1 : x1 = x1').
  { destruct (feqb_dec o H tv 0) as [Z|Z].
    - specialize (A1 Z). specialize (B1 Z). apply (mul_cancel_l o H (z * a) _ _ (mul_nonzero o H _ _ Zz Za)).
      transitivity (x1 * (z * a)); [ring|]. rewrite A1, <- B1. ring.
    - specialize (A2 Z). specialize (B2 Z). apply (mul_cancel_l o H (a * tv) _ _ (mul_nonzero o H _ _ Za Z)).
      transitivity (x1 * (a * tv)); [ring|]. rewrite A2, <- B2. ring. }
  subst x1'.
  assert (Ex : x = x').
  { destruct (sq_dec (curve_rhs o a b x1)) as [S|S].
    - rewrite (A3 S), (B3 S). reflexivity.
    - rewrite (A4 S), (B4 S). reflexivity. }
  subst x'. split; [reflexivity|]. exact (signed_root_unique _ _ _ _ A5 B5).
Qed.
Lemma even_root tv4 : (exists r, tv4 = if odd r then - r else r) -> tv4 <> 0 -> odd tv4 = false.
Proof using All.
  intros (r & ->) N. destruct (odd r) eqn:E; [|exact E]. rewrite SO, E; [reflexivity|]. intros Z. apply N. rewrite Z. ring.
Qed.
Lemma svdw_unique a b z u x y x' y' : 1 + 1 <> 0 -> (1 + 1 + 1) * (z * z) + (1 + 1 + 1 + 1) * a <> 0 ->
  svdw_spec o odd a b z u x y -> svdw_spec o odd a b z u x' y' -> x = x' /\ y = y'.
Proof using All.
  intros H2 ZT (tv3 & tv4 & tv6 & h & x1 & x2 & x3 & A & B & C & D & G & R & P1 & P2 & P3 & S1 & S2 & S3 & S)
    (tv3' & tv4' & tv6' & h' & x1' & x2' & x3' & A' & B' & C' & D' & G' & R' & P1' & P2' & P3' & S1' & S2' & S3' & S').
  cbv zeta in *. set (g := curve_rhs o a b) in *. set (T := (1 + 1 + 1) * (z * z) + (1 + 1 + 1 + 1) * a) in *.
  set (t1 := 1 - u * u * g z) in *. set (t2 := 1 + u * u * g z) in *.
  assert (E3 : tv3 = tv3').
  { destruct (feqb_dec o H (t1 * t2) 0) as [Z|Z].
    - rewrite (A Z), (A' Z). reflexivity.
    - specialize (B Z). specialize (B' Z). apply (mul_cancel_l o H (t1 * t2) _ _ Z). transitivity (tv3 * (t1 * t2)); [ring|].
      rewrite B, <- B'. ring. }
  assert (E4 : tv4 = tv4').
  { apply same_sign; [congruence|]. intros N N'. rewrite (even_root _ R N), (even_root _ R' N'). reflexivity. }
  assert (E6 : tv6 = tv6').
  { apply (mul_cancel_l o H T _ _ ZT). transitivity (tv6 * T); [ring|]. rewrite D, <- D'. ring. }
  assert (Eh : h = h').
  { apply (mul_cancel_l o H (1 + 1) _ _ H2). transitivity (h + h); [ring|]. rewrite G, <- G'. ring. }
  subst tv3' tv4' tv6' h'. rewrite <- P1 in P1'. rewrite <- P2 in P2'. rewrite <- P3 in P3'. subst x1' x2' x3'.
  assert (Ex : x = x').
  { destruct (sq_dec (g x1)) as [Q1|Q1]; [rewrite (S1 Q1), (S1' Q1); reflexivity|].
    destruct (sq_dec (g x2)) as [Q2|Q2]; [rewrite (S2 Q1 Q2), (S2' Q1 Q2); reflexivity|].
    rewrite (S3 Q1 Q2), (S3' Q1 Q2). reflexivity. }
  subst x'. split; [reflexivity|]. exact (signed_root_unique _ _ _ _ S S').
Qed.
End Sgn.
End Unique.
