(** The projective formulas compute the chord-and-tangent law. *)
From Verif Require Import Base Algebra TowerFacts SpecCurve SpecCurveFacts Curve.

(** What the formulas need of a curve: odd characteristic and no rational point
    of order two. *)
Record curve_laws {F : Type} (o : fops F) (c : cconf F) : Prop := {
  cl_field : field_laws o;
  cl_is0 : is0_law o;
  cl_two : fadd o (f1 o) (f1 o) <> f0 o;
  cl_no2 : forall x, fadd o (fadd o (fmul o (fmul o x x) x) (fmul o (ca c) x)) (cb c) <> f0 o;
  cl_3b : forall x, mul3b c x = fmul o x (fadd o (fadd o (cb c) (cb c)) (cb c)) }.

(** Homogeneous coordinates [p] of the curve point [P]. *)
Definition prep {F} (o : fops F) (c : cconf F) (p : proj F) (P : point (F := F)) : Prop :=
  on_curve o (ca c) (cb c) P /\
  match P with
  | None => px p = f0 o /\ py p <> f0 o /\ pz p = f0 o
  | Some (x, y) => pz p <> f0 o /\ px p = fmul o x (pz p) /\ py p = fmul o y (pz p)
  end.
(** Affine coordinates; the identity is stored as (0,0). *)
Definition arep {F} (o : fops F) (c : cconf F) (p : aff F) (P : point (F := F)) : Prop :=
  on_curve o (ca c) (cb c) P /\
  match P with
  | None => ax p = f0 o /\ ay p = f0 o
  | Some (x, y) => ax p = x /\ ay p = y
  end.

Section Facts.
Context {F : Type} (o : fops F) (c : cconf F) (HC : curve_laws o c).
Notation "0" := (f0 o). Notation "1" := (f1 o).
Infix "+" := (fadd o). Infix "-" := (fsub o). Infix "*" := (fmul o).
Notation "- x" := (fneg o x).
Let H := cl_field _ _ HC.
Let HR := fl_rl _ H.
Let H2 := cl_two _ _ HC.
Add Field FC : (field_thy o H).
Notation a := (ca c). Notation b := (cb c).
Notation on := (on_curve o a b).
Notation add := (pt_add o a).

Lemma c_ns x : x * x * x + a * x + b = 0 -> (1 + 1 + 1) * (x * x) + a <> 0.
Proof. intros E. exfalso. exact (cl_no2 _ _ HC x E). Qed.

Lemma no_y0 x y : on (Some (x, y)) -> y <> 0.
Proof.
  cbn [on_curve]. intros E ->. apply (cl_no2 _ _ HC x). rewrite <- E. ring.
Qed.

Lemma neg_nonzero x : x <> 0 -> - x <> 0.
Proof. intros N E. apply N. apply (neg_zero_iff o H). exact E. Qed.

(** Affine versions of the formulas. *)
Definition fX x1 y1 x2 y2 := (x1 * y2 + x2 * y1) * (y1 * y2 - a * (x1 + x2) - (b + b + b))
  - (y1 + y2) * (a * (x1 * x2) + (b + b + b) * (x1 + x2) - a * a).
Definition fY x1 y1 x2 y2 := ((1 + 1 + 1) * (x1 * x2) + a) * (a * (x1 * x2) + (b + b + b) * (x1 + x2) - a * a)
  + (y1 * y2 + a * (x1 + x2) + (b + b + b)) * (y1 * y2 - a * (x1 + x2) - (b + b + b)).
Definition fZ x1 y1 x2 y2 := (y1 + y2) * (y1 * y2 + a * (x1 + x2) + (b + b + b))
  + (x1 * y2 + x2 * y1) * ((1 + 1 + 1) * (x1 * x2) + a).

Lemma formulas_slope l x1 y1 x2 y2 : on (Some (x2, y2)) -> slope o a l x1 y1 x2 y2 ->
  let x3 := l * l - x1 - x2 in let y3 := l * (x1 - x3) - y1 in
  fX x1 y1 x2 y2 = x3 * fZ x1 y1 x2 y2 /\ fY x1 y1 x2 y2 = y3 * fZ x1 y1 x2 y2.
Proof.
  intros E S x3 y3. destruct (slope_a o a H _ _ _ _ _ S) as [-> Ea].
  pose proof (on_b o a b H _ _ E) as Eb.
  unfold fX, fY, fZ. rewrite Eb, Ea. split; unfold y3, x3; ring.
Qed.

Lemma fZ_distinct x1 y1 x2 y2 : on (Some (x1, y1)) -> on (Some (x2, y2)) -> x1 <> x2 ->
  fZ x1 y1 x2 y2 <> 0.
Proof.
  intros E1 E2 N.
  pose proof (neg_on o a b H _ E2) as E2'. cbn [pt_neg] in E2'.
  destruct (add_slope o a b H H2 x1 y1 x2 (- y2) E1 E2') as (l & S & _).
  { intros (? & _). contradiction. }
  pose proof (line_on o a b H _ _ _ _ _ E2' S) as E3. unfold pt_line in E3.
  apply no_y0 in E3.
  assert (D : x1 - x2 <> 0) by (apply (diff_nz o H); exact N).
  assert (E : fZ x1 y1 x2 y2
    = - ((x1 - x2) * ((x1 - x2) * (x1 - x2)) * (l * (x1 - (l * l - x1 - x2)) - y1))).
  { destruct (slope_a o a H _ _ _ _ _ S) as [Ey Ea]. pose proof (on_b o a b H _ _ E2) as Eb.
    unfold fZ. rewrite Eb, Ea, Ey. ring. }
  rewrite E. apply neg_nonzero.
  repeat apply (mul_nonzero o H); assumption.
Qed.

Lemma fZ_double x y : on (Some (x, y)) ->
  fZ x y x y = (1 + 1) * ((1 + 1) * ((1 + 1) * (y * (y * y)))).
Proof.
  intros E. pose proof (on_b o a b H _ _ E) as Eb. unfold fZ. rewrite Eb. ring.
Qed.

Lemma fZ_opp x y : fZ x y x (- y) = 0.
Proof. unfold fZ. ring. Qed.
Lemma fX_opp x y : fX x y x (- y) = 0.
Proof. unfold fX. ring. Qed.
Lemma fY_opp x y : on (Some (x, y)) -> fY x y x (- y) <> 0.
Proof.
  intros E. pose proof (no_y0 _ _ E) as Hy.
  destruct (add_slope o a b H H2 x y x y E E) as (l & S & _).
  { intros (_ & X). apply (dbl_nz o H H2 y Hy). rewrite X at 1. ring. }
  pose proof (line_on o a b H _ _ _ _ _ E S) as E3. unfold pt_line in E3. apply no_y0 in E3.
  assert (EY : fY x y x (- y)
    = (1 + 1) * ((1 + 1) * ((1 + 1) * (y * (y * y)))) * (l * (x - (l * l - x - x)) - y)).
  { destruct (slope_a o a H _ _ _ _ _ S) as [_ Ea]. pose proof (on_b o a b H _ _ E) as Eb.
    unfold fY. rewrite Eb, Ea. ring. }
  rewrite EY.
  repeat apply (mul_nonzero o H); assumption.
Qed.

(** The formulas at scaled affine points. *)
Definition scaled (s : F) x1 y1 x2 y2 : proj F :=
  mk_proj (s * fX x1 y1 x2 y2) (s * fY x1 y1 x2 y2) (s * fZ x1 y1 x2 y2).

Lemma scaled_repr s x1 y1 x2 y2 : s <> 0 -> on (Some (x1, y1)) -> on (Some (x2, y2)) ->
  prep o c (scaled s x1 y1 x2 y2) (add (Some (x1, y1)) (Some (x2, y2))).
Proof.
  intros Hs E1 E2. split; [apply (add_on o a b H H2); assumption|].
  unfold scaled. cbn [px py pz].
  destruct (opp_dec o H x1 y1 x2 y2) as [O|N].
  - rewrite (add_opp o a H _ _ _ _ O). destruct O as (-> & Ey).
    assert (y2 = - y1) as -> by (rewrite Ey; ring).
    rewrite fX_opp, fZ_opp. repeat split; [ring| |ring].
    apply (mul_nonzero o H); [exact Hs|]. apply fY_opp. exact E1.
  - destruct (add_slope o a b H H2 _ _ _ _ E1 E2 N) as (l & S & ->).
    destruct (formulas_slope l x1 y1 x2 y2 E2 S) as [-> ->]. unfold pt_line.
    assert (NZ : fZ x1 y1 x2 y2 <> 0).
    { destruct (feqb_dec o H x1 x2) as [e|n]; [|apply fZ_distinct; assumption].
      subst x2.
      assert (y2 = y1) as ->.
      { assert (E : (y1 - y2) * (y1 + y2) = 0).
        { transitivity (y1 * y1 - y2 * y2); [ring|]. cbn [on_curve] in E1, E2. rewrite E1, E2. ring. }
        apply (mul_integral o H) in E. destruct E as [E|E].
        - symmetry. apply (sub_zero_eq o H). exact E.
        - exfalso. apply N. split; [reflexivity|]. apply (sub_zero_eq o H). etransitivity; [|exact E]. ring. }
      rewrite fZ_double by exact E1. pose proof (no_y0 _ _ E1). repeat apply (mul_nonzero o H); assumption. }
    repeat split.
    + apply (mul_nonzero o H); assumption.
    + ring.
    + ring.
Qed.

Lemma a_zero : a_is_zero o c = true <-> a = 0.
Proof. unfold a_is_zero. apply (fl_eqb _ H). Qed.

Ltac unf := unfold add_a0, add_gen, madd_a0, madd_gen, double_a0, double_gen, select;
  repeat rewrite ?(cl_3b _ _ HC), ?(rl_sqr _ HR); cbn [px py pz ax ay].

Lemma proj_ext (p q : proj F) : px p = px q -> py p = py q -> pz p = pz q -> p = q.
Proof. destruct p, q. cbn. intros -> -> ->. reflexivity. Qed.

Lemma add_scaled p q x1 y1 x2 y2 :
  px p = x1 * pz p -> py p = y1 * pz p -> px q = x2 * pz q -> py q = y2 * pz q ->
  proj_add o c p q = scaled (pz p * pz p * (pz q * pz q)) x1 y1 x2 y2.
Proof.
  intros A B C D. unfold proj_add, scaled. destruct (a_is_zero o c) eqn:E.
  - apply a_zero in E. unf. rewrite A, B, C, D. unfold fX, fY, fZ. rewrite E. apply proj_ext; cbn [px py pz]; ring.
  - unf. rewrite A, B, C, D. unfold fX, fY, fZ. apply proj_ext; cbn [px py pz]; ring.
Qed.

Lemma add_inf_l p q : px p = 0 -> pz p = 0 ->
  proj_add o c p q = mk_proj (py p * py p * py q * px q) (py p * py p * py q * py q) (py p * py p * py q * pz q).
Proof.
  intros A B. unfold proj_add. destruct (a_is_zero o c) eqn:E.
  - apply a_zero in E. unf. rewrite A, B. apply proj_ext; cbn [px py pz]; ring.
  - unf. rewrite A, B. apply proj_ext; cbn [px py pz]; ring.
Qed.

Lemma add_inf_r p q : px q = 0 -> pz q = 0 ->
  proj_add o c p q = mk_proj (py q * py q * py p * px p) (py q * py q * py p * py p) (py q * py q * py p * pz p).
Proof.
  intros A B. unfold proj_add. destruct (a_is_zero o c) eqn:E.
  - apply a_zero in E. unf. rewrite A, B. apply proj_ext; cbn [px py pz]; ring.
  - unf. rewrite A, B. apply proj_ext; cbn [px py pz]; ring.
Qed.

(** Scaling preserves the point represented. *)
Lemma repr_scale s p P : s <> 0 -> prep o c p P ->
  prep o c (mk_proj (s * px p) (s * py p) (s * pz p)) P.
Proof.
  intros Hs (Hon & Hp). split; [exact Hon|]. destruct P as [[x y]|]; cbn [px py pz].
  - destruct Hp as (A & -> & ->). repeat split; [|ring|ring]. apply (mul_nonzero o H); assumption.
  - destruct Hp as (-> & A & ->). repeat split; [ring| |ring]. apply (mul_nonzero o H); assumption.
Qed.

Lemma repr_y p P : prep o c p P -> py p <> 0.
Proof.
  intros (Hon & Hp). destruct P as [[x y]|].
  - destruct Hp as (A & _ & ->). apply (mul_nonzero o H); [|exact A]. eapply no_y0. exact Hon.
  - tauto.
Qed.

Theorem add_repr p q P Q : prep o c p P -> prep o c q Q -> prep o c (proj_add o c p q) (add P Q).
Proof.
  intros Hp Hq. pose proof (repr_y _ _ Hp) as Yp. pose proof (repr_y _ _ Hq) as Yq.
  destruct P as [[x1 y1]|].
  - destruct Q as [[x2 y2]|].
    + destruct Hp as (O1 & A & B & C), Hq as (O2 & A' & B' & C').
      rewrite (add_scaled p q x1 y1 x2 y2) by assumption. apply scaled_repr; [|assumption..].
      repeat apply (mul_nonzero o H); assumption.
    + rewrite (add_0_r o a). destruct Hq as (_ & A & B & C). rewrite add_inf_r by assumption.
      apply repr_scale; [|exact Hp]. repeat apply (mul_nonzero o H); assumption.
  - cbn [pt_add]. destruct Hp as (_ & A & B & C). rewrite add_inf_l by assumption.
    apply repr_scale; [|exact Hq]. repeat apply (mul_nonzero o H); assumption.
Qed.

Lemma is_identity_repr p P : prep o c p P -> proj_is_identity o p = match P with None => true | _ => false end.
Proof.
  intros (_ & Hp). unfold proj_is_identity. pose proof (cl_is0 _ _ HC (pz p)) as Z.
  destruct P as [[x y]|].
  - destruct Hp as (A & _). destruct (fis0 o (pz p)); [|reflexivity]. exfalso. apply A, Z. reflexivity.
  - destruct Hp as (_ & _ & A). apply Z. exact A.
Qed.

Lemma identity_repr : prep o c (proj_identity o) None.
Proof.
  split; [exact I|]. cbn. repeat split. apply (fl_1_0 _ H).
Qed.

Theorem double_repr p P : prep o c p P -> prep o c (proj_double o c p) (add P P).
Proof.
  intros Hp. pose proof (is_identity_repr _ _ Hp) as Ei. destruct P as [[x y]|].
  - assert (E : proj_double o c p = scaled (pz p * pz p * (pz p * pz p)) x y x y).
    { destruct Hp as (O & A & B & C). unfold scaled. rewrite fZ_double by exact O.
      pose proof (on_b o a b H _ _ O) as Eb.
      unfold proj_double. destruct (a_is_zero o c) eqn:E.
      - apply a_zero in E. unf. rewrite Ei. rewrite B, C. unfold fX, fY. rewrite Eb, E.
        apply proj_ext; cbn [px py pz]; ring.
      - unf. rewrite Ei. rewrite B, C. unfold fX, fY. rewrite Eb.
        apply proj_ext; cbn [px py pz]; ring. }
    rewrite E. destruct Hp as (O & A & _). apply scaled_repr; [|assumption..].
    repeat apply (mul_nonzero o H); assumption.
  - assert (E : proj_double o c p = proj_identity o).
    { unfold proj_double. destruct (a_is_zero o c); unf; rewrite Ei; reflexivity. }
    rewrite E. exact identity_repr.
Qed.

Lemma b_nonzero : b <> 0.
Proof. intros E. apply (cl_no2 _ _ HC 0). rewrite E. ring. Qed.

Lemma aff_is_identity_repr p P : arep o c p P ->
  aff_is_identity o p = match P with None => true | _ => false end.
Proof.
  intros (Hon & Hp). unfold aff_is_identity. pose proof (cl_is0 _ _ HC) as Z. unfold is0_law in Z.
  destruct P as [[x y]|].
  - destruct Hp as (-> & ->). apply not_true_iff_false. intros E. apply andb_prop in E.
    rewrite !Z in E. destruct E as [-> ->]. exact (no_y0 _ _ Hon eq_refl).
  - destruct Hp as (-> & ->). apply andb_true_intro. rewrite !Z. auto.
Qed.

Theorem madd_repr p q P Q : prep o c p P -> arep o c q Q -> prep o c (proj_madd o c p q) (add P Q).
Proof.
  intros Hp Hq. pose proof (aff_is_identity_repr _ _ Hq) as Ei.
  pose proof (repr_y _ _ Hp) as Yp.
  destruct Q as [[x2 y2]|].
  - destruct Hq as (O2 & A' & B').
    assert (E : proj_madd o c p q = proj_add o c p (mk_proj x2 y2 1)).
    { unfold proj_madd, proj_add. destruct (a_is_zero o c) eqn:E; unf; rewrite Ei, A', B';
        apply proj_ext; cbn [px py pz]; ring. }
    rewrite E. apply add_repr; [exact Hp|]. split; [exact O2|]. cbn [px py pz].
    repeat split; [apply (fl_1_0 _ H)|ring|ring].
  - rewrite (add_0_r o a). unfold proj_madd. destruct (a_is_zero o c); unf; rewrite Ei; exact Hp.
Qed.

Lemma neg_repr p P : prep o c p P -> prep o c (proj_neg o p) (pt_neg o P).
Proof.
  intros (Hon & Hp). split; [apply (neg_on o a b H); exact Hon|]. destruct P as [[x y]|]; cbn.
  - destruct Hp as (A & -> & ->). repeat split; [exact A|ring].
  - destruct Hp as (A & B & C). repeat split; [exact A| |exact C].
    intros E. apply B. apply (neg_zero_iff o H). exact E.
Qed.

Lemma aneg_repr p P : arep o c p P -> arep o c (aff_neg o p) (pt_neg o P).
Proof.
  intros (Hon & Hp). split; [apply (neg_on o a b H); exact Hon|]. destruct P as [[x y]|]; cbn.
  - destruct Hp as (-> & ->). auto.
  - destruct Hp as (-> & ->). split; [reflexivity|ring].
Qed.

Theorem sub_repr p q P Q : prep o c p P -> prep o c q Q ->
  prep o c (proj_sub o c p q) (add P (pt_neg o Q)).
Proof. intros. apply add_repr; [assumption|apply neg_repr; assumption]. Qed.
Theorem msub_repr p q P Q : prep o c p P -> arep o c q Q ->
  prep o c (proj_msub o c p q) (add P (pt_neg o Q)).
Proof. intros. apply madd_repr; [assumption|apply aneg_repr; assumption]. Qed.

Lemma to_curve_repr p P : arep o c p P -> prep o c (to_curve o p) P.
Proof.
  intros Hp. unfold to_curve, select. rewrite (aff_is_identity_repr _ _ Hp).
  destruct P as [[x y]|]; [|exact identity_repr].
  destruct Hp as (O & A & B). split; [exact O|]. cbn [px py pz]. rewrite A, B.
  repeat split; [apply (fl_1_0 _ H)|ring|ring].
Qed.

Theorem aff_add_repr p q P Q : arep o c p P -> arep o c q Q -> prep o c (aff_add o c p q) (add P Q).
Proof.
  intros Hp Hq. unfold aff_add.
  rewrite (add_comm o a b H H2) by (apply Hp || apply Hq). apply add_repr; apply to_curve_repr; assumption.
Qed.

Lemma inv_or_zero_spec x : x <> 0 -> inv_or_zero o x * x = 1.
Proof.
  intros Hx. unfold inv_or_zero. destruct (fl_inv _ H x Hx) as (i & -> & E). rewrite <- E. ring.
Qed.
Lemma inv_or_zero_0 : inv_or_zero o 0 = 0.
Proof. unfold inv_or_zero. rewrite (fl_inv0 _ H). reflexivity. Qed.

Theorem to_affine_repr p P : prep o c p P -> arep o c (to_affine o p) P.
Proof.
  intros (O & Hp). split; [exact O|]. unfold to_affine, select.
  pose proof (cl_is0 _ _ HC (inv_or_zero o (pz p))) as Z.
  destruct P as [[x y]|].
  - destruct Hp as (A & -> & ->). pose proof (inv_or_zero_spec _ A) as I.
    destruct (fis0 o _).
    + exfalso. pose proof (proj1 Z eq_refl) as X. rewrite X in I. apply (fl_1_0 _ H).
      rewrite <- I. ring.
    + cbn [ax ay]. split.
      * transitivity (x * (inv_or_zero o (pz p) * pz p)); [ring|]. rewrite I. ring.
      * transitivity (y * (inv_or_zero o (pz p) * pz p)); [ring|]. rewrite I. ring.
  - destruct Hp as (_ & _ & E). rewrite E, inv_or_zero_0 in *. rewrite (proj2 Z eq_refl). cbn. auto.
Qed.

Theorem proj_eq_repr p q P Q : prep o c p P -> prep o c q Q -> (proj_eq o p q = true <-> P = Q).
Proof.
  intros Hp Hq. unfold proj_eq. rewrite (is_identity_repr _ _ Hp), (is_identity_repr _ _ Hq).
  destruct P as [[x1 y1]|], Q as [[x2 y2]|]; cbn [negb andb orb]; try (split; discriminate || reflexivity).
  destruct Hp as (_ & A & B & C), Hq as (_ & A' & B' & C').
  rewrite andb_true_iff, !(fl_eqb _ H), B, C, B', C'. split.
  - intros (E1 & E2). f_equal. f_equal.
    + apply (mul_cancel_l o H (pz p * pz q)); [apply (mul_nonzero o H); assumption|].
      transitivity (x1 * pz p * pz q); [ring|]. rewrite E1. ring.
    + apply (mul_cancel_l o H (pz p * pz q)); [apply (mul_nonzero o H); assumption|].
      transitivity (y1 * pz p * pz q); [ring|]. rewrite E2. ring.
  - intros [= -> ->]. split; ring.
Qed.

Theorem aff_eq_repr p q P Q : arep o c p P -> arep o c q Q -> (aff_eq o p q = true <-> P = Q).
Proof.
  intros Hp Hq. unfold aff_eq. rewrite (aff_is_identity_repr _ _ Hp), (aff_is_identity_repr _ _ Hq).
  destruct P as [[x1 y1]|], Q as [[x2 y2]|]; cbn [negb andb orb]; try (split; discriminate || reflexivity).
  destruct Hp as (_ & -> & ->), Hq as (_ & -> & ->).
  rewrite andb_true_iff, !(fl_eqb _ H). split; [intros (-> & ->); reflexivity|intros [= -> ->]; auto].
Qed.

Lemma arepr_unique p q P : arep o c p P -> arep o c q P -> p = q.
Proof.
  intros (_ & Hp) (_ & Hq). destruct p, q, P as [[x y]|]; cbn in *; intuition congruence.
Qed.
Lemma arepr_inj p P Q : arep o c p P -> arep o c p Q -> P = Q.
Proof.
  intros Hp Hq. apply (aff_eq_repr p p P Q Hp Hq). unfold aff_eq.
  rewrite (aff_is_identity_repr _ _ Hp), !(feqb_refl o H). destruct P as [[x y]|]; reflexivity.
Qed.

(** *** Membership tests *)
Theorem aff_on_curve_iff p : aff_is_on_curve o c p = true <-> exists P, arep o c p P.
Proof.
  assert (E : aff_is_on_curve o c p = true <-> on (Some (ax p, ay p)) \/ (ax p = 0 /\ ay p = 0)).
  { unfold aff_is_on_curve, aff_is_identity. pose proof (cl_is0 _ _ HC) as Z. unfold is0_law in Z.
    cbn [on_curve]. destruct (a_is_zero o c) eqn:Ea.
    - apply a_zero in Ea. rewrite orb_true_iff, (fl_eqb _ H), andb_true_iff, !Z, !(rl_sqr _ HR), Ea.
      split; (intros [E|E]; [left|right; exact E]).
      + rewrite <- E. ring.
      + rewrite E. ring.
    - rewrite orb_true_iff, (fl_eqb _ H), andb_true_iff, !Z, !(rl_sqr _ HR).
      split; (intros [E|E]; [left|right; exact E]).
      + rewrite <- E. ring.
      + rewrite E. ring. }
  rewrite E. split.
  - intros [O|(A & B)].
    + exists (Some (ax p, ay p)). split; [exact O|]. auto.
    + exists None. split; [exact I|]. auto.
  - intros ([[x y]|] & O & A & B); [left; rewrite A, B; exact O|right; auto].
Qed.

Theorem proj_on_curve_iff p : proj_is_on_curve o c p = true <->
  pz p = 0 \/ exists x y, prep o c p (Some (x, y)).
Proof.
  assert (E : proj_is_on_curve o c p = true <->
    pz p * (py p * py p) = px p * px p * px p + a * px p * (pz p * pz p) + b * (pz p * pz p * pz p)
    \/ pz p = 0).
  { unfold proj_is_on_curve. pose proof (cl_is0 _ _ HC) as Z. unfold is0_law in Z.
    destruct (a_is_zero o c) eqn:Ea.
    - apply a_zero in Ea. rewrite orb_true_iff, (fl_eqb _ H), !Z, !(rl_sqr _ HR), Ea.
      split; (intros [E|E]; [left|right; exact E]).
      + transitivity (pz p * (py p * py p) - px p * px p * px p + px p * px p * px p); [ring|].
        rewrite E. ring.
      + rewrite E. ring.
    - cbv zeta. rewrite orb_true_iff, (fl_eqb _ H), !Z, !(rl_sqr _ HR).
      split; (intros [E|E]; [left|right; exact E]).
      + transitivity (pz p * (py p * py p) - (px p * px p + a * (pz p * pz p)) * px p
          + (px p * px p + a * (pz p * pz p)) * px p); [ring|]. rewrite E. ring.
      + rewrite E. ring. }
  rewrite E. split.
  - intros [O|Z]; [|left; exact Z].
    destruct (feqb_dec o H (pz p) 0) as [Z|Z]; [left; exact Z|right].
    set (i := inv_or_zero o (pz p)). assert (I : i * pz p = 1) by (apply inv_or_zero_spec; exact Z).
    clearbody i. exists (px p * i), (py p * i). split.
    + cbn [on_curve].
      assert (Z3 : pz p * (pz p * pz p) <> 0) by (repeat apply (mul_nonzero o H); assumption).
      apply (mul_cancel_l o H _ _ _ Z3).
      transitivity (pz p * (py p * py p) * (i * pz p) * (i * pz p)); [ring|].
      rewrite O, I.
      transitivity (px p * px p * px p * 1 * 1 * 1 + a * px p * 1 * (pz p * pz p) + b * (pz p * (pz p * pz p))); [ring|].
      rewrite <- I. ring.
    + split; [exact Z|]. split.
      * transitivity (px p * (i * pz p)); [rewrite I; ring|ring].
      * transitivity (py p * (i * pz p)); [rewrite I; ring|ring].
  - intros [Z|(x & y & O & A & B & C)]; [right; exact Z|left].
    cbn [on_curve] in O. rewrite B, C.
    transitivity (pz p * (pz p * pz p) * (y * y)); [ring|]. rewrite O. ring.
Qed.
End Facts.
