From Verif Require Import Base Algebra Tower SpecTower.

(** ** Consequences of the laws *)
Section Laws.
Context {F : Type} (o : fops F) (H : field_laws o).
Notation "0" := (f0 o). Notation "1" := (f1 o).
Infix "+" := (fadd o). Infix "-" := (fsub o). Infix "*" := (fmul o).
Notation "- x" := (fneg o x).
Add Ring FR : (rl_ring _ (fl_rl _ H)).

Lemma feqb_dec : forall a b : F, {a = b} + {a <> b}.
Proof.
  intros a b. destruct (feqb o a b) eqn:E.
  - left. apply (fl_eqb _ H). exact E.
  - right. intros ->. assert (feqb o b b = true) by (apply (fl_eqb _ H); reflexivity). congruence.
Qed.

Lemma feqb_refl a : feqb o a a = true.
Proof. apply (fl_eqb _ H). reflexivity. Qed.

Lemma feqb_false a b : feqb o a b = false <-> a <> b.
Proof.
  rewrite <- (fl_eqb _ H a b). destruct (feqb o a b); split; congruence.
Qed.

Lemma mul_integral a b : a * b = 0 -> a = 0 \/ b = 0.
Proof.
  intros E. destruct (feqb_dec a 0) as [->|N]; [left; reflexivity|right].
  destruct (fl_inv _ H a N) as (i & _ & Hi).
  transitivity (i * (a * b)). { transitivity ((a * i) * b); [rewrite Hi; ring|ring]. }
  rewrite E. ring.
Qed.

Lemma mul_nonzero a b : a <> 0 -> b <> 0 -> a * b <> 0.
Proof. intros A B E. destruct (mul_integral a b E); auto. Qed.

Lemma mul_cancel_l a b c : a <> 0 -> a * b = a * c -> b = c.
Proof.
  intros N E. destruct (fl_inv _ H a N) as (i & _ & Hi).
  transitivity ((a * i) * b); [rewrite Hi; ring|].
  transitivity (i * (a * b)); [ring|]. rewrite E.
  transitivity ((a * i) * c); [ring|]. rewrite Hi; ring.
Qed.

Lemma sub_zero_eq a b : a - b = 0 -> a = b.
Proof. intros E. transitivity (a - b + b); [ring|rewrite E; ring]. Qed.

Lemma sub_eq_zero a b : a = b -> a - b = 0.
Proof. intros ->. ring. Qed.

Lemma sqr_zero a : a * a = 0 -> a = 0.
Proof. intros E. destruct (mul_integral _ _ E); assumption. Qed.

Lemma neg_zero_iff a : - a = 0 <-> a = 0.
Proof.
  split; intros E; [|rewrite E; ring].
  transitivity (- - a); [ring|rewrite E; ring].
Qed.

Lemma finv_some a b : finv o a = Some b -> a <> 0 /\ a * b = 1.
Proof.
  intros E. destruct (feqb_dec a 0) as [->|N].
  - rewrite (fl_inv0 _ H) in E. discriminate.
  - split; [exact N|]. destruct (fl_inv _ H a N) as (i & Hi & Hm). congruence.
Qed.

Lemma finv_none a : finv o a = None -> a = 0.
Proof.
  intros E. destruct (feqb_dec a 0) as [->|N]; [reflexivity|].
  destruct (fl_inv _ H a N) as (i & Hi & _). congruence.
Qed.

Lemma finv_none_iff a : finv o a = None <-> a = 0.
Proof. split; [apply finv_none|intros ->; apply (fl_inv0 _ H)]. Qed.

(** Total inverse and a [field_theory], for the [field] tactic. *)
Definition inv0 (a : F) : F := match finv o a with Some b => b | None => 0 end.
Definition fdiv (a b : F) : F := a * inv0 b.

Lemma inv0_l a : a <> 0 -> inv0 a * a = 1.
Proof.
  intros N. unfold inv0. destruct (fl_inv _ H a N) as (i & -> & Hm).
  transitivity (a * i); [ring|exact Hm].
Qed.

Lemma field_thy : field_theory 0 1 (fadd o) (fmul o) (fsub o) (fneg o) fdiv inv0 (@eq F).
Proof.
  constructor.
  - exact (rl_ring _ (fl_rl _ H)).
  - exact (fl_1_0 _ H).
  - reflexivity.
  - exact inv0_l.
Qed.

Lemma inv0_unique a b : a * b = 1 -> inv0 a = b.
Proof.
  intros E. assert (a <> 0).
  { intros ->. apply (fl_1_0 _ H). rewrite <- E. ring. }
  apply (mul_cancel_l a); [assumption|]. rewrite E.
  transitivity (inv0 a * a); [ring|apply inv0_l; assumption].
Qed.

Lemma inv0_nonzero a : a <> 0 -> inv0 a <> 0.
Proof.
  intros N E. apply (fl_1_0 _ H). rewrite <- (inv0_l a N), E. ring.
Qed.

Lemma finv_inv0 a : a <> 0 -> finv o a = Some (inv0 a).
Proof. intros N. unfold inv0. destruct (fl_inv _ H a N) as (i & -> & _). reflexivity. Qed.
End Laws.

(** ** Quadratic extensions *)
Section QuadFacts.
Context {F : Type} (o : fops F) (mnr : F -> F) (beta : F).
Hypothesis HR : ring_laws o.
Hypothesis Hm : forall x, mnr x = fmul o beta x.
Notation "0" := (f0 o). Notation "1" := (f1 o).
Infix "+" := (fadd o). Infix "-" := (fsub o). Infix "*" := (fmul o).
Notation "- x" := (fneg o x).
Add Ring FRq : (rl_ring _ HR).

Lemma quad_ext (a b : quad F) : q0 a = q0 b -> q1 a = q1 b -> a = b.
Proof. destruct a, b; cbn; intros -> ->; reflexivity. Qed.

Definition quad_list (a : quad F) : list F := [q0 a; q1 a].

Ltac qring := repeat rewrite ?Hm, ?(rl_sqr _ HR), ?(rl_dbl _ HR); ring.

Lemma quad_mul_school a b :
  quad_mul o mnr a b
  = mk_quad (q0 a * q0 b + beta * (q1 a * q1 b)) (q0 a * q1 b + q1 a * q0 b).
Proof. apply quad_ext; cbn -[fadd fsub fmul]; qring. Qed.

Lemma quad_mul_spec a b :
  quad_list (quad_mul o mnr a b) = quotient_mul o 2 beta (quad_list a) (quad_list b).
Proof.
  rewrite quad_mul_school. unfold quad_list, quotient_mul, poly_coeff, fsum.
  cbn [seq map Nat.add Nat.sub nth fold_right q0 q1].
  f_equal; [|f_equal]; ring.
Qed.

Lemma quad_square_mul a : quad_square o mnr a = quad_mul o mnr a a.
Proof. apply quad_ext; unfold quad_square, quad_mul; cbn [q0 q1]; qring. Qed.

Lemma quad_square_complex_mul (Hb : beta = fneg o (f1 o)) a :
  quad_square_complex o a = quad_mul o mnr a a.
Proof.
  apply quad_ext; unfold quad_square_complex, quad_mul; cbn [q0 q1];
    repeat rewrite ?Hm, ?(rl_sqr _ HR), ?(rl_dbl _ HR), ?Hb; ring.
Qed.

Lemma quad_ring_laws sq : (forall a, sq a = quad_mul o mnr a a) ->
  ring_laws (quad_ops o mnr sq).
Proof.
  intros Hs. constructor; [|exact Hs|].
  - constructor; intros; apply quad_ext; cbn [quad_ops f0 f1 fadd fmul fsub fneg];
      unfold quad_add, quad_sub, quad_neg, quad_mul, quad_zero, quad_one; cbn [q0 q1]; qring.
  - intros a. apply quad_ext; cbn [quad_ops fdbl fadd]; unfold quad_double, quad_add;
      cbn [q0 q1]; qring.
Qed.

Lemma quad_norm_val a : quad_norm o mnr a = q0 a * q0 a - beta * (q1 a * q1 a).
Proof. unfold quad_norm. qring. Qed.

Lemma quad_norm_mul a b :
  quad_norm o mnr (quad_mul o mnr a b) = quad_norm o mnr a * quad_norm o mnr b.
Proof. rewrite !quad_norm_val, quad_mul_school. cbn [q0 q1]. ring. Qed.

Lemma quad_mul_conj a :
  quad_mul o mnr a (quad_conjugate o a) = mk_quad (quad_norm o mnr a) 0.
Proof.
  rewrite quad_mul_school, quad_norm_val. unfold quad_conjugate.
  apply quad_ext; cbn [q0 q1]; ring.
Qed.

Lemma quad_conj_mul a b :
  quad_conjugate o (quad_mul o mnr a b)
  = quad_mul o mnr (quad_conjugate o a) (quad_conjugate o b).
Proof.
  rewrite !quad_mul_school. unfold quad_conjugate. apply quad_ext; cbn [q0 q1]; ring.
Qed.
End QuadFacts.

Section QuadField.
Context {F : Type} (o : fops F) (mnr : F -> F) (beta : F).
Hypothesis H : field_laws o.
Hypothesis Hm : forall x, mnr x = fmul o beta x.
Hypothesis Hnr : forall x, fmul o x x <> beta.
Notation "0" := (f0 o). Notation "1" := (f1 o).
Infix "+" := (fadd o). Infix "-" := (fsub o). Infix "*" := (fmul o).
Notation "- x" := (fneg o x).
Let HR : ring_laws o := fl_rl _ H.
Add Field FFq : (field_thy o H).

Lemma quad_norm_zero a : quad_norm o mnr a = 0 <-> a = quad_zero o.
Proof.
  rewrite (quad_norm_val o mnr beta HR Hm). split.
  - intros E. destruct (feqb_dec o H (q1 a) 0) as [E1|N1].
    + rewrite E1 in E. apply quad_ext; cbn [quad_zero q0 q1]; [|exact E1].
      apply (sqr_zero o H). rewrite <- E. ring.
    + exfalso. apply (Hnr (q0 a * inv0 o (q1 a))).
      apply (sub_zero_eq o H).
      apply (mul_cancel_l o H (q1 a * q1 a)). { apply mul_nonzero; auto. }
      transitivity (q0 a * q0 a - beta * (q1 a * q1 a)); [field; auto|rewrite E; ring].
  - intros ->. cbn [quad_zero q0 q1]. ring.
Qed.

Lemma quad_invert_spec a :
  match quad_invert o mnr a with
  | None => a = quad_zero o
  | Some b => a <> quad_zero o /\ quad_mul o mnr a b = quad_one o
  end.
Proof.
  unfold quad_invert. destruct (finv o (quad_norm o mnr a)) as [t|] eqn:E.
  - apply (finv_some o H) in E. destruct E as [N E]. split.
    + intros Z. apply N. apply quad_norm_zero. exact Z.
    + rewrite (quad_norm_val o mnr beta HR Hm) in E.
      rewrite (quad_mul_school o mnr beta HR Hm). apply quad_ext; cbn [quad_one q0 q1].
      * rewrite <- E. ring.
      * ring.
  - apply (finv_none o H) in E. apply quad_norm_zero. exact E.
Qed.

Lemma quad_eqb_spec a b : quad_eqb o a b = true <-> a = b.
Proof.
  unfold quad_eqb. rewrite andb_true_iff, !(fl_eqb _ H). split.
  - intros [? ?]. apply quad_ext; assumption.
  - intros ->. split; reflexivity.
Qed.

Lemma quad_field_laws sq : (forall a, sq a = quad_mul o mnr a a) ->
  field_laws (quad_ops o mnr sq).
Proof.
  intros Hs. constructor.
  - apply (quad_ring_laws o mnr beta HR Hm sq Hs).
  - cbn. unfold quad_one, quad_zero. intros E. injection E. apply (fl_1_0 _ H).
  - cbn [quad_ops finv f0]. pose proof (quad_invert_spec (quad_zero o)) as S.
    destruct (quad_invert o mnr (quad_zero o)); [|reflexivity]. destruct S as [S _].
    exfalso. apply S. reflexivity.
  - cbn [quad_ops finv f0 f1 fmul]. intros a Ha. pose proof (quad_invert_spec a) as S.
    destruct (quad_invert o mnr a) as [b|]; [|contradiction]. exists b. tauto.
  - exact quad_eqb_spec.
Qed.

Lemma quad_is0_law sq : is0_law o -> is0_law (quad_ops o mnr sq).
Proof.
  unfold is0_law. intros Hz a. cbn [quad_ops fis0 f0]. unfold quad_is_zero. rewrite andb_true_iff, !Hz. split.
  - intros [? ?]. apply quad_ext; assumption.
  - intros ->. split; reflexivity.
Qed.
End QuadField.

(** ** Cubic extensions *)
Section CubicFacts.
Context {F : Type} (o : fops F) (mnr : F -> F) (xi : F).
Hypothesis HR : ring_laws o.
Hypothesis Hm : forall x, mnr x = fmul o xi x.
Notation "0" := (f0 o). Notation "1" := (f1 o).
Infix "+" := (fadd o). Infix "-" := (fsub o). Infix "*" := (fmul o).
Notation "- x" := (fneg o x).
Add Ring FRc : (rl_ring _ HR).

Lemma cubic_ext (a b : cubic F) : k0 a = k0 b -> k1 a = k1 b -> k2 a = k2 b -> a = b.
Proof. destruct a, b; cbn; intros -> -> ->; reflexivity. Qed.

Definition cubic_list (a : cubic F) : list F := [k0 a; k1 a; k2 a].

Ltac cring := repeat rewrite ?Hm, ?(rl_sqr _ HR), ?(rl_dbl _ HR); ring.

Lemma cubic_mul_school a b :
  cubic_mul o mnr a b
  = mk_cubic (k0 a * k0 b + xi * (k1 a * k2 b + k2 a * k1 b))
             (k0 a * k1 b + k1 a * k0 b + xi * (k2 a * k2 b))
             (k0 a * k2 b + k1 a * k1 b + k2 a * k0 b).
Proof. apply cubic_ext; unfold cubic_mul; cbn [k0 k1 k2]; cring. Qed.

Lemma cubic_mul_spec a b :
  cubic_list (cubic_mul o mnr a b) = quotient_mul o 3 xi (cubic_list a) (cubic_list b).
Proof.
  rewrite cubic_mul_school. unfold cubic_list, quotient_mul, poly_coeff, fsum.
  cbn [seq map Nat.add Nat.sub nth fold_right k0 k1 k2].
  f_equal; [|f_equal; [|f_equal]]; ring.
Qed.

Lemma cubic_square_mul a : cubic_square o mnr a = cubic_mul o mnr a a.
Proof. apply cubic_ext; unfold cubic_square, cubic_mul; cbn [k0 k1 k2]; cring. Qed.

Lemma cubic_ring_laws : ring_laws (cubic_ops o mnr).
Proof.
  constructor; [|exact cubic_square_mul|].
  - constructor; intros; apply cubic_ext; cbn [cubic_ops f0 f1 fadd fmul fsub fneg];
      unfold cubic_add, cubic_sub, cubic_neg, cubic_mul, cubic_zero, cubic_one;
      cbn [k0 k1 k2]; cring.
  - intros a. apply cubic_ext; cbn [cubic_ops fdbl fadd]; unfold cubic_double, cubic_add;
      cbn [k0 k1 k2]; cring.
Qed.

Definition cubic_v : cubic F := mk_cubic 0 1 0.

Lemma cubic_mul_by_v_spec a : cubic_mul_by_v mnr a = cubic_mul o mnr cubic_v a.
Proof. apply cubic_ext; unfold cubic_mul_by_v, cubic_mul, cubic_v; cbn [k0 k1 k2]; cring. Qed.

Lemma mul_by_1_spec a c1 : mul_by_1 o mnr a c1 = cubic_mul o mnr a (mk_cubic 0 c1 0).
Proof. apply cubic_ext; unfold mul_by_1, cubic_mul; cbn [k0 k1 k2]; cring. Qed.

Lemma mul_by_01_spec a c0 c1 : mul_by_01 o mnr a c0 c1 = cubic_mul o mnr a (mk_cubic c0 c1 0).
Proof. apply cubic_ext; unfold mul_by_01, cubic_mul; cbn [k0 k1 k2]; cring. Qed.

Notation "[ a ** b ]" := (quad_mul (cubic_ops o mnr) (cubic_mul_by_v mnr) a b).

Lemma mul_by_014_spec f c0 c1 c4 :
  mul_by_014 o mnr f c0 c1 c4 = [f ** mk_quad (mk_cubic c0 c1 0) (mk_cubic 0 c4 0)].
Proof.
  apply quad_ext; apply cubic_ext;
    unfold mul_by_014, quad_mul, cubic_ops, mul_by_01, mul_by_1, cubic_mul_by_v;
    cbn [q0 q1 fadd fsub fmul]; unfold cubic_mul, cubic_add, cubic_sub;
    cbn [k0 k1 k2]; cring.
Qed.

Lemma mul_by_034_spec f c0 c3 c4 :
  mul_by_034 o mnr f c0 c3 c4 = [f ** mk_quad (mk_cubic c0 0 0) (mk_cubic c3 c4 0)].
Proof.
  apply quad_ext; apply cubic_ext;
    unfold mul_by_034, quad_mul, cubic_ops, mul_by_01, mul_by_1, cubic_mul_by_v;
    cbn [q0 q1 fadd fsub fmul]; unfold cubic_mul, cubic_add, cubic_sub;
    cbn [k0 k1 k2]; cring.
Qed.

(** Determinant of multiplication by [a] (the value inverted by [invert]). *)
Definition cubic_norm (a : cubic F) : F :=
  k0 a * k0 a * k0 a + xi * (k1 a * k1 a * k1 a) + xi * xi * (k2 a * k2 a * k2 a)
  - (1 + 1 + 1) * (xi * (k0 a * k1 a * k2 a)).

Lemma cubic_norm_mul a b :
  cubic_norm (cubic_mul o mnr a b) = cubic_norm a * cubic_norm b.
Proof. rewrite cubic_mul_school. unfold cubic_norm. cbn [k0 k1 k2]. ring. Qed.
End CubicFacts.

Section CubicField.
Context {F : Type} (o : fops F) (mnr : F -> F) (xi : F).
Hypothesis H : field_laws o.
Hypothesis Hm : forall x, mnr x = fmul o xi x.
Hypothesis Hnr : forall x, fmul o x (fmul o x x) <> xi.
Notation "0" := (f0 o). Notation "1" := (f1 o).
Infix "+" := (fadd o). Infix "-" := (fsub o). Infix "*" := (fmul o).
Notation "- x" := (fneg o x).
Let HR : ring_laws o := fl_rl _ H.
Add Field FFc : (field_thy o H).

(** The relations satisfied by a zero divisor force it to vanish. *)
Lemma cubic_degenerate a b c :
  a * a = xi * (b * c) -> xi * (c * c) = a * b -> b * b = a * c ->
  a = 0 /\ b = 0 /\ c = 0.
Proof.
  intros E1 E2 E3. destruct (feqb_dec o H c 0) as [->|Nc].
  - assert (b = 0). { apply (sqr_zero o H). rewrite E3. ring. } subst b.
    assert (a = 0). { apply (sqr_zero o H). rewrite E1. ring. } auto.
  - exfalso. apply (Hnr (b * inv0 o c)). apply (sub_zero_eq o H).
    apply (mul_cancel_l o H (c * (c * c))). { repeat apply mul_nonzero; auto. }
    transitivity (b * (b * b) - c * (xi * (c * c))); [field; auto|].
    rewrite E2, E3. ring.
Qed.

Lemma cubic_norm_zero a : cubic_norm o xi a = 0 <-> a = cubic_zero o.
Proof.
  unfold cubic_norm. split.
  - destruct a as [a b c]. cbn [k0 k1 k2]. intros E.
    pose (A := a * a - xi * (b * c)). pose (B := xi * (c * c) - a * b).
    pose (C := b * b - a * c).
    destruct (cubic_degenerate A B C) as (HA & HB & HC).
    + apply (sub_zero_eq o H). transitivity (a * 0); [rewrite <- E; unfold A, B, C; ring|ring].
    + apply (sub_zero_eq o H). transitivity (b * 0); [rewrite <- E; unfold A, B, C; ring|ring].
    + apply (sub_zero_eq o H). transitivity (c * 0); [rewrite <- E; unfold A, B, C; ring|ring].
    + destruct (cubic_degenerate a b c) as (? & ? & ?).
      * apply (sub_zero_eq o H). exact HA.
      * apply (sub_zero_eq o H). exact HB.
      * apply (sub_zero_eq o H). exact HC.
      * subst. reflexivity.
  - intros ->. cbn [cubic_zero k0 k1 k2]. ring.
Qed.

Lemma cubic_invert_spec a :
  match cubic_invert o mnr a with
  | None => a = cubic_zero o
  | Some b => a <> cubic_zero o /\ cubic_mul o mnr a b = cubic_one o
  end.
Proof.
  unfold cubic_invert.
  set (t := fadd o (mnr _) _).
  assert (Et : t = cubic_norm o xi a).
  { unfold t, cubic_norm. rewrite !Hm, !(rl_sqr _ HR). ring. }
  clearbody t. destruct (finv o t) as [s|] eqn:E.
  - apply (finv_some o H) in E. destruct E as [N E]. split.
    + intros Z. apply N. rewrite Et. apply cubic_norm_zero. exact Z.
    + rewrite Et in E. rewrite (cubic_mul_school o mnr xi HR Hm).
      apply cubic_ext; cbn [cubic_one k0 k1 k2]; rewrite !Hm, !(rl_sqr _ HR).
      * rewrite <- E. unfold cubic_norm. ring.
      * ring.
      * ring.
  - apply (finv_none o H) in E. apply cubic_norm_zero. congruence.
Qed.

Lemma cubic_eqb_spec a b : cubic_eqb o a b = true <-> a = b.
Proof.
  unfold cubic_eqb. rewrite !andb_true_iff, !(fl_eqb _ H). split.
  - intros [[? ?] ?]. apply cubic_ext; assumption.
  - intros ->. repeat split; reflexivity.
Qed.

Lemma cubic_field_laws : field_laws (cubic_ops o mnr).
Proof.
  constructor.
  - apply (cubic_ring_laws o mnr xi HR Hm).
  - cbn. unfold cubic_one, cubic_zero. intros E. injection E. apply (fl_1_0 _ H).
  - cbn [cubic_ops finv f0]. pose proof (cubic_invert_spec (cubic_zero o)) as S.
    destruct (cubic_invert o mnr (cubic_zero o)); [|reflexivity]. destruct S as [S _].
    exfalso. apply S. reflexivity.
  - cbn [cubic_ops finv f0 f1 fmul]. intros a Ha. pose proof (cubic_invert_spec a) as S.
    destruct (cubic_invert o mnr a) as [b|]; [|contradiction]. exists b. tauto.
  - exact cubic_eqb_spec.
Qed.

(** [is_zero] of the cubic extension: exact only for elements with [c2 = 0]. *)
Lemma cubic_is_zero_spec a : is0_law o ->
  (cubic_is_zero o a = true <-> k0 a = 0 /\ k1 a = 0).
Proof. unfold is0_law. intros Hz. unfold cubic_is_zero. rewrite andb_true_iff, !Hz. tauto. Qed.

(** [v] is not a square when the norm [xi] of [v] is not. *)
Lemma v_nonsquare : (forall x, x * x <> xi) ->
  forall x, cubic_mul o mnr x x <> cubic_v o.
Proof.
  intros Hx x E. apply (Hx (cubic_norm o xi x)).
  rewrite <- (cubic_norm_mul o mnr xi HR Hm), E. unfold cubic_norm, cubic_v. cbn [k0 k1 k2]. ring.
Qed.
End CubicField.
