(** Executable checks on curve constants over a computational copy [ob] of the
    base field, and what they imply for any base field [o]. *)
From Verif Require Import Base Algebra Pow TowerFacts FiniteField Compute Group SpecCurve SpecCurveFacts
  Curve CurveFacts CurveGroup.

(** ** Polynomials modulo X^3 + a X + b *)
Record tri (F : Type) := mk_tri { r0 : F; r1 : F; r2 : F }.
Arguments mk_tri {F}. Arguments r0 {F}. Arguments r1 {F}. Arguments r2 {F}.

Section Tri.
Context {F : Type} (o : fops F) (a b : F).
Infix "+" := (fadd o). Infix "-" := (fsub o). Infix "*" := (fmul o).
Definition tri_mul (u v : tri F) : tri F :=
  let c3 := r1 u * r2 v + r2 u * r1 v in
  let c4 := r2 u * r2 v in
  mk_tri (r0 u * r0 v - b * c3) (r0 u * r1 v + r1 u * r0 v - a * c3 - b * c4)
    (r0 u * r2 v + r1 u * r1 v + r2 u * r0 v - a * c4).
Fixpoint tri_pow (u : tri F) (e : positive) : tri F :=
  match e with
  | xH => u
  | xO e' => let s := tri_pow u e' in tri_mul s s
  | xI e' => let s := tri_pow u e' in tri_mul u (tri_mul s s)
  end.
Definition tri_eqb (u v : tri F) : bool := feqb o (r0 u) (r0 v) && feqb o (r1 u) (r1 v) && feqb o (r2 u) (r2 v).
Definition tri_x : tri F := mk_tri (f0 o) (f1 o) (f0 o).
(** [u (X^q - X) = 1]: then X^3 + a X + b has no root among the solutions of X^q = X. *)
Definition no_root_check (q : positive) (u : tri F) : bool :=
  let r := tri_pow tri_x q in
  tri_eqb (tri_mul u (mk_tri (r0 r) (r1 r - f1 o) (r2 r))) (mk_tri (f1 o) (f0 o) (f0 o)).

(** Multiplication by double-and-add using the branch-free addition only. *)
Fixpoint mul_chk (c : cconf F) (p : proj F) (e : positive) : proj F :=
  match e with
  | xH => p
  | xO e' => let s := mul_chk c p e' in proj_add o c s s
  | xI e' => let s := mul_chk c p e' in proj_add o c (proj_add o c s s) p
  end.
Definition gen_check (c : cconf F) (gx gy : F) (r : positive) : bool :=
  feqb o (gy * gy) (gx * gx * gx + ca c * gx + cb c)
  && feqb o (pz (mul_chk c (mk_proj gx gy (f1 o)) r)) (f0 o).
(** [lam * G = (x, y)] *)
Definition mult_check (c : cconf F) (gx gy : F) (lam : positive) (x y : F) : bool :=
  let p := mul_chk c (mk_proj gx gy (f1 o)) lam in
  feqb o (px p) (x * pz p) && feqb o (py p) (y * pz p).
End Tri.

Section Check.
Context {B F : Type} (ob : fops B) (o : fops F) (phi : B -> F).
Context (Hf : fhom ob o phi) (H : field_laws o).
Hypothesis Heq : forall x y, feqb ob x y = true -> phi x = phi y.
Notation "0" := (f0 o). Notation "1" := (f1 o).
Infix "+" := (fadd o). Infix "-" := (fsub o). Infix "*" := (fmul o).
Add Field FCk : (field_thy o H).

Ltac hom := repeat rewrite ?(fh_0 _ _ _ Hf), ?(fh_1 _ _ _ Hf), ?(fh_add _ _ _ Hf),
  ?(fh_sub _ _ _ Hf), ?(fh_mul _ _ _ Hf), ?(fh_neg _ _ _ Hf), ?(fh_sqr _ _ _ Hf), ?(fh_dbl _ _ _ Hf).

Section NoRoot.
Context (a b : B) (x : F) (Hx : x * x * x + phi a * x + phi b = 0).
Definition ev (t : tri B) : F := phi (r0 t) + phi (r1 t) * x + phi (r2 t) * (x * x).

Lemma ev_mul u v : ev (tri_mul ob a b u v) = ev u * ev v.
Proof.
  destruct u as [u0 u1 u2], v as [v0 v1 v2]. unfold ev, tri_mul. cbn [r0 r1 r2]. hom.
  set (c3 := phi u1 * phi v2 + phi u2 * phi v1). set (c4 := phi u2 * phi v2).
  transitivity ((phi u0 + phi u1 * x + phi u2 * (x * x)) * (phi v0 + phi v1 * x + phi v2 * (x * x))
    - (x * x * x + phi a * x + phi b) * (c3 + c4 * x)).
  - unfold c3, c4. ring.
  - rewrite Hx. ring.
Qed.

Lemma ev_pow u e : ev (tri_pow ob a b u e) = fpow_pos o (ev u) e.
Proof.
  induction e as [e IH|e IH|]; cbn [tri_pow fpow_pos]; cbv zeta; rewrite ?ev_mul, ?IH; ring.
Qed.
End NoRoot.

Theorem no_root a b q u : finite_field o (Zpos q) -> no_root_check ob a b q u = true ->
  forall x, x * x * x + phi a * x + phi b <> 0.
Proof.
  intros HF Hc x Hx. unfold no_root_check, tri_eqb in Hc.
  apply andb_prop in Hc. destruct Hc as [Hc E2]. apply andb_prop in Hc. destruct Hc as [E0 E1].
  apply Heq in E0, E1, E2. set (r := tri_pow ob a b (tri_x ob) q) in *.
  set (d := mk_tri (r0 r) (fsub ob (r1 r) (f1 ob)) (r2 r)) in *.
  pose proof (ev_mul a b x Hx u d) as E. unfold ev at 1 in E. rewrite E0, E1, E2 in E. cbn [r0 r1 r2] in E.
  assert (Ed : ev x d = 0).
  { pose proof (ev_pow a b x Hx (tri_x ob) q) as Ep. fold r in Ep.
    assert (Ex : ev x (tri_x ob) = x) by (unfold ev, tri_x; cbn [r0 r1 r2]; hom; ring).
    rewrite Ex in Ep. change (fpow_pos o x q) with (fpowz o x (Zpos q)) in Ep.
    assert (Eq : fpowz o x (Zpos q) = x).
    { replace (Zpos q) with ((Zpos q - 1) + 1)%Z by lia.
      rewrite fpowz_succ by (try apply (fl_rl _ H); lia).
      destruct (feqb_dec o H x 0) as [-> |N]; [ring|].
      rewrite (fermat o H (Zpos q) HF x N). ring. }
    rewrite Eq in Ep. transitivity (ev x r - x).
    - unfold ev, d. cbn [r0 r1 r2]. hom. ring.
    - rewrite Ep. ring. }
  rewrite Ed in E. revert E. hom. intros E. apply (fl_1_0 _ H).
  transitivity (1 + 0 * x + 0 * (x * x)); [ring|]. rewrite E. ring.
Qed.

(** ** Points *)
Definition pmap (p : proj B) : proj F := mk_proj (phi (px p)) (phi (py p)) (phi (pz p)).
Context (cB : cconf B) (c : cconf F).
Hypothesis Ha : phi (ca cB) = ca c.
Hypothesis Hb : phi (cb cB) = cb c.
Hypothesis H3 : forall x, phi (mul3b cB x) = mul3b c (phi x).
Hypothesis Haz : a_is_zero ob cB = a_is_zero o c.

Lemma add_hom p q : pmap (proj_add ob cB p q) = proj_add o c (pmap p) (pmap q).
Proof.
  unfold proj_add. rewrite Haz. destruct (a_is_zero o c); unfold pmap.
  - unfold add_a0. cbn [px py pz]. f_equal; repeat rewrite ?H3; hom; rewrite ?H3; hom; reflexivity.
  - unfold add_gen. cbn [px py pz]. f_equal; repeat (rewrite ?H3, <- ?Ha; hom); reflexivity.
Qed.

Lemma mul_chk_hom p e : pmap (mul_chk ob cB p e) = mul_chk o c (pmap p) e.
Proof.
  induction e as [e IH|e IH|]; cbn [mul_chk]; cbv zeta; rewrite ?add_hom, ?IH; reflexivity.
Qed.

Context (HC : curve_laws o c).
Notation on := (on_curve o (ca c) (cb c)).
Notation mulz := (pt_mulz o (ca c)).

Lemma mul_chk_repr p P e : prep o c p P -> prep o c (mul_chk o c p e) (mulz (Zpos e) P).
Proof.
  intros Hp. assert (O : on P) by apply Hp.
  induction e as [e IH|e IH|]; cbn [mul_chk]; cbv zeta.
  - replace (Zpos e~1) with (Zpos e + Zpos e + 1)%Z by lia.
    rewrite !(mulz_add o c HC), (mulz_1 o c HC) by exact O.
    apply (add_repr o c HC); [apply (add_repr o c HC)|]; assumption.
  - replace (Zpos e~0) with (Zpos e + Zpos e)%Z by lia. rewrite (mulz_add o c HC) by exact O.
    apply (add_repr o c HC); assumption.
  - rewrite (mulz_1 o c HC) by exact O. exact Hp.
Qed.

Lemma gen_prep gx gy : on (Some (gx, gy)) -> prep o c (mk_proj gx gy 1) (Some (gx, gy)).
Proof. intros O. split; [exact O|]. cbn [px py pz]. repeat split; [apply (fl_1_0 _ H)|ring|ring]. Qed.

Theorem gen_check_ok gx gy r : gen_check ob cB gx gy r = true ->
  on (Some (phi gx, phi gy)) /\ mulz (Zpos r) (Some (phi gx, phi gy)) = None.
Proof.
  intros E. apply andb_prop in E. destruct E as [E1 E2]. apply Heq in E1, E2.
  assert (O : on (Some (phi gx, phi gy))).
  { cbn [on_curve]. rewrite <- Ha, <- Hb. revert E1. hom. auto. }
  split; [exact O|].
  pose proof (mul_chk_repr _ _ r (gen_prep _ _ O)) as R.
  pose proof (mul_chk_hom (mk_proj gx gy (f1 ob)) r) as Hh. unfold pmap at 2 in Hh. cbn [px py pz] in Hh.
  rewrite (fh_1 _ _ _ Hf) in Hh. rewrite <- Hh in R. rewrite (fh_0 _ _ _ Hf) in E2.
  destruct (mulz (Zpos r) _) as [[x y]|]; [|reflexivity].
  destruct R as (_ & N & _). exfalso. apply N. exact E2.
Qed.

Theorem mult_check_ok gx gy lam x y : on (Some (phi gx, phi gy)) ->
  mult_check ob cB gx gy lam x y = true ->
  mulz (Zpos lam) (Some (phi gx, phi gy)) = Some (phi x, phi y).
Proof.
  intros O E. apply andb_prop in E. destruct E as [E1 E2]. apply Heq in E1, E2.
  pose proof (mul_chk_repr _ _ lam (gen_prep _ _ O)) as R.
  pose proof (mul_chk_hom (mk_proj gx gy (f1 ob)) lam) as Hh. unfold pmap at 2 in Hh. cbn [px py pz] in Hh.
  rewrite (fh_1 _ _ _ Hf) in Hh. rewrite <- Hh in R.
  set (p := mul_chk ob cB (mk_proj gx gy (f1 ob)) lam) in *.
  rewrite (fh_mul _ _ _ Hf) in E1, E2.
  destruct (mulz (Zpos lam) _) as [[x' y']|]; destruct R as (_ & R); cbn [pmap px py pz] in R.
  - destruct R as (N & X & Y). rewrite E1 in X. rewrite E2 in Y. f_equal. f_equal.
    + apply (mul_cancel_l o H (phi (pz p)) _ _ N). transitivity (x' * phi (pz p)); [ring|]. rewrite <- X. ring.
    + apply (mul_cancel_l o H (phi (pz p)) _ _ N). transitivity (y' * phi (pz p)); [ring|]. rewrite <- Y. ring.
  - destruct R as (_ & N & Z). exfalso. apply N. rewrite E2, Z. ring.
Qed.
End Check.
