(** The maps to the curve are total and land on the curve. *)
From Verif Require Import Base Algebra Pow TowerFacts FiniteField SpecCurve SpecCurveFacts Curve CurveFacts
  Sqrt2 SpecH2c H2c.

Section Maps.
Context {F : Type} (o : fops F) (H : field_laws o) (H0 : is0_law o).
Context (q : Z) (HF : finite_field o q).
Notation "0" := (f0 o). Notation "1" := (f1 o).
Infix "+" := (fadd o). Infix "-" := (fsub o). Infix "*" := (fmul o).
Notation "- x" := (fneg o x).
Hypothesis H2 : 1 + 1 <> 0.
Let HR := fl_rl _ H.
Add Field FH : (field_thy o H).

Lemma inv_or_zero_spec' x : x <> 0 -> inv_or_zero o x * x = 1.
Proof.
  intros Hx. unfold inv_or_zero. destruct (fl_inv _ H x Hx) as (i & -> & E). rewrite <- E. ring.
Qed.
Lemma inv_or_zero_0' : inv_or_zero o 0 = 0.
Proof. unfold inv_or_zero. rewrite (fl_inv0 _ H). reflexivity. Qed.

(** What the square root and the residue test of the field are assumed to do. *)
Definition sqrt_ok (sqrt : F -> sq_out F) : Prop := forall x,
  (exists r, sqrt x = SqRet (Some r) /\ r * r = x) \/ (sqrt x = SqRet None /\ ~ is_square o x).
Definition qnr_ok (qnr : F -> bool) : Prop := forall x, qnr x = true <-> ~ is_square o x.

Lemma nonsq_nz x : ~ is_square o x -> x <> 0.
Proof. intros N ->. apply N. exists 0. ring. Qed.

Lemma nonsq_mul x y : ~ is_square o x -> ~ is_square o y -> is_square o (x * y).
Proof.
  intros Nx Ny. pose proof (nonsq_nz x Nx) as Zx. pose proof (nonsq_nz y Ny) as Zy.
  pose proof (half_card o H q HF H2) as (_ & Hq).
  apply (euler o H q HF H2); [apply (mul_nonzero o H); assumption|].
  rewrite fpowz_mul_base by (exact HR || lia).
  apply (euler_nonsquare o H q HF H2) in Nx; [|assumption].
  apply (euler_nonsquare o H q HF H2) in Ny; [|assumption].
  rewrite Nx, Ny. ring.
Qed.

Lemma square_mul x y : is_square o x -> is_square o y -> is_square o (x * y).
Proof. intros (r & <-) (s & <-). exists (r * s). ring. Qed.

Lemma square_quot x y s : x <> 0 -> is_square o x -> x * y = s * s -> is_square o y.
Proof.
  intros Zx (r & <-) E.
  assert (Zr : r <> 0). { intros ->. apply Zx. ring. }
  destruct (fl_inv _ H r Zr) as (i & _ & Ei). exists (s * i).
  transitivity (s * s * (i * i)); [ring|]. rewrite <- E.
  transitivity ((r * i) * (r * i) * y); [ring|]. rewrite Ei. ring.
Qed.

Lemma square_dec x : is_square o x \/ ~ is_square o x.
Proof.
  destruct (feqb_dec o H x 0) as [->|Zx]; [left; exists 0; ring|].
  destruct (half_pow_cases o H q HF H2 x Zx) as [E|E].
  - left. apply (euler o H q HF H2 x Zx). exact E.
  - right. apply (euler_nonsquare o H q HF H2 x Zx). exact E.
Qed.

Section Sqrt.
Context (sqrt : F -> sq_out F) (HS : sqrt_ok sqrt).
Context (is_odd : F -> bool) (qnr : F -> bool).

Lemma sqrt_ratio_spec num div z : div <> 0 -> ~ is_square o z ->
  exists v sq r, v * div = num /\ sqrt_ratio o sqrt num div z = HRet (sq, r) /\
    (sq = true /\ r * r = v \/ sq = false /\ ~ is_square o v /\ r * r = v * z).
Proof.
  intros Zd Nz. unfold sqrt_ratio. cbv zeta.
  pose proof (inv_or_zero_spec' div Zd) as Ei. set (i := inv_or_zero o div) in *.
  exists (i * num).
  assert (Ev : i * num * div = num).
  { transitivity (i * div * num); [ring|]. rewrite Ei. ring. }
  assert (E0 : fis0 o div = false).
  { destruct (fis0 o div) eqn:E; [|reflexivity]. apply H0 in E. contradiction. }
  rewrite E0. set (v := i * num) in *.
  destruct (HS v) as [(r & E & Er)|(E & N)]; rewrite E; cbn [h_sqrt h_bind].
  - destruct (HS (v * z)) as [(s & E' & Es)|(E' & N')]; rewrite E'; cbn [h_sqrt h_bind].
    + assert (V0 : v = 0).
      { destruct (feqb_dec o H v 0) as [V|V]; [exact V|]. exfalso. apply Nz.
        apply (square_quot v z s V); [exists r; exact Er|symmetry; exact Es]. }
      assert (N0 : num = 0). { rewrite <- Ev, V0. ring. }
      assert (E1 : fis0 o num = true) by (apply H0; exact N0). rewrite E1.
      cbn [orb andb negb xorb select h_unwrap h_bind]. exists true, r. auto.
    + rewrite Bool.orb_true_r. cbn [orb andb negb xorb select h_unwrap h_bind].
      rewrite Bool.orb_true_r. exists true, r. auto.
  - destruct (HS (v * z)) as [(s & E' & Es)|(E' & N')]; rewrite E'; cbn [h_sqrt h_bind].
    + rewrite Bool.orb_true_r. cbn [orb andb negb xorb select h_unwrap h_bind].
      exists false, s. auto 7.
    + exfalso. apply N'. apply nonsq_mul; assumption.
Qed.

(** ** Simplified SWU *)
Theorem sswu_map_spec a b z u : a <> 0 -> ~ is_square o z ->
  (forall x, x * (z * a) = b -> is_square o (curve_rhs o a b x)) ->
  exists x y w X Y, sswu_map_to_curve o sqrt is_odd u z a b = HRet (x, y, w) /\
    w <> 0 /\ x = X * w /\ y = Y * w /\ Y * Y = curve_rhs o a b X /\
    sswu_spec o is_odd a b z u X Y.
Proof.
  intros Za Nz Hexc. pose proof (nonsq_nz z Nz) as Zz. unfold sswu_map_to_curve. cbv zeta.
  rewrite !(rl_sqr _ HR). set (t1 := z * (u * u)). set (tv := t1 * t1 + t1).
  set (tv3 := b * (tv + 1)). set (w := a * select z (- tv) (negb (feqb o tv 0))).
  assert (Zw : w <> 0).
  { unfold w. apply (mul_nonzero o H); [exact Za|]. destruct (feqb o tv 0) eqn:E; cbn [negb select].
    - exact Zz.
    - apply (feqb_false o H) in E. intros X. apply E. transitivity (- - tv); [ring|]. rewrite X. ring. }
  destruct (fl_inv _ H w Zw) as (i & _ & Ei). set (x1 := tv3 * i).
  assert (Ex1 : x1 * w = tv3).
  { unfold x1. transitivity (tv3 * (w * i)); [ring|]. rewrite Ei. ring. }
  assert (S0 : tv = 0 -> x1 * (z * a) = b).
  { intros E. assert (Ew : w = a * z).
    { unfold w. rewrite E. replace (feqb o 0 0) with true by (symmetry; apply (fl_eqb _ H); reflexivity). reflexivity. }
    transitivity (x1 * w); [rewrite Ew; ring|]. rewrite Ex1. unfold tv3. rewrite E. ring. }
  assert (S1 : tv <> 0 -> x1 * (a * tv) = - b * (tv + 1)).
  { intros E. assert (Ew : w = - (a * tv)).
    { unfold w. destruct (feqb o tv 0) eqn:E'; [apply (fl_eqb _ H) in E'; contradiction|]. cbn [negb select]. ring. }
    transitivity (- (x1 * w)); [rewrite Ew; ring|]. rewrite Ex1. unfold tv3. ring. }
  assert (Zw3 : w * w * w <> 0) by (apply (mul_nonzero o H); [apply (mul_nonzero o H)|]; exact Zw).
  destruct (sqrt_ratio_spec ((tv3 * tv3 + a * (w * w)) * tv3 + b * (w * w * w)) (w * w * w) z Zw3 Nz)
    as (v & sq & r & Ev & -> & Hr).
  assert (Gv : v = curve_rhs o a b x1).
  { apply (mul_cancel_l o H (w * w * w)); [exact Zw3|]. unfold curve_rhs.
    transitivity (v * (w * w * w)); [ring|]. rewrite Ev, <- Ex1. ring. }
  cbn [h_bind]. 
  assert (SIGN : forall X y, y * y = curve_rhs o a b X ->
    let Y := select (- y) y (Bool.eqb (is_odd u) (is_odd y)) in
    Y * Y = curve_rhs o a b X /\ signed_root o is_odd u (curve_rhs o a b X) Y).
  { intros X y Ey Y. split.
    - unfold Y. destruct (Bool.eqb _ _); cbn [select]; rewrite <- Ey; ring.
    - exists y. split; [exact Ey|]. unfold Y. destruct (Bool.eqb _ _); reflexivity. }
  destruct Hr as [(-> & Er)|(-> & Nv & Er)]; cbn [select].
  - destruct (SIGN x1 r) as (SY & SR); [rewrite Er; exact Gv|].
    eexists _, _, _, x1, _. split; [reflexivity|].
    split; [exact Zw|]. split; [symmetry; exact Ex1|]. split; [reflexivity|].
    split; [exact SY|]. exists x1. split; [exact S0|]. split; [exact S1|]. split; [reflexivity|].
    split; [|exact SR]. intros N. exfalso. apply N. rewrite <- Gv. exists r. exact Er.
  - rewrite Gv in Nv.
    assert (Ztv : tv <> 0). { intros E. apply Nv. apply Hexc. apply S0. exact E. }
    assert (EG : curve_rhs o a b (t1 * x1) = t1 * t1 * t1 * curve_rhs o a b x1).
    { apply (mul_cancel_l o H tv); [exact Ztv|]. unfold curve_rhs.
      transitivity (tv * (t1 * t1 * t1 * (x1 * x1 * x1) + b) + t1 * (x1 * (a * tv))); [ring|].
      transitivity (tv * (t1 * t1 * t1 * (x1 * x1 * x1) + b * (t1 * t1 * t1)) + t1 * t1 * t1 * (x1 * (a * tv))); [|ring].
      rewrite (S1 Ztv). unfold tv. ring. }
    destruct (SIGN (t1 * x1) (t1 * u * r)) as (SY & SR).
    { rewrite EG. transitivity (t1 * t1 * (u * u) * (r * r)); [ring|]. rewrite Er, Gv.
      transitivity (t1 * t1 * (z * (u * u)) * curve_rhs o a b x1); [ring|reflexivity]. }
    eexists _, _, _, (t1 * x1), _. split; [reflexivity|].
    split; [exact Zw|]. split; [rewrite <- Ex1; ring|]. split; [reflexivity|].
    split; [exact SY|]. exists x1. split; [exact S0|]. split; [exact S1|].
    split; [intros S; contradiction|]. split; [reflexivity|exact SR].
Qed.

(** ** Shallue-van de Woestijne *)
Section Svdw.
Context (HQ : qnr_ok qnr) (c : cconf F) (HC : curve_laws o c).
Notation a := (ca c). Notation b := (cb c). Notation g := (curve_rhs o a b).

Lemma new_jacobian_one x y : y * y = g x -> new_jacobian o c x y 1 = Some (mk_proj x y 1).
Proof.
  intros E. unfold new_jacobian. cbv zeta.
  assert (I1 : inv_or_zero o 1 = 1).
  { pose proof (inv_or_zero_spec' 1 (fl_1_0 _ H)) as E1. transitivity (inv_or_zero o 1 * 1); [ring|exact E1]. }
  rewrite I1. assert (Z1 : fis0 o 1 = false).
  { destruct (fis0 o 1) eqn:X; [|reflexivity]. apply H0 in X. exfalso. exact (fl_1_0 _ H X). }
  rewrite Z1. cbn [select]. rewrite !(rl_sqr _ HR).
  replace (x * 1) with x by ring. replace (y * (1 * 1)) with y by ring.
  unfold proj_is_on_curve. cbn [px py pz]. rewrite !(rl_sqr _ HR).
  assert (B : forall A B C, A = B -> feqb o A B || C = true).
  { intros A B C ->. replace (feqb o B B) with true by (symmetry; apply (fl_eqb _ H); reflexivity). reflexivity. }
  destruct (a_is_zero o c) eqn:Ea.
  - apply (a_zero o c HC) in Ea. unfold curve_rhs in E. rewrite Ea in E.
    rewrite B; [reflexivity|]. rewrite E. ring.
  - rewrite B; [reflexivity|]. rewrite E. unfold curve_rhs. ring.
Qed.

Lemma gform x : (x * x + a) * x + b = g x.
Proof. unfold curve_rhs. ring. Qed.

Theorem svdw_closure_spec two_inv z u :
  two_inv + two_inv = 1 ->
  let T := (1 + 1 + 1) * (z * z) + (1 + 1 + 1 + 1) * a in
  T <> 0 -> is_square o (- g z * T) ->
  (forall h, h + h = - z -> is_square o (g h) \/ is_square o (g z)) ->
  exists x y, svdw_closure o sqrt is_odd qnr c two_inv z u = HRet (mk_proj x y 1) /\
    y * y = g x /\ svdw_spec o is_odd a b z u x y.
Proof.
  intros H2i T ZT SqT Hexc. unfold svdw_closure, svdw_constants. cbv zeta. rewrite !(rl_sqr _ HR).
  change ((1 + 1 + 1) * (z * z) + (1 + 1 + 1 + 1) * a) with T. rewrite !gform.
  destruct (HS (- g z * T)) as [(r3 & -> & Er3)|(_ & N)]; [|contradiction].
  cbn [h_sqrt h_bind h_unwrap]. destruct (fl_inv _ H T ZT) as (i & -> & Ei). cbn [h_unwrap h_bind].
  set (c3 := select r3 (- r3) (is_odd r3)).
  assert (Ec3 : c3 * c3 = - g z * T).
  { rewrite <- Er3. unfold c3. destruct (is_odd r3); cbn [select]; ring. }
  set (c4 := - (1 + 1 + 1 + 1) * g z * i).
  assert (Ec4 : c4 * T = - ((1 + 1 + 1 + 1) * g z)).
  { unfold c4. transitivity (- ((1 + 1 + 1 + 1) * g z) * (T * i)); [ring|]. rewrite Ei. ring. }
  set (h := - z * two_inv).
  assert (Eh : h + h = - z).
  { unfold h. transitivity (- z * (two_inv + two_inv)); [ring|]. rewrite H2i. ring. }
  unfold svdw_map_to_curve. cbv zeta. rewrite !(rl_sqr _ HR), !gform.
  set (v := u * u * g z).
  set (tv3 := inv_or_zero o ((1 - v) * (1 + v))).
  set (t := u * (1 - v) * tv3 * c3). set (x1 := h - t). set (x2 := h + t).
  set (x3 := (1 + v) * (1 + v) * tv3 * ((1 + v) * (1 + v) * tv3) * c4 + z).
  assert (I0 : (1 - v) * (1 + v) = 0 -> tv3 = 0).
  { intros E. unfold tv3. rewrite E. apply (inv_or_zero_0'). }
  assert (I1 : (1 - v) * (1 + v) <> 0 -> tv3 * ((1 - v) * (1 + v)) = 1).
  { intros E. exact (inv_or_zero_spec' _ E). }
  assert (KEY : ~ is_square o (g x1) -> ~ is_square o (g x2) -> is_square o (g x3)).
  { intros N1 N2'. destruct (feqb_dec o H ((1 - v) * (1 + v)) 0) as [E|E].
    - assert (Et : t = 0) by (unfold t; rewrite (I0 E); ring).
      assert (Ex1 : x1 = h) by (unfold x1; rewrite Et; ring).
      assert (Ex3 : x3 = z) by (unfold x3; rewrite (I0 E); ring).
      rewrite Ex3. destruct (Hexc h Eh) as [X|X]; [|exact X]. exfalso. apply N1. rewrite Ex1. exact X.
    - specialize (I1 E). clear I0.
      (* 1/(1+v) and 1/(1-v) *)
      set (p := tv3 * (1 - v)). set (m := tv3 * (1 + v)).
      assert (Ep : p * (1 + v) = 1) by (transitivity (tv3 * ((1 - v) * (1 + v))); [unfold p; ring|exact I1]).
      assert (Em : m * (1 - v) = 1) by (transitivity (tv3 * ((1 - v) * (1 + v))); [unfold m; ring|exact I1]).
      assert (Ett : t * t = - (v * T * (p * p))).
      { transitivity (u * u * (c3 * c3) * (p * p)); [unfold t, p; ring|]. rewrite Ec3. unfold v. ring. }
      set (s := (1 + v) * m). assert (Ex3 : x3 = c4 * (s * s) + z).
      { unfold x3, s, m. ring. }
      (* 4 q = T (1-v)^2/(1+v)^2 *)
      set (four := 1 + 1 + 1 + 1). set (d := (1 - v) * p).
      assert (Eds : d * s = 1).
      { unfold d, s. transitivity ((p * (1 + v)) * (m * (1 - v))); [ring|]. rewrite Ep, Em. ring. }
      assert (Eq4 : four * (t * t) + T = T * (d * d)).
      { rewrite Ett. unfold d.
        transitivity (T * (- (four * v * (p * p)) + (p * (1 + v)) * (p * (1 + v)))); [rewrite Ep; ring|].
        unfold four. ring. }
      assert (Zz : z = - (h + h)) by (rewrite Eh; ring).
      (* q := t^2 + 3 h^2 + A *)
      set (qq := t * t + (1 + 1 + 1) * (h * h) + a).
      assert (Eqq : four * qq = T * (d * d)).
      { rewrite <- Eq4. unfold qq, T, four. rewrite Zz. ring. }
      assert (Z4 : four <> 0).
      { unfold four. replace (1 + 1 + 1 + 1) with ((1 + 1) * (1 + 1)) by ring. apply (mul_nonzero o H); exact H2. }
      assert (Zd : d <> 0). { intros X. apply (fl_1_0 _ H). transitivity (d * s); [symmetry; exact Eds|]. rewrite X. ring. }
      assert (Gq : qq * (x3 - z) = - g z).
      { apply (mul_cancel_l o H four); [exact Z4|].
        transitivity ((four * qq) * (x3 - z)); [ring|]. rewrite Eqq, Ex3.
        transitivity ((c4 * T) * ((d * s) * (d * s))); [ring|]. rewrite Eds, Ec4. unfold four. ring. }
      assert (G1 : g x1 = qq * (x1 - x3)).
      { transitivity (qq * (x1 - z) - qq * (x3 - z)); [|ring]. rewrite Gq.
        unfold curve_rhs, qq, x1. rewrite Zz. ring. }
      assert (G2 : g x2 = qq * (x2 - x3)).
      { transitivity (qq * (x2 - z) - qq * (x3 - z)); [|ring]. rewrite Gq.
        unfold curve_rhs, qq, x2. rewrite Zz. ring. }
      assert (G3 : g x3 = (x3 - z) * ((x3 - x1) * (x3 - x2))).
      { transitivity ((x3 - z) * ((x3 - x1) * (x3 - x2)) + (qq * (x3 - z) + g z)); [|rewrite Gq; ring].
        unfold curve_rhs, qq, x1, x2. rewrite Zz. ring. }
      assert (S12 : is_square o (g x1 * g x2)) by (apply nonsq_mul; assumption).
      assert (Z12 : g x1 * g x2 <> 0) by (apply (mul_nonzero o H); apply nonsq_nz; assumption).
      assert (S3 : exists k, k * k = x3 - z).
      { exists ((1 + 1) * (c3 * i) * s).
        transitivity (four * (c3 * c3) * (i * i) * (s * s)); [unfold four; ring|].
        rewrite Ec3, Ex3. transitivity (- (four * g z) * (T * i) * i * (s * s)); [ring|].
        rewrite Ei. unfold c4, four. ring. }
      destruct S3 as (k & Ek).
      apply (square_quot (g x1 * g x2) (g x3) (qq * (x1 - x3) * (x2 - x3) * k) Z12 S12).
      rewrite G1, G2, G3, <- Ek. ring. }
  set (e1 := negb (qnr (g x1))). set (e2 := negb (qnr (g x2)) && negb e1).
  set (x := select (select x3 x1 e1) x2 e2).
  assert (Q : forall w, qnr w = true -> ~ is_square o w) by (intros w; apply HQ).
  assert (Q' : forall w, qnr w = false -> is_square o w).
  { intros w E. destruct (square_dec w) as [S|S]; [exact S|]. apply HQ in S. congruence. }
  assert (Hx : (is_square o (g x1) -> x = x1) /\ (~ is_square o (g x1) -> is_square o (g x2) -> x = x2)
    /\ (~ is_square o (g x1) -> ~ is_square o (g x2) -> x = x3) /\ is_square o (g x)).
  { unfold x, e2, e1. destruct (qnr (g x1)) eqn:E1; destruct (qnr (g x2)) eqn:E2; cbn [negb andb select].
    - specialize (Q _ E1) as N1. specialize (Q _ E2) as N2. pose proof (KEY N1 N2). tauto.
    - specialize (Q _ E1) as N1. specialize (Q' _ E2) as S2. tauto.
    - specialize (Q' _ E1) as S1. tauto.
    - specialize (Q' _ E1) as S1. tauto. }
  destruct Hx as (X1 & X2 & X3 & SX).
  destruct (HS (g x)) as [(r & -> & Er)|(_ & N)]; [|contradiction]. cbn [h_sqrt h_bind h_unwrap].
  set (y := select (- r) r (Bool.eqb (is_odd u) (is_odd r))).
  assert (Ey : y * y = g x).
  { rewrite <- Er. unfold y. destruct (Bool.eqb _ _); cbn [select]; ring. }
  rewrite (new_jacobian_one x y Ey). exists x, y. split; [reflexivity|]. split; [exact Ey|].
  exists tv3, c3, c4, h, x1, x2, x3. cbv zeta.
  split; [exact I0|]. split; [exact I1|]. split; [exact Ec3|]. split; [exact Ec4|].
  split; [exact Eh|]. split; [exists r3; unfold c3; destruct (is_odd r3); reflexivity|]. split; [reflexivity|]. split; [reflexivity|].
  split; [unfold x3; fold v; ring|]. split; [exact X1|]. split; [exact X2|]. split; [exact X3|].
  exists r. split; [exact Er|]. unfold y. destruct (Bool.eqb _ _); reflexivity.
Qed.
End Svdw.
End Sqrt.
End Maps.
