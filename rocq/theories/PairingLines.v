(** The steps of the Miller loop: running point and line. *)
From Verif Require Import Base Algebra Pow Tower TowerFacts SpecCurve SpecCurveFacts Curve CurveFacts CurveGroup Compute SpecPairing Pairing.
Local Open Scope Z_scope.

(** ** Twisting a curve: (x, y) -> (phi x u^2, phi y u^3) *)
Section Twist.
Context {F G : Type} (o : fops F) (o' : fops G) (H : field_laws o) (H' : field_laws o').
Context (phi : F -> G) (Hphi : fhom o o' phi) (u : G) (Hu : u <> f0 o').
Hypothesis T : fadd o (f1 o) (f1 o) <> f0 o.
Hypothesis T' : fadd o' (f1 o') (f1 o') <> f0 o'.
Context (b : F) (b' : G).
Infix "*" := (fmul o'). Infix "+" := (fadd o'). Infix "-" := (fsub o').
Hypothesis Hb : phi b * (u * u * u * (u * u * u)) = b'.
Let HR := fl_rl _ H. Let HR' := fl_rl _ H'.
Add Ring RT : (rl_ring _ HR').
Add Ring RT0 : (rl_ring _ HR).
Definition tau (P : point (F := F)) : point (F := G) :=
  match P with None => None | Some (x, y) => Some (phi x * (u * u), phi y * (u * u * u)) end.
Notation on := (on_curve o (f0 o) b). Notation on' := (on_curve o' (f0 o') b').
Notation add := (pt_add o (f0 o)). Notation add' := (pt_add o' (f0 o')).

Lemma phi_inj x y : phi x = phi y -> x = y.
Proof using H H' Hphi.
  intros E. destruct (feqb_dec o H x y) as [D|D]; [exact D|]. exfalso.
  assert (N : fsub o x y <> f0 o) by (apply (diff_nz o H); exact D).
  destruct (fl_inv _ H _ N) as (i & _ & I). apply (f_equal phi) in I.
  rewrite (fh_mul _ _ _ Hphi), (fh_sub _ _ _ Hphi), E, (fh_1 _ _ _ Hphi) in I.
  apply (fl_1_0 _ H'). rewrite <- I. clear -HR'. ring.
Qed.
Lemma u2_nz : u * u <> f0 o'.
Proof using H' Hu. apply (mul_nonzero o' H'); exact Hu. Qed.
Lemma u3_nz : u * u * u <> f0 o'.
Proof using H' Hu. apply (mul_nonzero o' H'); [exact u2_nz|exact Hu]. Qed.
Lemma tau_on P : on P -> on' (tau P).
Proof using Hphi Hb H'.
  destruct P as [[x y]|]; [|trivial]. cbn [on_curve tau]. intros E. apply (f_equal phi) in E.
  rewrite !(fh_add _ _ _ Hphi), !(fh_mul _ _ _ Hphi), (fh_0 _ _ _ Hphi) in E. rewrite <- Hb.
  transitivity (phi y * phi y * (u * u * u * (u * u * u))); [ring|]. rewrite E. ring.
Qed.
Lemma tau_inj P Q : tau P = tau Q -> P = Q.
Proof using H H' Hphi Hu.
  destruct P as [[x y]|], Q as [[x' y']|]; cbn [tau]; try discriminate; [|reflexivity].
  intros E. injection E as E1 E2. f_equal. f_equal; apply phi_inj.
  - apply (mul_cancel_l o' H' (u * u) _ _ u2_nz). transitivity (phi x * (u * u)); [ring|]. rewrite E1. ring.
  - apply (mul_cancel_l o' H' (u * u * u) _ _ u3_nz). transitivity (phi y * (u * u * u)); [ring|]. rewrite E2. ring.
Qed.
Lemma tau_neg P : tau (pt_neg o P) = pt_neg o' (tau P).
Proof using Hphi H'.
  destruct P as [[x y]|]; [|reflexivity]. cbn [tau pt_neg]. f_equal. f_equal. rewrite (fh_neg _ _ _ Hphi). ring.
Qed.
Lemma tau_opp x1 y1 x2 y2 : opp_pts o' (phi x1 * (u * u)) (phi y1 * (u * u * u)) (phi x2 * (u * u)) (phi y2 * (u * u * u)) ->
  opp_pts o x1 y1 x2 y2.
Proof using H H' Hphi Hu.
  intros (E1 & E2). split; apply phi_inj.
  - apply (mul_cancel_l o' H' (u * u) _ _ u2_nz). transitivity (phi x1 * (u * u)); [ring|]. rewrite E1. ring.
  - rewrite (fh_neg _ _ _ Hphi). apply (mul_cancel_l o' H' (u * u * u) _ _ u3_nz).
    transitivity (phi y1 * (u * u * u)); [ring|]. rewrite E2. ring.
Qed.
Lemma tau_slope l x1 y1 x2 y2 : slope o (f0 o) l x1 y1 x2 y2 ->
  slope o' (f0 o') (phi l * u) (phi x1 * (u * u)) (phi y1 * (u * u * u)) (phi x2 * (u * u)) (phi y2 * (u * u * u)).
Proof using Hphi H'.
  intros (A & B). apply (f_equal phi) in A. apply (f_equal phi) in B.
  rewrite !(fh_sub _ _ _ Hphi), !(fh_mul _ _ _ Hphi), !(fh_sub _ _ _ Hphi) in A.
  rewrite !(fh_mul _ _ _ Hphi), !(fh_add _ _ _ Hphi), !(fh_mul _ _ _ Hphi), (fh_0 _ _ _ Hphi) in B. split.
  - transitivity ((phi y1 - phi y2) * (u * u * u)); [ring|]. rewrite A. ring.
  - transitivity (phi l * (phi y1 + phi y2) * (u * u * (u * u))); [ring|]. rewrite B. ring.
Qed.
Lemma tau_add P Q : on P -> on Q -> tau (add P Q) = add' (tau P) (tau Q).
Proof using H H' Hphi Hu T T' Hb.
  intros hP hQ. pose proof (tau_on P hP) as hP'. pose proof (tau_on Q hQ) as hQ'.
  destruct P as [[x1 y1]|]; [|reflexivity].
  destruct Q as [[x2 y2]|]; [|cbn [tau]; rewrite !add_0_r; reflexivity].
  destruct (opp_dec o H x1 y1 x2 y2) as [O|N].
  - rewrite (add_opp o _ H _ _ _ _ O). cbn [tau]. destruct O as (-> & ->).
    rewrite (add_opp o' _ H'); [reflexivity|]. split; [reflexivity|]. rewrite (fh_neg _ _ _ Hphi). ring.
  - destruct (add_slope o _ b H T _ _ _ _ hP hQ N) as (l & S & ->).
    cbn [tau]. rewrite (add_of_slope o' (f0 o') b' H' T' (phi l * u)).
    + unfold pt_line. cbv zeta. cbn [tau]. f_equal. f_equal; rewrite ?(fh_sub _ _ _ Hphi), ?(fh_mul _ _ _ Hphi), ?(fh_sub _ _ _ Hphi), ?(fh_mul _ _ _ Hphi), ?(fh_sub _ _ _ Hphi), ?(fh_mul _ _ _ Hphi); ring.
    + exact hP'.
    + exact hQ'.
    + intros O. apply N. exact (tau_opp _ _ _ _ O).
    + exact (tau_slope _ _ _ _ _ S).
Qed.
Lemma tau_mulz k P : on P -> tau (pt_mulz o (f0 o) k P) = pt_mulz o' (f0 o') k (tau P).
Proof using H H' Hphi Hu T T' Hb.
  intros hP.
  assert (X : forall n, tau (pt_mul o (f0 o) n P) = pt_mul o' (f0 o') n (tau P)).
  { induction n as [|n IH]; [reflexivity|]. cbn [pt_mul].
    rewrite tau_add, IH; [reflexivity|exact hP|apply (mul_on o _ b H T); exact hP]. }
  destruct k as [|k|k]; cbn [pt_mulz]; [reflexivity|apply X|]. rewrite tau_neg, X. reflexivity.
Qed.
End Twist.

(** ** The value of the textbook line from a slope *)
Section LineSlope.
Context {E : Type} (o : fops E) (H : field_laws o) (a b : E).
Hypothesis T : fadd o (f1 o) (f1 o) <> f0 o.
Infix "*" := (fmul o). Infix "+" := (fadd o). Infix "-" := (fsub o).
Let HR := fl_rl _ H.
Add Ring RLS : (rl_ring _ HR).
Lemma line_of_slope l x1 y1 x2 y2 X Y :
  on_curve o a b (Some (x1, y1)) -> on_curve o a b (Some (x2, y2)) -> ~ opp_pts o x1 y1 x2 y2 -> slope o a l x1 y1 x2 y2 ->
  line o a (Some (x1, y1)) (Some (x2, y2)) X Y = Y - y1 - l * (X - x1).
Proof.
  intros h1 h2 N S. cbn [line]. destruct S as (A & B).
  destruct (feqb o x1 x2) eqn:Ex.
  - apply (fl_eqb _ H) in Ex. subst x2. destruct (feqb o y1 (fneg o y2)) eqn:Ey.
    { apply (fl_eqb _ H) in Ey. exfalso. apply N. split; [reflexivity|exact Ey]. }
    assert (Hy : y1 = y2). { apply (sub_zero_eq o H). rewrite A. ring. }
    subst y2. apply (feqb_false o H) in Ey.
    assert (D : (f1 o + f1 o) * y1 <> f0 o).
    { apply (mul_nonzero o H); [exact T|]. intros Y0. apply Ey. rewrite Y0. ring. }
    f_equal. f_equal. apply (mul_cancel_l o H _ _ _ D).
    transitivity (quot o ((f1 o + f1 o + f1 o) * (x1 * x1) + a) ((f1 o + f1 o) * y1) * ((f1 o + f1 o) * y1)); [ring|].
    rewrite (quot_mul o H _ _ D). transitivity (l * (y1 + y1)); [rewrite B; ring|ring].
  - apply (feqb_false o H) in Ex. assert (D : x2 - x1 <> f0 o) by (apply (diff_nz o H); congruence).
    f_equal. f_equal. apply (mul_cancel_l o H _ _ _ D).
    transitivity (quot o (y2 - y1) (x2 - x1) * (x2 - x1)); [ring|].
    rewrite (quot_mul o H _ _ D). transitivity (fneg o (y1 - y2)); [ring|]. rewrite A. ring.
Qed.
End LineSlope.

(** ** Jacobian coordinates and the two steps *)
Section Steps.
Context {G : Type} (o2 : fops G) (c : cconf G) (HC : curve_laws o2 c) (Ha : ca c = f0 o2).
Infix "*" := (fmul o2). Infix "+" := (fadd o2). Infix "-" := (fsub o2).
Notation "- x" := (fneg o2 x).
Let H := cl_field _ _ HC.
Let HR := fl_rl _ H.
Let H2 := cl_two _ _ HC.
Add Ring RST : (rl_ring _ HR).
Notation on := (on_curve o2 (ca c) (cb c)).
Notation add := (pt_add o2 (ca c)).
Definition jrep (r : proj G) (P : point (F := G)) : Prop :=
  on P /\ match P with
  | None => False
  | Some (x, y) => pz r <> f0 o2 /\ px r = x * (pz r * pz r) /\ py r = y * (pz r * pz r * pz r)
  end.
Lemma by_eq a b s t m : a - b = (s - t) * m -> s = t -> a = b.
Proof. intros E ->. apply (sub_zero_eq o2 H). rewrite E. ring. Qed.

(** The coefficients are a multiple of those of the line with slope [l] through (x, y). *)
Definition line_coeffs (cs : G * G * G) (k l x y : G) : Prop := cs = (k, - (k * l), k * (l * x - y)).

Lemma double_line r x y : jrep r (Some (x, y)) -> exists k l, k <> f0 o2 /\ slope o2 (ca c) l x y x y /\ ~ opp_pts o2 x y x y
  /\ line_coeffs (fst (double_coeffs o2 r)) k l x y
  /\ jrep (snd (double_coeffs o2 r)) (add (Some (x, y)) (Some (x, y))).
Proof.
  intros (O & Zn & EX & EY). pose proof (no_y0 o2 c HC x y O) as Y0.
  assert (N : ~ opp_pts o2 x y x y).
  { intros (_ & E). apply (dbl_nz o2 H H2 y Y0). rewrite E at 1. ring. }
  destruct (add_slope o2 (ca c) (cb c) H H2 x y x y O O N) as (l & S & EA).
  destruct r as [X Y z]. cbn [px py pz] in *. subst X Y.
  set (tw := f1 o2 + f1 o2).
  assert (ES : (f1 o2 + f1 o2 + f1 o2) * (x * x) = tw * y * l).
  { destruct S as (_ & S). rewrite Ha in S. transitivity (l * (y + y)); [rewrite S; ring|unfold tw; ring]. }
  assert (K : tw * tw * (y * (z * z * z)) * (z * z * z) <> f0 o2).
  { repeat (apply (mul_nonzero o2 H)); assumption. }
  exists (tw * tw * (y * (z * z * z)) * (z * z * z)), l.
  split; [exact K|]. split; [exact S|]. split; [exact N|]. split.
  - unfold line_coeffs, double_coeffs. cbn [fst px py pz]. cbv zeta. rewrite !(rl_sqr _ HR).
    f_equal; [f_equal|].
    + unfold tw. ring.
    + match goal with |- ?a = ?b => apply (by_eq a b ((f1 o2 + f1 o2 + f1 o2) * (x * x)) (tw * y * l) (- (tw * (z * z) * (z * z) * (z * z)))); [unfold tw; ring|exact ES] end.
    + match goal with |- ?a = ?b => apply (by_eq a b ((f1 o2 + f1 o2 + f1 o2) * (x * x)) (tw * y * l) (tw * x * ((z * z) * (z * z) * (z * z)))); [unfold tw; ring|exact ES] end.
  - split; [apply (add_on o2 _ _ H H2); exact O|]. rewrite EA. unfold pt_line. unfold double_coeffs. cbn [snd px py pz]. cbv zeta.
    rewrite !(rl_sqr _ HR). split; [|split].
    + assert (Z' : tw * (y * (z * z * z)) * z <> f0 o2) by (repeat (apply (mul_nonzero o2 H)); assumption).
      intros E. apply Z'. rewrite <- E. unfold tw. ring.
    + match goal with |- ?a = ?b => apply (by_eq a b ((f1 o2 + f1 o2 + f1 o2) * (x * x)) (tw * y * l)
        (((f1 o2 + f1 o2 + f1 o2) * (x * x) + tw * y * l) * ((z * z) * (z * z) * (z * z) * (z * z)))); [unfold tw; ring|exact ES] end.
    + match goal with |- ?a = ?b => apply (by_eq a b ((f1 o2 + f1 o2 + f1 o2) * (x * x)) (tw * y * l)
        ((tw * tw * (f1 o2 + f1 o2 + f1 o2) * x * (y * y) - ((f1 o2 + f1 o2 + f1 o2) * (x * x)) * ((f1 o2 + f1 o2 + f1 o2) * (x * x))
          - ((f1 o2 + f1 o2 + f1 o2) * (x * x)) * (tw * y * l) - (tw * y * l) * (tw * y * l))
         * ((z * z) * (z * z) * (z * z) * (z * z) * (z * z) * (z * z)))); [unfold tw; ring|exact ES] end.
Qed.
Lemma add_line r x1 y1 q : jrep r (Some (x1, y1)) -> on (Some (ax q, ay q)) -> x1 <> ax q ->
  exists k l, k <> f0 o2 /\ slope o2 (ca c) l x1 y1 (ax q) (ay q)
  /\ line_coeffs (fst (add_coeffs o2 r q)) k l (ax q) (ay q)
  /\ jrep (snd (add_coeffs o2 r q)) (add (Some (x1, y1)) (Some (ax q, ay q))).
Proof.
  intros (O & Zn & EX & EY) Oq D. destruct q as [x2 y2]. cbn [ax ay] in *.
  assert (N : ~ opp_pts o2 x1 y1 x2 y2) by (intros (E & _); exact (D E)).
  destruct (add_slope o2 (ca c) (cb c) H H2 x1 y1 x2 y2 O Oq N) as (l & S & EA).
  destruct r as [X Y z]. cbn [px py pz] in *. subst X Y.
  set (tw := f1 o2 + f1 o2).
  assert (ES : y1 = y2 + l * (x1 - x2)). { destruct S as (S & _). rewrite <- S. ring. }
  assert (D' : x2 - x1 <> f0 o2) by (apply (diff_nz o2 H); congruence).
  exists (tw * tw * (z * z * z) * (x2 - x1)), l. split; [|split; [exact S|split]].
  - repeat (apply (mul_nonzero o2 H)); assumption.
  - unfold line_coeffs, add_coeffs. cbn [fst px py pz ax ay]. cbv zeta. rewrite !(rl_sqr _ HR).
    f_equal; [f_equal|].
    + unfold tw. ring.
    + rewrite ES. unfold tw. ring.
    + rewrite ES. unfold tw. ring.
  - split; [apply (add_on o2 _ _ H H2); assumption|]. rewrite EA. unfold pt_line. unfold add_coeffs. cbn [snd px py pz ax ay]. cbv zeta.
    rewrite !(rl_sqr _ HR). split; [|split].
    + assert (Z' : tw * (z * z * z) * (x2 - x1) <> f0 o2) by (repeat (apply (mul_nonzero o2 H)); assumption).
      intros E. apply Z'. rewrite <- E. unfold tw. ring.
    + rewrite ES. ring.
    + rewrite ES. ring.
Qed.
End Steps.

(** ** The loop of one term *)
Section Loop.
Context {F G E : Type} (o2 : fops G) (c : cconf G) (HC : curve_laws o2 c) (Ha : ca c = f0 o2).
Context (o12 : fops E) (H12 : field_laws o12) (T12 : fadd o12 (f1 o12) (f1 o12) <> f0 o12).
Context (phi : G -> E) (Hphi : fhom o2 o12 phi) (u : E) (Hu : u <> f0 o12).
Context (b12 : E).
Hypothesis Hb : fmul o12 (phi (cb c)) (fmul o12 (fmul o12 (fmul o12 u u) u) (fmul o12 (fmul o12 u u) u)) = b12.
Context (ell : E -> G * G * G -> aff F -> E) (sp : G * G * G -> aff F -> E).
Hypothesis Hell : forall f cs p, ell f cs p = fmul o12 f (sp cs p).
Context (K : E -> Prop) (K1 : K (f1 o12)) (Kmul : forall a b, K a -> K b -> K (fmul o12 a b)).
Context (p : aff F) (X Y : E).
Hypothesis Hsp : forall k l x y, k <> f0 o2 -> exists kap, K kap /\
  sp (k, fneg o2 (fmul o2 k l), fmul o2 k (fsub o2 (fmul o2 l x) y)) p <> f0 o12 /\
  sp (k, fneg o2 (fmul o2 k l), fmul o2 k (fsub o2 (fmul o2 l x) y)) p =
  fmul o12 kap (fsub o12 (fsub o12 Y (fmul o12 (phi y) (fmul o12 (fmul o12 u u) u)))
    (fmul o12 (fmul o12 (phi l) u) (fsub o12 X (fmul o12 (phi x) (fmul o12 u u))))).
Context (q : aff G) (r : Z) (Hr : prime r).
Notation on := (on_curve o2 (ca c) (cb c)).
Notation add := (pt_add o2 (ca c)).
Notation mulz := (pt_mulz o2 (ca c)).
Notation Q := (Some (ax q, ay q)).
Hypothesis OQ : on Q.
Hypothesis RQ : mulz r Q = None.
Let H := cl_field _ _ HC.
Let H2 := cl_two _ _ HC.
Let HR := fl_rl _ H12.
Let HR2 := fl_rl _ H.
Add Ring RLO : (rl_ring _ HR).
Add Ring RLO2 : (rl_ring _ HR2).
Notation tau := (tau o12 phi u).
Notation line := (line o12 (f0 o12)).
Notation add12 := (pt_add o12 (f0 o12)).

Lemma same_x x y y' : on (Some (x, y)) -> on (Some (x, y')) -> y = y' \/ y = fneg o2 y'.
Proof.
  cbn [on_curve]. intros A B. clear - A B HR2 H. 
  destruct (mul_integral o2 H (fsub o2 y y') (fadd o2 y y')) as [E0|E0].
  - transitivity (fsub o2 (fmul o2 y y) (fmul o2 y' y')); [ring|]. rewrite A, B. ring.
  - left. apply (sub_zero_eq o2 H). exact E0.
  - right. apply (sub_zero_eq o2 H). rewrite <- E0. ring.
Qed.
Lemma mulz_neq m n : (m - n) mod r <> 0 -> mulz m Q <> mulz n Q.
Proof.
  intros N E0. apply N. apply Z.mod_divide; [exact (fun e => not_prime_0 (eq_ind _ prime Hr _ e))|].
  apply (mulz_order o2 c HC r Q OQ Hr ltac:(discriminate) RQ).
  unfold Z.sub. rewrite (mulz_add o2 c HC) by exact OQ. rewrite (mulz_opp o2 c HC) by exact OQ. rewrite E0.
  apply (add_neg o2 (ca c) H).
Qed.
Lemma x_neq m n x1 y1 x2 y2 : mulz m Q = Some (x1, y1) -> mulz n Q = Some (x2, y2) ->
  (m - n) mod r <> 0 -> (m + n) mod r <> 0 -> x1 <> x2.
Proof.
  intros E1 E2 N1 N2 Ex. subst x2.
  pose proof (mulz_on o2 c HC m _ OQ) as O1. pose proof (mulz_on o2 c HC n _ OQ) as O2. rewrite E1 in O1. rewrite E2 in O2.
  destruct (same_x _ _ _ O1 O2) as [Ey | Ey].
  - apply (mulz_neq m n N1). rewrite E1, E2, Ey. reflexivity.
  - apply (mulz_neq m (- n)). { replace (m - - n) with (m + n) by ring. exact N2. }
    rewrite (mulz_opp o2 c HC) by exact OQ. rewrite E1, E2, Ey. reflexivity.
Qed.

Definition inv (n : Z) (f : E) (rr : proj G) (fs : E) (T : point (F := E)) : Prop :=
  (f <> f0 o12 /\ exists kap, K kap /\ f = fmul o12 fs kap) /\ jrep o2 c rr (mulz n Q) /\ T = tau (mulz n Q).

Lemma on0 P : on P -> on_curve o2 (f0 o2) (cb c) P.
Proof. rewrite <- Ha. trivial. Qed.
Lemma tau_on' P : on P -> on_curve o12 (f0 o12) b12 (tau P).
Proof. intros O. apply (tau_on o2 o12 H12 phi Hphi u (cb c) b12 Hb). apply on0. exact O. Qed.
Lemma tau_add' P R : on P -> on R -> tau (add P R) = add12 (tau P) (tau R).
Proof.
  intros O1 O2. rewrite Ha. apply (tau_add o2 o12 H H12 phi Hphi u Hu H2 T12 (cb c) b12 Hb); apply on0; assumption.
Qed.

Lemma step_double n f rr fs T : inv n f rr fs T ->
  inv (n + n) (fst (double_step o2 ell f rr (p, q))) (snd (double_step o2 ell f rr (p, q)))
    (fmul o12 fs (line T T X Y)) (add12 T T).
Proof.
  intros ((Nf & kap & Kk & Ef) & J & ->). pose proof (mulz_on o2 c HC n _ OQ) as On.
  destruct (mulz n Q) as [[x y]|] eqn:En; [|destruct J as (_ & [])].
  destruct (double_line o2 c HC Ha rr x y J) as (k & l & Kn & S & N & LC & J').
  unfold double_step, miller_double. cbn [fst].
  destruct (double_coeffs o2 rr) as [cs rr'] eqn:Ed. cbn [fst snd] in *.
  split; [|split].
  - destruct (Hsp k l x y Kn) as (kap' & Kk' & Ns & Es). split; [rewrite Hell, LC; apply (mul_nonzero o12 H12); assumption|].
    exists (fmul o12 kap kap'). split; [apply Kmul; assumption|].
    rewrite Hell, LC, Es, Ef. cbn [PairingLines.tau].
    rewrite (line_of_slope o12 H12 (f0 o12) b12 T12 (fmul o12 (phi l) u)).
    + ring.
    + exact (tau_on' _ On).
    + exact (tau_on' _ On).
    + intros O. apply N. exact (tau_opp o2 o12 H H12 phi Hphi u Hu _ _ _ _ O).
    + apply (tau_slope o2 o12 H12 phi Hphi u). rewrite Ha in S. exact S.
  - rewrite (mulz_add o2 c HC) by exact OQ. rewrite En. exact J'.
  - rewrite (mulz_add o2 c HC) by exact OQ. rewrite En. symmetry. apply tau_add'; exact On.
Qed.

Lemma step_add n m h f rr fs T : inv n f rr fs T -> Some (ax (h q), ay (h q)) = mulz m Q ->
  (n - m) mod r <> 0 -> (n + m) mod r <> 0 ->
  inv (n + m) (fst (add_step o2 ell h f rr (p, q))) (snd (add_step o2 ell h f rr (p, q)))
    (fmul o12 fs (line T (tau (mulz m Q)) X Y)) (add12 T (tau (mulz m Q))).
Proof.
  intros ((Nf & kap & Kk & Ef) & J & ->) Eh N1 N2. pose proof (mulz_on o2 c HC n _ OQ) as On. pose proof (mulz_on o2 c HC m _ OQ) as Om.
  destruct (mulz n Q) as [[x y]|] eqn:En; [|destruct J as (_ & [])].
  pose proof (x_neq n m x y (ax (h q)) (ay (h q)) En (eq_sym Eh) N1 N2) as D.
  rewrite <- Eh in *.
  destruct (add_line o2 c HC rr x y (h q) J Om D) as (k & l & Kn & S & LC & J').
  unfold add_step, miller_add. cbn [fst snd].
  destruct (add_coeffs o2 rr (h q)) as [cs rr'] eqn:Ed. cbn [fst snd] in *.
  split; [|split].
  - destruct (Hsp k l (ax (h q)) (ay (h q)) Kn) as (kap' & Kk' & Ns & Es). split; [rewrite Hell, LC; apply (mul_nonzero o12 H12); assumption|].
    exists (fmul o12 kap kap'). split; [apply Kmul; assumption|].
    rewrite Hell, LC, Es, Ef. cbn [PairingLines.tau].
    pose proof (tau_slope o2 o12 H12 phi Hphi u l x y (ax (h q)) (ay (h q))) as S'. rewrite Ha in S. specialize (S' S).
    rewrite (line_of_slope o12 H12 (f0 o12) b12 T12 (fmul o12 (phi l) u)).
    + destruct S' as (S' & _).
      set (x' := fmul o12 (phi x) _) in *. set (y' := fmul o12 (phi y) _) in *.
      set (x2' := fmul o12 (phi (ax (h q))) _) in *. set (y2' := fmul o12 (phi (ay (h q))) _) in *.
      set (l' := fmul o12 (phi l) u) in *.
      assert (EL : fsub o12 (fsub o12 Y y2') (fmul o12 l' (fsub o12 X x2')) = fsub o12 (fsub o12 Y y') (fmul o12 l' (fsub o12 X x'))).
      { transitivity (fadd o12 (fsub o12 (fsub o12 Y y') (fmul o12 l' (fsub o12 X x2'))) (fsub o12 y' y2')); [ring|]. rewrite S'. ring. }
      rewrite EL. ring.
    + exact (tau_on' _ On).
    + exact (tau_on' _ Om).
    + intros O. apply D. exact (proj1 (tau_opp o2 o12 H H12 phi Hphi u Hu _ _ _ _ O)).
    + exact S'.
  - rewrite (mulz_add o2 c HC) by exact OQ. rewrite En, <- Eh. exact J'.
  - rewrite (mulz_add o2 c HC) by exact OQ. rewrite En, <- Eh. symmetry. apply tau_add'; assumption.
Qed.

(** No step of the loop meets an exceptional case; the final multiple. *)
Fixpoint digits_ok (n : Z) (ds : list Z) : option Z :=
  match ds with
  | [] => Some n
  | d :: ds' =>
    let m := n + n in
    if (d =? 1) || (d =? -1) then
      if negb ((m - 1) mod r =? 0) && negb ((m + 1) mod r =? 0) then digits_ok (m + d) ds' else None
    else digits_ok m ds'
  end.

Lemma for_one (step : E -> proj G -> term -> E * proj G) (t : term (F := F) (G := G)) f rr :
  for_terms step [t] f [rr] = (fst (step f rr t), [snd (step f rr t)]).
Proof. cbn [for_terms]. destruct (step f rr t) as [f' r']. reflexivity. Qed.

Lemma loop_inv ds : forall n N first f rr fs T, digits_ok n ds = Some N ->
  inv n f rr fs T -> (first = true -> fs = f1 o12) ->
  exists f' rr', digit_loop o2 o12 ell first ds [(p, q)] f [rr] = (f', [rr'])
  /\ inv N f' rr' (fst (miller_digits o12 (f0 o12) ds (tau Q) X Y fs T)) (snd (miller_digits o12 (f0 o12) ds (tau Q) X Y fs T)).
Proof.
  induction ds as [|d ds IH]; intros n N first f rr fs T C I Fi.
  - cbn [digits_ok] in C. injection C as <-. exists f, rr. split; [reflexivity|]. exact I.
  - cbn [digits_ok] in C. cbv zeta in C.
    assert (I0 : inv n (if first then f else fsqr o12 f) rr (fmul o12 fs fs) T).
    { destruct I as ((Nf & kap & Kk & Ef) & J & ET). split; [split|split; assumption].
      { destruct first; [exact Nf|]. rewrite (rl_sqr _ HR). apply (mul_nonzero o12 H12); exact Nf. } destruct first.
      - exists kap. split; [exact Kk|]. rewrite Ef, (Fi eq_refl). ring.
      - exists (fmul o12 kap kap). split; [apply Kmul; exact Kk|]. rewrite (rl_sqr _ HR), Ef. ring. }
    pose proof (step_double _ _ _ _ _ I0) as I1. clear I0.
    cbn [digit_loop]. rewrite for_one. cbn [miller_digits]. cbv zeta.
    destruct (double_step o2 ell (if first then f else fsqr o12 f) rr (p, q)) as [f1 rr1]. cbn [fst snd] in *.
    destruct (d =? 1) eqn:D1; [|destruct (d =? -1) eqn:D2].
    + apply Z.eqb_eq in D1. subst d. cbn [orb] in C.
      destruct (negb ((n + n - 1) mod r =? 0)) eqn:C1; [|discriminate C]. destruct (negb ((n + n + 1) mod r =? 0)) eqn:C2; [|discriminate C].
      cbn [andb] in C. apply negb_true_iff, Z.eqb_neq in C1, C2.
      pose proof (step_add _ 1 (fun q => q) _ _ _ _ I1 (eq_sym (mulz_1 o2 c HC _ OQ)) C1 C2) as I2.
      rewrite (mulz_1 o2 c HC _ OQ) in I2. rewrite for_one.
      destruct (add_step o2 ell (fun q => q) f1 rr1 (p, q)) as [f2 rr2]. cbn [fst snd] in *.
      apply (IH _ N false _ _ _ _ C I2). discriminate.
    + apply Z.eqb_eq in D2. subst d. cbn [orb] in C.
      destruct (negb ((n + n - 1) mod r =? 0)) eqn:C1; [|discriminate C]. destruct (negb ((n + n + 1) mod r =? 0)) eqn:C2; [|discriminate C].
      cbn [andb] in C. apply negb_true_iff, Z.eqb_neq in C1, C2.
      assert (EN : mulz (-1) Q = pt_neg o2 Q).
      { change (-1) with (- (1)). rewrite (mulz_opp o2 c HC) by exact OQ. rewrite (mulz_1 o2 c HC _ OQ). reflexivity. }
      assert (EA : Some (ax (aff_neg o2 q), ay (aff_neg o2 q)) = mulz (-1) Q) by (rewrite EN; reflexivity).
      pose proof (step_add _ (-1) (aff_neg o2) _ _ _ _ I1 EA) as I2.
      replace (n + n - -1) with (n + n + 1) in I2 by ring. change (n + n + -1) with (n + n - 1) in I2. specialize (I2 C2 C1).
      rewrite EN in I2. rewrite (tau_neg o2 o12 H12 phi Hphi u) in I2. rewrite for_one.
      destruct (add_step o2 ell (aff_neg o2) f1 rr1 (p, q)) as [f2 rr2]. cbn [fst snd] in *.
      change (n + n + -1) with (n + n - 1) in C.
      apply (IH _ N false _ _ _ _ C I2). discriminate.
    + cbn [orb] in C. apply (IH _ N false _ _ _ _ C I1). discriminate.
Qed.

Lemma inv_start : inv 1 (f1 o12) (to_curve o2 q) (f1 o12) (tau Q).
Proof.
  split; [|split].
  - split; [exact (fl_1_0 _ H12)|]. exists (f1 o12). split; [exact K1|]. ring.
  - rewrite (mulz_1 o2 c HC _ OQ). split; [exact OQ|].
    assert (Z1 : to_curve o2 q = mk_proj (ax q) (ay q) (f1 o2)).
    { unfold to_curve. destruct (aff_is_identity o2 q) eqn:EI; [|reflexivity]. exfalso.
      pose proof (no_y0 o2 c HC _ _ OQ) as Y0. apply Y0.
      unfold aff_is_identity in EI. apply andb_prop in EI as (_ & EI). apply (cl_is0 _ _ HC). exact EI. }
    rewrite Z1. cbn [px py pz]. split; [exact (fl_1_0 _ H)|]. split; ring.
  - rewrite (mulz_1 o2 c HC _ OQ). reflexivity.
Qed.

Lemma live_q (o : fops F) : aff_is_identity o p = false -> live o o2 (p, q) = true.
Proof.
  intros EP. unfold live. cbn [fst snd]. rewrite EP. cbn [orb].
  destruct (aff_is_identity o2 q) eqn:EI; [|reflexivity]. exfalso.
  pose proof (no_y0 o2 c HC _ _ OQ) as Y0. apply Y0.
  unfold aff_is_identity in EI. apply andb_prop in EI as (_ & EI). apply (cl_is0 _ _ HC). exact EI.
Qed.

Theorem bls_loop_spec (o : fops F) bits conj N : aff_is_identity o p = false -> digits_ok 1 (skipn 1 bits) = Some N ->
  exists kap, K kap /\ fmul o12 (miller_function o12 (f0 o12) (skipn 1 bits) (tau Q) X Y) kap <> f0 o12 /\
    bls_miller_loop o o2 o12 ell bits conj [(p, q)] =
    conj (fmul o12 (miller_function o12 (f0 o12) (skipn 1 bits) (tau Q) X Y) kap).
Proof.
  intros EP C. unfold bls_miller_loop. cbn [filter]. rewrite (live_q o EP). unfold start. cbv iota. cbn [map snd].
  destruct (loop_inv _ 1 N true _ _ _ _ C inv_start ltac:(reflexivity)) as (f' & rr' & EL & ((Nf & kap & Kk & Ef) & _)).
  exists kap. split; [exact Kk|]. split; [rewrite Ef in Nf; exact Nf|]. cbv zeta. unfold term; rewrite EL, Ef. reflexivity.
Qed.
Theorem bn_loop_spec (o : fops F) naf h1 h2 m1 m2 N : aff_is_identity o p = false ->
  digits_ok 1 (skipn 1 (rev naf)) = Some N ->
  Some (ax (h1 q), ay (h1 q)) = mulz m1 Q -> Some (ax (h2 q), ay (h2 q)) = mulz m2 Q ->
  (N - m1) mod r <> 0 -> (N + m1) mod r <> 0 -> (N + m1 - m2) mod r <> 0 -> (N + m1 + m2) mod r <> 0 ->
  exists kap, K kap /\ bn_miller_loop o o2 o12 ell naf h1 h2 [(p, q)] <> f0 o12 /\
    bn_miller_loop o o2 o12 ell naf h1 h2 [(p, q)] =
    fmul o12 (miller_function_bn o12 (f0 o12) (skipn 1 (rev naf)) (tau Q)
      (tau (Some (ax (h1 q), ay (h1 q)))) (tau (Some (ax (h2 q), ay (h2 q)))) X Y) kap.
Proof.
  intros EP C E1 E2 N1 N2 N3 N4. unfold bn_miller_loop. cbn [filter]. rewrite (live_q o EP). unfold start. cbv iota. cbn [map snd].
  destruct (loop_inv _ 1 N true _ _ _ _ C inv_start ltac:(reflexivity)) as (f' & rr' & EL & I).
  cbv zeta. unfold term. rewrite EL. unfold miller_function_bn.
  destruct (miller_digits o12 (f0 o12) (skipn 1 (rev naf)) (tau Q) X Y (f1 o12) (tau Q)) as [fs T]. cbn [fst snd] in I.
  pose proof (step_add _ m1 h1 _ _ _ _ I E1 N1 N2) as I1. rewrite for_one.
  destruct (add_step o2 ell h1 f' rr' (p, q)) as [f1' rr1]. cbn [fst snd] in *.
  pose proof (step_add _ m2 h2 _ _ _ _ I1 E2 N3 N4) as I2. rewrite for_one.
  destruct (add_step o2 ell h2 f1' rr1 (p, q)) as [f2' rr2]. cbn [fst snd] in *.
  destruct I2 as ((Nf & kap & Kk & Ef) & _). exists kap. split; [exact Kk|]. split; [exact Nf|]. rewrite E1, E2. exact Ef.
Qed.
End Loop.
