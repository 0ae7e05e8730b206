(** Cofactor clearing and subgroup tests: the endomorphisms as elements of Z[t]/(t^4-t^2+1). *)
From Verif Require Import Base Algebra Pow TowerFacts SpecField BytesFacts Group SpecCurve SpecCurveFacts Curve CurveFacts CurveGroup
  Compute PairingParams SpecPairing PairingLines Cofactor.
Local Open Scope Z_scope.

(** ** A group endomorphism [h] with h^4 - h^2 + 1 = 0 *)
Definition quart : Type := Z * Z * Z * Z.
Definition qt_add (a b : quart) : quart :=
  let '(a0, a1, a2, a3) := a in let '(b0, b1, b2, b3) := b in (a0 + b0, a1 + b1, a2 + b2, a3 + b3).
Definition qt_scale (k : Z) (a : quart) : quart := let '(a0, a1, a2, a3) := a in (k * a0, k * a1, k * a2, k * a3).
(** multiplication by t *)
Definition qt_shift (a : quart) : quart := let '(a0, a1, a2, a3) := a in (- a3, a0, a1 + a3, a2).
Definition qt_mul (b a : quart) : quart :=
  let '(b0, b1, b2, b3) := b in
  qt_add (qt_scale b0 a) (qt_add (qt_scale b1 (qt_shift a))
    (qt_add (qt_scale b2 (qt_shift (qt_shift a))) (qt_scale b3 (qt_shift (qt_shift (qt_shift a)))))).
(** the value at t = l *)
Definition qt_eval (l : Z) (a : quart) : Z := let '(a0, a1, a2, a3) := a in a0 + l * (a1 + l * (a2 + l * a3)).

Section Act.
Context {G : Type} (g : gops G) (L : grp_laws g) (h : G -> G).
Hypothesis h_add : forall P Q, h (gadd g P Q) = gadd g (h P) (h Q).
Hypothesis h4 : forall P, gadd g (h (h (h (h P)))) P = h (h P).
Infix "+" := (gadd g). Notation "- x" := (gneg g x). Notation "0" := (g0 g).
Notation mul := (gmul g).
Definition act (a : quart) (P : G) : G :=
  let '(a0, a1, a2, a3) := a in (mul a0 P + mul a1 (h P)) + (mul a2 (h (h P)) + mul a3 (h (h (h P)))).

Lemma h_0 : h 0 = 0.
Proof. apply (g_cancel_l _ L (h 0)). rewrite <- h_add, (gl_0 _ L), (g_0_r _ L). reflexivity. Qed.
Lemma h_neg P : h (- P) = - h P.
Proof. apply (g_neg_unique _ L). rewrite <- h_add, (gl_neg _ L). exact h_0. Qed.
Lemma h_mul k P : h (mul k P) = mul k (h P).
Proof.
  assert (N : forall n, h (gmul_nat g n P) = gmul_nat g n (h P)).
  { induction n as [|n IH]; [exact h_0|]. cbn [gmul_nat]. rewrite h_add, IH. reflexivity. }
  destruct k as [|k|k]; cbn [gmul]; [exact h_0|apply N|]. rewrite h_neg, N. reflexivity.
Qed.
Lemma act_gadd a P Q : act a (P + Q) = act a P + act a Q.
Proof.
  destruct a as [[[a0 a1] a2] a3]. cbn [act]. rewrite !h_add, !(gmul_gadd _ L).
  rewrite (g_swap _ L (mul a0 P) (mul a0 Q)), (g_swap _ L (mul a2 (h (h P))) (mul a2 (h (h Q)))).
  apply (g_swap _ L).
Qed.
Lemma act_add a b P : act a P + act b P = act (qt_add a b) P.
Proof.
  destruct a as [[[a0 a1] a2] a3], b as [[[b0 b1] b2] b3]. cbn [act qt_add]. rewrite !(gmul_add _ L).
  rewrite (g_swap _ L (mul a0 P + mul a1 (h P))).
  rewrite (g_swap _ L (mul a0 P)), (g_swap _ L (mul a2 _)). reflexivity.
Qed.
Lemma act_scale k a P : mul k (act a P) = act (qt_scale k a) P.
Proof. destruct a as [[[a0 a1] a2] a3]. cbn [act qt_scale]. rewrite !(gmul_gadd _ L), <- !(gmul_mul _ L). reflexivity. Qed.
Lemma act_neg a P : - act a P = act (qt_scale (-1) a) P.
Proof. rewrite <- act_scale, (gmul_neg1 _ L). reflexivity. Qed.
Lemma act_shift a P : h (act a P) = act (qt_shift a) P.
Proof.
  destruct a as [[[a0 a1] a2] a3]. cbn [act qt_shift]. rewrite !h_add, !h_mul.
  assert (E : mul a3 (h (h (h (h P)))) = mul (Z.opp a3) P + mul a3 (h (h P))).
  { pose proof (f_equal (mul a3) (h4 P)) as E. rewrite (gmul_gadd _ L) in E. rewrite <- E, (gmul_opp _ L).
    rewrite (gl_comm _ L (mul a3 (h (h (h (h P))))) (mul a3 P)), <- (gl_assoc _ L), (g_neg_l _ L), (gl_0 _ L). reflexivity. }
  rewrite E, (gmul_add _ L).
  set (A := mul a0 (h P)). set (B := mul a1 (h (h P))). set (C := mul a2 (h (h (h P)))).
  set (D := mul (Z.opp a3) P). set (X := mul a3 (h (h P))).
  assert (S1 : A + B + (C + (D + X)) = gsum g [A; B; C; D; X]).
  { cbn [gsum fold_right]. rewrite (g_0_r _ L), (gl_assoc _ L). reflexivity. }
  assert (S2 : D + A + (B + X + C) = gsum g [D; A; B; X; C]).
  { cbn [gsum fold_right]. rewrite (g_0_r _ L), !(gl_assoc _ L). reflexivity. }
  rewrite S1, S2. apply (gsum_perm _ L).
  apply Permutation_sym. apply (Permutation_cons_app [A; B; C] [X] D). cbn [app].
  apply perm_skip, perm_skip, perm_swap.
Qed.
Lemma act_mul b a P : act b (act a P) = act (qt_mul b a) P.
Proof.
  destruct b as [[[b0 b1] b2] b3]. cbn [act qt_mul]. rewrite !act_shift, !act_scale, !act_add.
  destruct a as [[[a0 a1] a2] a3]. cbn [qt_add qt_scale qt_shift]. f_equal. do 3 (apply f_equal2; [|ring]). ring.
Qed.
Lemma act_int k P : act (k, 0%Z, 0%Z, 0%Z) P = mul k P.
Proof. cbn [act]. rewrite !(gmul_0 g), !(g_0_r _ L). reflexivity. Qed.
Lemma act_id P : act (1%Z, 0%Z, 0%Z, 0%Z) P = P.
Proof. rewrite act_int. apply (gmul_1 _ L). Qed.
Lemma act_h P : act (0%Z, 1%Z, 0%Z, 0%Z) P = h P.
Proof. cbn [act]. rewrite !(gmul_0 g), (gmul_1 _ L), !(g_0_r _ L), (gl_0 _ L). reflexivity. Qed.
(** On a subgroup where [h] is multiplication by [l] *)
Lemma act_eval l a P : (forall k, h (mul k P) = mul l (mul k P)) -> act a P = mul (qt_eval l a) P.
Proof.
  intros E. destruct a as [[[a0 a1] a2] a3]. cbn [act qt_eval].
  assert (E1 : h P = mul l P) by (rewrite <- (gmul_1 _ L P) at 1; rewrite E, <- (gmul_mul _ L); f_equal; lia).
  assert (E2 : forall k, mul l (mul k P) = mul (l * k)%Z P) by (intros k; rewrite <- (gmul_mul _ L); reflexivity).
  rewrite E1, !E, !E2, !E, !E2, <- !(gmul_mul _ L), <- !(gmul_add _ L). f_equal. ring.
Qed.
End Act.

(** ** Double-and-add loops *)
Section Loops.
Context {F : Type} (o : fops F) (c : cconf F) (HC : curve_laws o c).
Notation mulz := (pt_mulz o (ca c)). Notation rep := (prep o c).
Notation add := (pt_add o (ca c)).
Lemma dbl_mulz acc k P : on_curve o (ca c) (cb c) P -> rep acc (mulz k P) -> rep (proj_double o c acc) (mulz (2 * k) P).
Proof. intros O E. replace (2 * k) with (k + k) by lia. rewrite (mulz_add o c HC) by exact O. apply (double_repr o c HC). exact E. Qed.
Lemma add_mulz acc p k P : rep p P -> rep acc (mulz k P) -> rep (proj_add o c acc p) (mulz (k + 1) P).
Proof.
  intros Ep E. rewrite (mulz_add o c HC), (mulz_1 o c HC) by apply Ep. apply (add_repr o c HC); assumption.
Qed.
Lemma mul_by_x_loop_repr p P : rep p P -> forall ds acc k, Forall (fun d => d = 0 \/ d = 1) ds -> rep acc (mulz k P) ->
  rep (mul_by_x_loop o c p false ds acc) (mulz (fold_left (fun n d => 2 * n + d) ds k) P).
Proof.
  intros Ep. induction ds as [|d ds IH]; intros acc k Hd E; cbn [mul_by_x_loop fold_left]; [exact E|].
  inversion Hd as [|? ? Hd1 Hd2]; subst. apply (IH _ _ Hd2). pose proof (dbl_mulz acc k P (proj1 Ep) E) as D.
  destruct Hd1 as [-> | ->]; cbn [Z.eqb].
  - rewrite Z.add_0_r. exact D.
  - change (1 =? 1) with true. cbv iota. apply add_mulz; assumption.
Qed.
Lemma mul_by_x_first p P ds N : rep p P -> forallb (fun d => (d =? 0) || (d =? 1)) ds = true ->
  fold_left (fun n d => 2 * n + d) ds 1 = N ->
  rep (proj_neg o (mul_by_x_loop o c p true (1 :: ds) (proj_identity o))) (mulz (- N) P).
Proof.
  intros Ep B <-. rewrite (mulz_opp o c HC) by apply Ep. apply (neg_repr o c HC).
  cbn [mul_by_x_loop]. change (1 =? 1) with true. cbv iota.
  assert (I : rep (proj_identity o) (mulz 0 P)) by apply (identity_repr o c HC).
  apply (mul_by_x_loop_repr p P Ep ds (proj_add o c (proj_identity o) p) 1); [|exact (add_mulz _ p 0 P Ep I)].
  apply Forall_forall. intros d Hd. rewrite forallb_forall in B. specialize (B d Hd).
  apply orb_prop in B. destruct B as [B | B]; apply Z.eqb_eq in B; auto.
Qed.
Lemma bls_x_head : bls_x = 1 :: skipn 1 bls_x.
Proof. reflexivity. Qed.
Lemma bls_x_bits : forallb (fun d => (d =? 0) || (d =? 1)) (skipn 1 bls_x) = true.
Proof. vm_compute. reflexivity. Qed.
Lemma bls_x_val : fold_left (fun n d => 2 * n + d) (skipn 1 bls_x) 1 = 0xd201000000010000.
Proof. vm_compute. reflexivity. Qed.
Lemma mul_by_x_repr p P : rep p P -> rep (mul_by_x o c p) (mulz (- 0xd201000000010000) P).
Proof.
  intros Ep. unfold mul_by_x. rewrite bls_x_head. exact (mul_by_x_first p P _ _ Ep bls_x_bits bls_x_val).
Qed.
Lemma exp_by_x_repr p P : rep p P -> rep (exp_by_x o c p) (mulz bn_x P).
Proof.
  intros Ep. unfold exp_by_x.
  assert (A : forall is acc k, rep acc (mulz k P) ->
    rep (fold_left (fun acc i => let acc := proj_double o c acc in if Z.testbit bn_x i then proj_add o c acc p else acc) is acc)
      (mulz (fold_left (fun n i => 2 * n + Z.b2z (Z.testbit bn_x i)) is k) P)).
  { induction is as [|i is IH]; intros acc k E; cbn [fold_left]; [exact E|]. apply IH.
    pose proof (dbl_mulz acc k P (proj1 Ep) E) as D. cbv zeta. destruct (Z.testbit bn_x i); cbn [Z.b2z].
    - apply add_mulz; assumption.
    - rewrite Z.add_0_r. exact D. }
  pose proof (A (rev (map Z.of_nat (seq 0 62))) p 1) as X.
  assert (V : fold_left (fun n i => 2 * n + Z.b2z (Z.testbit bn_x i)) (rev (map Z.of_nat (seq 0 62))) 1 = bn_x) by (vm_compute; reflexivity).
  rewrite V in X. apply X. rewrite (mulz_1 o c HC) by apply Ep. exact Ep.
Qed.
Lemma bytes_mul_repr e p P : rep p P ->
  rep (bytes_mul o c e p) (mulz (bits_val 0 (skipn 1 (flat_map byte_bits_be e))) P).
Proof.
  intros Ep. unfold bytes_mul.
  apply (mul_bits_repr o c HC (fun q => proj_add o c q p)); [apply Ep| |apply (identity_repr o c HC)].
  intros q Q Hq. apply (add_repr o c HC); assumption.
Qed.
End Loops.

(** ** The horizontal line: (x, y), (z x, y) and (z^2 x, y) add up to the identity *)
Section Horizontal.
Context {F : Type} (o : fops F) (c : cconf F) (HC : curve_laws o c) (Ha : ca c = f0 o).
Let H := cl_field _ _ HC.
Let HR := fl_rl _ H.
Add Ring RH : (rl_ring _ HR).
Notation on := (on_curve o (ca c) (cb c)). Notation add := (pt_add o (ca c)).
Lemma horizontal x y z : fadd o (fadd o (fmul o z z) z) (f1 o) = f0 o -> on (Some (x, y)) ->
  on (Some (fmul o z x, y)) /\ on (Some (fmul o (fmul o z z) x, y))
  /\ add (Some (x, y)) (Some (fmul o z x, y)) = Some (fmul o (fmul o z z) x, fneg o y).
Proof.
  intros Ez O. pose proof (no_y0 o c HC x y O) as Y0.
  assert (Z3 : fmul o (fmul o z z) z = f1 o).
  { apply (sub_zero_eq o H). transitivity (fmul o (fsub o z (f1 o)) (fadd o (fadd o (fmul o z z) z) (f1 o))); [ring|]. rewrite Ez. ring. }
  assert (O1 : on (Some (fmul o z x, y))).
  { cbn [on_curve] in *. rewrite Ha in *. rewrite O.
    transitivity (fadd o (fmul o (fmul o (fmul o z z) z) (fmul o (fmul o x x) x)) (cb c)); [rewrite Z3; ring|ring]. }
  assert (O2 : on (Some (fmul o (fmul o z z) x, y))).
  { cbn [on_curve] in *. rewrite Ha in *. rewrite O.
    transitivity (fadd o (fmul o (fmul o (fmul o (fmul o z z) z) (fmul o (fmul o z z) z)) (fmul o (fmul o x x) x)) (cb c)); [rewrite Z3; ring|ring]. }
  split; [exact O1|]. split; [exact O2|].
  rewrite (add_of_slope o (ca c) (cb c) H (cl_two _ _ HC) (f0 o) _ _ _ _ O O1).
  - unfold pt_line. cbv zeta. f_equal. f_equal.
    + assert (E : fmul o z z = fneg o (fadd o z (f1 o))).
      { apply (sub_zero_eq o H). rewrite <- Ez. ring. }
      rewrite E. ring.
    + ring.
  - intros (_ & E). apply (dbl_nz o H (cl_two _ _ HC) y Y0). rewrite E at 1. ring.
  - split; [ring|]. rewrite Ha. transitivity (fmul o (fmul o x x) (fadd o (fadd o (fmul o z z) z) (f1 o))); [rewrite Ez; ring|ring].
Qed.
(** phi^2 + phi + 1 = 0 for the endomorphism (x, y) -> (z x, y) *)
Lemma endo_rel z P : fadd o (fadd o (fmul o z z) z) (f1 o) = f0 o -> on P ->
  add P (pt_endo o z P) = pt_neg o (pt_endo o z (pt_endo o z P)).
Proof.
  intros Ez O. destruct P as [[x y]|]; [|reflexivity]. cbn [pt_endo pt_neg].
  destruct (horizontal x y z Ez O) as (_ & _ & E).
  replace (fmul o x z) with (fmul o z x) by ring. rewrite E. f_equal. f_equal. ring.
Qed.
End Horizontal.

(** ** The map psi of a sextic twist *)
Section Psi.
Context {F : Type} (o : fops F) (c : cconf F) (HC : curve_laws o c) (Ha : ca c = f0 o).
Let H := cl_field _ _ HC.
Let HR := fl_rl _ H.
Add Ring RPsi : (rl_ring _ HR).
Notation on := (on_curve o (ca c) (cb c)). Notation add := (pt_add o (ca c)). Notation mulz := (pt_mulz o (ca c)).
Notation rep := (prep o c).
Context (cj : F -> F) (Hcj : fhom o o cj) (Hinv : forall x, cj (cj x) = x).
Context (U : F) (Hu : U <> f0 o).
Infix "*" := (fmul o). Infix "+" := (fadd o).
Hypothesis Hb : cj (cb c) * (U * U * U * (U * U * U)) = cb c.
Let n := cj U * U.
Hypothesis Hn : n * n + f1 o = n.
Notation t := (tau o cj U).

Lemma n_sq : n * n = fsub o n (f1 o).
Proof. transitivity (fsub o (n * n + f1 o) (f1 o)); [ring|]. rewrite Hn. reflexivity. Qed.
Lemma n_cube : n * n * n = fneg o (f1 o).
Proof. rewrite n_sq. transitivity (fsub o (n * n) n); [ring|]. rewrite n_sq. ring. Qed.
Lemma psi_on P : on P -> on (t P).
Proof. rewrite Ha. apply (tau_on o o H cj Hcj U (cb c) (cb c) Hb). Qed.
Lemma psi_add P Q : on P -> on Q -> t (add P Q) = add (t P) (t Q).
Proof. rewrite Ha. apply (tau_add o o H H cj Hcj U Hu (cl_two _ _ HC) (cl_two _ _ HC) (cb c) (cb c) Hb). Qed.
Lemma psi_twice P : t (t P) = match P with None => None | Some (x, y) => Some (n * n * x, fneg o y) end.
Proof.
  destruct P as [[x y]|]; [|reflexivity]. cbn [tau]. rewrite !(fh_mul _ _ _ Hcj), !Hinv. f_equal. f_equal.
  - unfold n. ring.
  - transitivity (n * n * n * y); [unfold n; ring|]. rewrite n_cube. ring.
Qed.
Lemma psi_four P : on P -> add (t (t (t (t P)))) P = t (t P).
Proof.
  intros O. rewrite !psi_twice. destruct P as [[x y]|]; [|reflexivity].
  set (z := n * n * (n * n)).
  assert (Ez : z = fneg o n).
  { unfold z. transitivity (n * n * n * n); [ring|]. rewrite n_cube. ring. }
  assert (Q : z * z + z + f1 o = f0 o).
  { rewrite Ez. transitivity (fsub o (n * n + f1 o) n); [ring|]. rewrite Hn. ring. }
  destruct (horizontal o c HC Ha x y z Q O) as (O1 & _ & E).
  replace (n * n * (n * n * x)) with (z * x) by (unfold z; ring).
  replace (fneg o (fneg o y)) with y by ring.
  rewrite (add_comm o (ca c) (cb c) H (cl_two _ _ HC)); [|exact O1|exact O]. rewrite E. f_equal. f_equal.
  rewrite Ez. ring.
Qed.
Lemma psi_repr p P : rep p P -> rep (psi o cj (U * U) (U * U * U) p) (t P).
Proof.
  intros (O & E). split; [exact (psi_on P O)|]. destruct P as [[x y]|]; cbn [tau psi px py pz].
  - destruct E as (Z0 & -> & ->). rewrite !(fh_mul _ _ _ Hcj). split.
    + intros X. apply Z0. rewrite <- (Hinv (pz p)), X. apply (fh_0 _ _ _ Hcj).
    + split; ring.
  - destruct E as (-> & Y0 & ->). rewrite (fh_0 _ _ _ Hcj). split; [ring|]. split; [|reflexivity].
    apply (mul_nonzero o H).
    + intros X. apply Y0. rewrite <- (Hinv (py p)), X. apply (fh_0 _ _ _ Hcj).
    + apply (mul_nonzero o H); [apply (mul_nonzero o H)|]; exact Hu.
Qed.
Lemma psi2_repr p P : rep p P -> rep (psi2 o (n * n) p) (t (t P)).
Proof.
  intros (O & E). split; [exact (psi_on _ (psi_on _ O))|]. rewrite psi_twice. destruct P as [[x y]|]; cbn [psi2 px py pz].
  - destruct E as (Z0 & -> & ->). split; [exact Z0|]. split; ring.
  - destruct E as (-> & Y0 & ->). split; [ring|]. split; [|reflexivity]. intros X. apply Y0.
    transitivity (fneg o (fneg o (py p))); [ring|]. rewrite X. ring.
Qed.

Notation G := (cpt o c). Notation g := (cpt_ops o c HC).
Definition hpsi (P : G) : G := mkpt o c HC (t (proj1_sig P)) (psi_on _ (cpt_on o c HC P)).
Lemma hpsi_add P Q : hpsi (gadd g P Q) = gadd g (hpsi P) (hpsi Q).
Proof. apply cpt_ext. cbn [hpsi cpt_ops gadd mkpt proj1_sig]. apply psi_add; apply (cpt_on o c HC). Qed.
Lemma hpsi_four P : gadd g (hpsi (hpsi (hpsi (hpsi P)))) P = hpsi (hpsi P).
Proof. apply cpt_ext. cbn [hpsi cpt_ops gadd mkpt proj1_sig]. apply psi_four. apply (cpt_on o c HC). Qed.
Notation act := (act g hpsi).
Let GL := cpt_laws o c HC.
Definition grep (p : proj F) (P : G) : Prop := rep p (proj1_sig P).
Lemma grep_act p P : grep p P <-> grep p (act (1, 0, 0, 0)%Z P).
Proof. rewrite (act_id g GL hpsi). reflexivity. Qed.
Lemma grep_add p q a b P : grep p (act a P) -> grep q (act b P) -> grep (proj_add o c p q) (act (qt_add a b) P).
Proof. intros A B. rewrite <- (act_add g GL hpsi). apply (add_repr o c HC); assumption. Qed.
Lemma grep_sub p q a b P : grep p (act a P) -> grep q (act b P) -> grep (proj_sub o c p q) (act (qt_add a (qt_scale (-1) b)) P).
Proof. intros A B. rewrite <- (act_add g GL hpsi), <- (act_neg g GL hpsi). apply (sub_repr o c HC); assumption. Qed.
Lemma grep_dbl p a P : grep p (act a P) -> grep (proj_double o c p) (act (qt_add a a) P).
Proof. intros A. rewrite <- (act_add g GL hpsi). apply (double_repr o c HC); assumption. Qed.
Lemma grep_psi p a P : grep p (act a P) -> grep (psi o cj (U * U) (U * U * U) p) (act (qt_shift a) P).
Proof. intros A. rewrite <- (act_shift g GL hpsi hpsi_add hpsi_four). apply psi_repr; assumption. Qed.
Lemma grep_psi2 p a P : grep p (act a P) -> grep (psi2 o (n * n) p) (act (qt_shift (qt_shift a)) P).
Proof. intros A. rewrite <- !(act_shift g GL hpsi hpsi_add hpsi_four). apply psi2_repr; assumption. Qed.
Lemma grep_x p a P : grep p (act a P) -> grep (mul_by_x o c p) (act (qt_scale (- 0xd201000000010000) a) P).
Proof.
  intros A. rewrite <- (act_scale g GL hpsi). unfold grep. rewrite (gmul_pt o c HC). exact (mul_by_x_repr o c HC p _ A).
Qed.
Lemma grep_bnx p a P : grep p (act a P) -> grep (exp_by_x o c p) (act (qt_scale bn_x a) P).
Proof.
  intros A. rewrite <- (act_scale g GL hpsi). unfold grep. rewrite (gmul_pt o c HC). exact (exp_by_x_repr o c HC p _ A).
Qed.
Lemma grep_eq p q P Q : grep p P -> grep q Q -> (proj_eq o p q = true <-> P = Q).
Proof.
  intros A B. rewrite (proj_eq_repr o c HC p q _ _ A B). split; [apply cpt_ext|intros ->; reflexivity].
Qed.
Lemma grep_0 p P : grep p P -> (proj_is_identity o p = true <-> P = g0 g).
Proof.
  intros A. unfold proj_is_identity. destruct A as (O & A). split.
  - intros E. apply (cl_is0 _ _ HC) in E. apply cpt_ext. destruct (proj1_sig P) as [[x y]|]; [|reflexivity].
    destruct A as (A & _). contradiction.
  - intros ->. destruct A as (_ & _ & A). apply (cl_is0 _ _ HC). exact A.
Qed.

(** *** bls12-381 G2 *)
Definition bls_cc : quart :=
  let x := (- 0xd201000000010000)%Z in
  qt_add (qt_add (qt_add (qt_add (0, 0, 2, 0)%Z (qt_scale x (x, 1, 0, 0)%Z)) (qt_scale (-1) (x, 0, 0, 0)%Z)) (0, -1, 0, 0)%Z) (-1, 0, 0, 0)%Z.
Lemma bls_clear_repr p P : grep p P -> grep (bls_g2_clear_cofactor o c cj (U * U) (U * U * U) (n * n) p) (act bls_cc P).
Proof.
  intros A. apply grep_act in A. unfold bls_g2_clear_cofactor. cbv zeta.
  pose proof (grep_x p _ P A) as T1. pose proof (grep_psi p _ P A) as T2.
  pose proof (grep_psi2 _ _ P (grep_dbl p _ P A)) as T3.
  pose proof (grep_x _ _ P (grep_add _ _ _ _ P T1 T2)) as T4.
  exact (grep_sub _ _ _ _ P (grep_sub _ _ _ _ P (grep_sub _ _ _ _ P (grep_add _ _ _ _ P T3 T4) T1) T2) A).
Qed.
Lemma bls_torsion p P : grep p P ->
  (bls_g2_is_torsion_free o c cj (U * U) (U * U * U) p = true <-> hpsi P = gmul g (- 0xd201000000010000) P).
Proof.
  intros A. unfold bls_g2_is_torsion_free. apply grep_eq; [exact (psi_repr p _ A)|].
  unfold grep. rewrite (gmul_pt o c HC). exact (mul_by_x_repr o c HC p _ A).
Qed.
Lemma torsion_killed x P : hpsi P = gmul g x P -> gmul g (x ^ 4 - x ^ 2 + 1) P = g0 g.
Proof.
  intros E. assert (Hm : forall k, hpsi (gmul g k P) = gmul g (k * x) P).
  { intros k. rewrite (h_mul g GL hpsi hpsi_add), E, <- (gmul_mul _ GL). reflexivity. }
  pose proof (hpsi_four P) as E4. rewrite !E, !Hm in E4. rewrite <- (gmul_1 _ GL P) in E4 at 2. rewrite <- (gmul_add _ GL) in E4.
  replace (x ^ 4 - x ^ 2 + 1)%Z with ((x * x * x * x + 1) - x * x)%Z by ring.
  rewrite (gmul_sub _ GL), E4. apply (gl_neg _ GL).
Qed.

(** *** bn256 G2 *)
Definition bn_cc : quart :=
  qt_add (qt_add (qt_add (bn_x, 0, 0, 0)%Z (0, 3 * bn_x, 0, 0)%Z) (0, 0, bn_x, 0)%Z) (0, 0, 0, 1)%Z.
Definition bn_tf : quart := (bn_x + 1, bn_x, bn_x, - (2 * bn_x))%Z.
Lemma act_eq a b p P : a = b -> grep p (act a P) -> grep p (act b P).
Proof. intros ->. trivial. Qed.
Lemma bn_clear_repr p P : grep p P -> grep (bn_g2_clear_cofactor o c cj (U * U) (U * U * U) p) (act bn_cc P).
Proof.
  intros A. apply grep_act in A. unfold bn_g2_clear_cofactor. cbv zeta.
  pose proof (grep_bnx p _ P A) as T0.
  pose proof (grep_psi _ _ P (grep_add _ _ _ _ P (grep_dbl _ _ P T0) T0)) as T1.
  pose proof (grep_psi _ _ P (grep_psi _ _ P T0)) as T2.
  pose proof (grep_psi _ _ P (grep_psi _ _ P (grep_psi _ _ P A))) as T3.
  refine (act_eq _ _ _ P _ (grep_add _ _ _ _ P (grep_add _ _ _ _ P (grep_add _ _ _ _ P T0 T1) T2) T3)).
  vm_compute. reflexivity.
Qed.
Lemma bn_torsion p P : grep p P ->
  (bn_g2_is_torsion_free o c cj (U * U) (U * U * U) p = true <-> act bn_tf P = g0 g).
Proof.
  intros A. apply grep_act in A. unfold bn_g2_is_torsion_free. cbv zeta.
  pose proof (grep_bnx p _ P A) as T0. pose proof (grep_psi _ _ P T0) as T1. pose proof (grep_psi _ _ P T1) as T2.
  pose proof (grep_psi _ _ P T2) as T3.
  apply grep_0. refine (act_eq _ _ _ P _ (grep_sub _ _ _ _ P (grep_add _ _ _ _ P (grep_add _ _ _ _ P (grep_add _ _ _ _ P T2 T1) T0) A) (grep_dbl _ _ P T3))).
  vm_compute. reflexivity.
Qed.
(** An element killed by [a] is killed by every multiple of [a], in particular by its norm. *)
Lemma act_killed a b k P : qt_mul b a = (k, 0, 0, 0)%Z -> act a P = g0 g -> gmul g k P = g0 g.
Proof.
  intros E Z0. rewrite <- (act_int g GL hpsi), <- E, <- (act_mul g GL hpsi hpsi_add hpsi_four), Z0.
  destruct b as [[[b0 b1] b2] b3]. cbn [CofactorFacts.act]. rewrite !(h_0 g GL hpsi hpsi_add), !(gmul_g0 _ GL), !(gl_0 _ GL). reflexivity.
Qed.
End Psi.
