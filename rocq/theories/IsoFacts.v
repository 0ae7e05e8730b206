(** The isogenies of the hash-to-curve suites land on the target curve. *)
From Verif Require Import Base Algebra Pow TowerFacts FiniteField Compute SpecCurve SpecCurveFacts Curve CurveFacts
  SpecH2c H2c.

(** ** Polynomials as coefficient lists *)
Section Poly.
Context {F : Type} (o : fops F).
Fixpoint padd (p q : list F) : list F :=
  match p, q with
  | [], _ => q
  | _, [] => p
  | a :: p', b :: q' => fadd o a b :: padd p' q'
  end.
Definition pscale (k : F) (p : list F) : list F := map (fmul o k) p.
Fixpoint pmul (p q : list F) : list F :=
  match p with [] => [] | a :: p' => padd (pscale a q) (f0 o :: pmul p' q) end.
Fixpoint peqb (p q : list F) : bool :=
  match p, q with
  | [], [] => true
  | a :: p', b :: q' => feqb o a b && peqb p' q'
  | _, _ => false
  end.
(** [g' YN^2 XD^3 = (XN^3 + b XD^3) YD^2] and [XD^3 = l YD^2], [l] the leading coefficient of [XD]
    (the arrays of bls12-381 G1 all carry the factor [R] of the Montgomery form). *)
Definition iso_check (a' b' b : F) (XN XD YN YD : list F) : bool :=
  let XD3 := pmul XD (pmul XD XD) in
  let YD2 := pmul YD YD in
  peqb XD3 (pscale (last XD (f0 o)) YD2) &&
  peqb (pmul (pmul [b'; a'; f0 o; f1 o] (pmul YN YN)) XD3)
       (pmul (padd (pmul XN (pmul XN XN)) (pscale b XD3)) YD2).
(** [XD = (X - r)^2] with [g'(r)] a non-square of a field of order [q] *)
Definition kernel_check (q : Z) (a' b' r : F) (XD : list F) : bool :=
  peqb XD (pmul [fneg o r; f1 o] [fneg o r; f1 o])
  && feqb o (fpowz o (curve_rhs o a' b' r) ((q - 1) / 2)) (fneg o (f1 o)).
End Poly.

Section Eval.
Context {B F : Type} (ob : fops B) (o : fops F) (phi : B -> F).
Context (Hf : fhom ob o phi) (H : field_laws o).
Hypothesis Heq : forall x y, feqb ob x y = true -> phi x = phi y.
Notation "0" := (f0 o). Notation "1" := (f1 o).
Infix "+" := (fadd o). Infix "-" := (fsub o). Infix "*" := (fmul o).
Notation "- x" := (fneg o x).
Add Field FIs : (field_thy o H).
Notation ev p x := (peval o (map phi p) x).

Lemma ev_add p : forall q x, ev (padd ob p q) x = ev p x + ev q x.
Proof.
  induction p as [|a p IH]; intros q x.
  - cbn [padd map peval]. ring.
  - destruct q as [|b q]; cbn [padd map peval]; [ring|]. rewrite IH, (fh_add _ _ _ Hf). ring.
Qed.
Lemma ev_scale k p x : ev (pscale ob k p) x = phi k * ev p x.
Proof.
  induction p as [|a p IH]; cbn [pscale map peval]; [ring|]. fold (pscale ob k p). rewrite IH, (fh_mul _ _ _ Hf). ring.
Qed.
Lemma ev_mul p : forall q x, ev (pmul ob p q) x = ev p x * ev q x.
Proof.
  induction p as [|a p IH]; intros q x; cbn [pmul map peval]; [ring|].
  rewrite ev_add, ev_scale. cbn [map peval]. rewrite IH, (fh_0 _ _ _ Hf). ring.
Qed.
Lemma ev_eqb p : forall q x, peqb ob p q = true -> ev p x = ev q x.
Proof.
  induction p as [|a p IH]; intros [|b q] x; cbn [peqb map peval]; try discriminate; [reflexivity|].
  intros E. apply andb_prop in E. destruct E as [E1 E2]. rewrite (Heq _ _ E1), (IH _ x E2). reflexivity.
Qed.

Lemma iso_check_ok a' b' b XN XD YN YD : iso_check ob a' b' b XN XD YN YD = true -> forall x,
  ev XD x * (ev XD x * ev XD x) = phi (last XD (f0 ob)) * (ev YD x * ev YD x) /\
  curve_rhs o (phi a') (phi b') x * (ev YN x * ev YN x) * (ev XD x * (ev XD x * ev XD x)) =
  (ev XN x * (ev XN x * ev XN x) + phi b * (ev XD x * (ev XD x * ev XD x))) * (ev YD x * ev YD x).
Proof.
  unfold iso_check. cbv zeta. intros E x. apply andb_prop in E. destruct E as [E1 E2].
  apply (ev_eqb _ _ x) in E1. apply (ev_eqb _ _ x) in E2.
  repeat rewrite ?ev_mul, ?ev_add, ?ev_scale in E1. repeat rewrite ?ev_mul, ?ev_add, ?ev_scale in E2.
  cbn [map peval] in E2. rewrite (fh_0 _ _ _ Hf), (fh_1 _ _ _ Hf) in E2. split; [exact E1|].
  rewrite <- E2. unfold curve_rhs. ring.
Qed.

Lemma kernel_check_ok q a' b' r XD : finite_field o q -> 1 + 1 <> 0 -> kernel_check ob q a' b' r XD = true ->
  forall x s, s * s = curve_rhs o (phi a') (phi b') x -> ev XD x <> 0.
Proof.
  intros HF H2 E x s Es X. unfold kernel_check in E. apply andb_prop in E. destruct E as [E1 E2].
  apply (ev_eqb _ _ x) in E1. rewrite X, ev_mul in E1. cbn [map peval] in E1.
  rewrite (fh_neg _ _ _ Hf), (fh_1 _ _ _ Hf) in E1.
  assert (Ex : x = phi r).
  { assert (Z0 : x - phi r = 0).
    { destruct (feqb_dec o H (x - phi r) 0) as [Z|Z]; [exact Z|]. exfalso.
      apply (mul_nonzero o H _ _ Z Z). rewrite E1. ring. }
    transitivity (x - phi r + phi r); [ring|]. rewrite Z0. ring. }
  apply Heq in E2. rewrite (fh_powz ob o phi Hf), (fh_neg _ _ _ Hf), (fh_1 _ _ _ Hf) in E2.
  assert (Eg : phi (curve_rhs ob a' b' r) = s * s).
  { rewrite Es, Ex. unfold curve_rhs. rewrite !(fh_add _ _ _ Hf), !(fh_mul _ _ _ Hf). reflexivity. }
  rewrite Eg in E2. destruct (feqb_dec o H (s * s) 0) as [S0|S0].
  - rewrite S0 in E2. rewrite fpowz_zero in E2; [|exact (fl_rl _ H)|apply (half_card o H q HF H2)].
    apply (fl_1_0 _ H). transitivity (- - (1)); [ring|]. rewrite <- E2. ring.
  - rewrite (square_half_pow o H q HF H2 _ S0 (ex_intro _ s eq_refl)) in E2.
    apply (neg_neq o H H2 1 (fl_1_0 _ H)). symmetry. exact E2.
Qed.
End Eval.

Section Iso.
Context {F : Type} (o : fops F) (c : cconf F) (HC : curve_laws o c).
Notation "0" := (f0 o). Notation "1" := (f1 o).
Infix "+" := (fadd o). Infix "-" := (fsub o). Infix "*" := (fmul o).
Notation "- x" := (fneg o x).
Let H := cl_field _ _ HC.
Let HR := fl_rl _ H.
Add Field FIo : (field_thy o H).
Notation ev p x := (peval o p x).

(** The point [(XN/XD, s YN/YD)] in the coordinates of the code. *)
Lemma iso_repr a' b' (XN XD YN YD : list F) l t s k : ca c = 0 -> k <> 0 ->
  s * s = curve_rhs o a' b' t -> ev XD t <> 0 ->
  ev XD t * (ev XD t * ev XD t) = l * (ev YD t * ev YD t) ->
  curve_rhs o a' b' t * (ev YN t * ev YN t) * (ev XD t * (ev XD t * ev XD t)) =
  (ev XN t * (ev XN t * ev XN t) + cb c * (ev XD t * (ev XD t * ev XD t))) * (ev YD t * ev YD t) ->
  exists X Y, X * ev XD t = ev XN t /\ Y * ev YD t = s * ev YN t /\ ev YD t <> 0 /\
    prep o c (mk_proj (k * (ev XN t * ev YD t)) (k * (s * ev YN t * ev XD t)) (k * (ev XD t * ev YD t))) (Some (X, Y)).
Proof.
  intros Ha Zk Es ZX EXY EG. set (xn := ev XN t) in *. set (xd := ev XD t) in *. set (yn := ev YN t) in *.
  set (yd := ev YD t) in *. set (gt := curve_rhs o a' b' t) in *.
  assert (ZY : yd <> 0).
  { intros E. rewrite E in EXY. apply ZX. 
    assert (Z3 : xd * (xd * xd) = 0) by (rewrite EXY; ring).
    destruct (feqb_dec o H xd 0) as [Z|Z]; [exact Z|]. exfalso.
    apply (mul_nonzero o H xd (xd * xd) Z (mul_nonzero o H _ _ Z Z)). exact Z3. }
  destruct (fl_inv _ H xd ZX) as (i & _ & Ei). destruct (fl_inv _ H yd ZY) as (j & _ & Ej).
  assert (EX : xn * i * xd = xn) by (transitivity (xn * (xd * i)); [ring|]; rewrite Ei; ring).
  assert (EY : s * yn * j * yd = s * yn) by (transitivity (s * yn * (yd * j)); [ring|]; rewrite Ej; ring).
  exists (xn * i), (s * yn * j). split; [exact EX|]. split; [exact EY|]. split; [exact ZY|]. split.
  - cbn [on_curve]. rewrite Ha.
    apply (mul_cancel_l o H (xd * (xd * xd) * (yd * yd))).
    { repeat apply (mul_nonzero o H); assumption. }
    transitivity (gt * (yn * yn) * (xd * (xd * xd)) * ((yd * j) * (yd * j))).
    { rewrite <- Es. ring. }
    rewrite EG, Ej.
    transitivity ((xn * (xn * xn) * ((xd * i) * ((xd * i) * (xd * i))) + cb c * (xd * (xd * xd))) * (yd * yd)); [rewrite Ei; ring|ring].
  - cbn [px py pz]. split; [repeat apply (mul_nonzero o H); assumption|]. split.
    + rewrite <- EX at 1. ring.
    + rewrite <- EY at 1. ring.
Qed.

(** ** Homogeneous Horner evaluation *)
Lemma fold_horner t z (zp : list F) : forall l acc k,
  (forall j, (j < length l)%nat -> nth (k + j) zp 0 = fpow_nat o z (S (k + j))) ->
  fold_left (fun acc jc => acc * (t * z) + nth (fst jc) zp 0 * snd jc) (combine (seq k (length l)) l) (acc * fpow_nat o z k)
  = fpow_nat o z (k + length l) * peval o (rev l ++ [acc]) t.
Proof.
  induction l as [|b l IH]; intros acc k Hz.
  - cbn [length seq combine fold_left rev app peval]. rewrite Nat.add_0_r. ring.
  - cbn [length seq combine fold_left fst snd]. pose proof (Hz O ltac:(cbn; lia)) as E0. rewrite Nat.add_0_r in E0. rewrite E0.
    cbn [fpow_nat].
    replace (acc * fpow_nat o z k * (t * z) + z * fpow_nat o z k * b) with ((acc * t + b) * fpow_nat o z (S k)) by (cbn [fpow_nat]; ring).
    rewrite IH.
    + replace (k + S (length l))%nat with (S k + length l)%nat by lia. f_equal.
      cbn [rev]. rewrite <- app_assoc. cbn [app]. clear - H HR. induction (rev l) as [|d m IHm]; cbn [app peval]; [ring|].
      rewrite IHm. ring.
    + intros j Hj. replace (S k + j)%nat with (k + S j)%nat by lia. apply Hz. cbn. lia.
Qed.

Lemma iso_horner_eval t z zp coeff : coeff <> [] ->
  (forall j, (j < length coeff - 1)%nat -> nth j zp 0 = fpow_nat o z (S j)) ->
  iso_horner o (t * z) zp coeff = fpow_nat o z (length coeff - 1) * peval o coeff t.
Proof.
  intros Hne Hz. unfold iso_horner. cbv zeta. destruct (exists_last Hne) as (l & b & ->).
  rewrite app_length in *. cbn [length] in *. replace (length l + 1 - 1)%nat with (length l) in * by lia.
  rewrite app_nth2, Nat.sub_diag by lia. cbn [nth].
  pose proof (fold_horner t z zp (rev l) b 0) as E. rewrite rev_length in E. cbn [Nat.add fpow_nat] in E.
  rewrite rev_involutive in E. rewrite <- E by exact Hz. clear E.
  replace (b * 1) with b by ring. clear Hne Hz.
  assert (G : forall n k acc, (k + n <= length l)%nat ->
    fold_left (fun acc jdx => acc * (t * z) + nth jdx zp 0 * nth (length l - 1 - jdx) (l ++ [b]) 0) (seq k n) acc =
    fold_left (fun acc jc => acc * (t * z) + nth (fst jc) zp 0 * snd jc) (combine (seq k n) (firstn n (skipn k (rev l)))) acc).
  { induction n as [|n IH]; intros k acc Hk; [reflexivity|]. cbn [seq].
    assert (Ls : (k < length (rev l))%nat) by (rewrite rev_length; lia).
    assert (Sk : skipn k (rev l) = nth k (rev l) 0 :: skipn (S k) (rev l)).
    { clear - Ls. revert k Ls. induction (rev l) as [|d m IHm]; intros k Ls; [cbn in Ls; lia|].
      destruct k as [|k]; [reflexivity|]. cbn [skipn nth]. apply IHm. cbn in Ls. lia. }
    rewrite Sk. cbn [firstn combine fold_left fst snd]. rewrite IH by lia. f_equal. f_equal. f_equal.
    rewrite rev_nth by (rewrite rev_length in Ls; exact Ls).
    rewrite app_nth1 by lia. f_equal. lia. }
  rewrite G by lia. cbn [skipn]. rewrite firstn_all2 by (rewrite rev_length; lia). reflexivity.
Qed.

Lemma zpow_list_nth n : forall acc z j, (j < n)%nat -> nth j (zpow_list o n acc z) 0 = acc * fpow_nat o z j.
Proof.
  induction n as [|n IH]; intros acc z j Hj; [lia|]. destruct j as [|j]; cbn [zpow_list nth fpow_nat]; [ring|].
  rewrite IH by lia. ring.
Qed.

Lemma fpow_nat_nz z n : z <> 0 -> fpow_nat o z n <> 0.
Proof.
  intros Z. induction n as [|n IH]; cbn [fpow_nat]; [exact (fl_1_0 _ H)|]. apply (mul_nonzero o H); assumption.
Qed.

Theorem iso_finish_eval K zp t s z : (forall j, (j < 15)%nat -> (j < length zp)%nat -> nth j zp 0 = fpow_nat o z (S j)) ->
  (length (nth 0 K []) = S (length (nth 1 K [])))%nat -> (length (nth 2 K []) = length (nth 3 K []))%nat ->
  (0 < length (nth 1 K []))%nat -> (0 < length (nth 3 K []))%nat ->
  (length (nth 0 K []) <= S (length zp))%nat -> (length (nth 2 K []) <= S (length zp))%nat -> (length zp <= 15)%nat ->
  z <> 0 ->
  exists k, k <> 0 /\ iso_finish o K zp (t * z) (s * z) z =
    mk_proj (k * (ev (nth 0 K []) t * ev (nth 3 K []) t)) (k * (s * ev (nth 2 K []) t * ev (nth 1 K []) t))
      (k * (ev (nth 1 K []) t * ev (nth 3 K []) t)).
Proof.
  intros Hz L01 L23 L1 L3 Z0 Z2 Z15 Zz.
  assert (NE : forall l : list F, (0 < length l)%nat -> l <> []) by (intros [|? ?]; cbn; [lia|congruence]).
  exists (fpow_nat o z (length (nth 1 K [])) * (z * fpow_nat o z (length (nth 3 K []) - 1))).
  split.
  - apply (mul_nonzero o H); [apply fpow_nat_nz; exact Zz|]. apply (mul_nonzero o H); [exact Zz|apply fpow_nat_nz; exact Zz].
  - unfold iso_finish. cbv zeta.
    rewrite !iso_horner_eval by (first [apply NE; lia|intros j Hj; apply Hz; lia]).
    rewrite L01, L23. set (l1 := length (nth 1 K [])) in *. set (l3 := length (nth 3 K [])) in *.
    replace (S l1 - 1)%nat with l1 by lia.
    assert (E1 : fpow_nat o z l1 = z * fpow_nat o z (l1 - 1)).
    { replace l1 with (S (l1 - 1)) at 1 by lia. reflexivity. }
    rewrite E1. f_equal; ring.
Qed.

Lemma secp_eval K t s z :
  let XN := [coef o K 1 0; coef o K 1 1; coef o K 1 2; coef o K 1 3] in
  let XD := [coef o K 2 0; coef o K 2 1; 1] in
  let YN := [coef o K 3 0; coef o K 3 1; coef o K 3 2; coef o K 3 3] in
  let YD := [coef o K 4 0; coef o K 4 1; coef o K 4 2; 1] in
  iso_map_secp256k1 o K (t * z) (s * z) z =
    mk_proj (z * z * z * (z * z * z * z) * (ev XN t * ev YD t)) (z * z * z * (z * z * z * z) * (s * ev YN t * ev XD t))
      (z * z * z * (z * z * z * z) * (ev XD t * ev YD t)).
Proof.
  cbv zeta. unfold iso_map_secp256k1. cbv zeta. rewrite !(rl_sqr _ HR). cbn [peval].
  f_equal; ring.
Qed.
End Iso.
