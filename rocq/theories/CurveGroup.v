(** The group of curve points; scalar multiplication, sums, normalisation and
    the endomorphism in terms of it. *)
From Verif Require Import Base Algebra Pow TowerFacts SpecField BytesFacts Group SpecCurve SpecCurveFacts
  Curve CurveFacts.

Section Points.
Context {F : Type} (o : fops F) (c : cconf F) (HC : curve_laws o c).
Notation "0" := (f0 o). Notation "1" := (f1 o).
Infix "+" := (fadd o). Infix "-" := (fsub o). Infix "*" := (fmul o).
Notation "- x" := (fneg o x).
Let H := cl_field _ _ HC.
Let HR := fl_rl _ H.
Let H2 := cl_two _ _ HC.
Let Hns := c_ns o c HC.
Add Field FCG : (field_thy o H).
Notation a := (ca c). Notation b := (cb c).
Notation on := (on_curve o a b).
Notation add := (pt_add o a).
Notation mulz := (pt_mulz o a).

Definition on_curveb (P : point (F := F)) : bool :=
  match P with None => true | Some (x, y) => feqb o (y * y) (x * x * x + a * x + b) end.
Lemma on_curveb_iff P : on_curveb P = true <-> on P.
Proof. destruct P as [[x y]|]; cbn [on_curveb on_curve]; [apply (fl_eqb _ H)|tauto]. Qed.

Definition cpt : Type := { P : point (F := F) | on_curveb P = true }.
Lemma cpt_ext (P Q : cpt) : proj1_sig P = proj1_sig Q -> P = Q.
Proof.
  destruct P as [P hP], Q as [Q hQ]. cbn [proj1_sig]. intros ->. f_equal.
  apply Eqdep_dec.UIP_dec. decide equality.
Qed.
Definition mkpt (P : point) (h : on P) : cpt := exist _ P (proj2 (on_curveb_iff P) h).
Lemma cpt_on (P : cpt) : on (proj1_sig P).
Proof. apply on_curveb_iff. exact (proj2_sig P). Qed.

Definition cpt_ops : gops cpt := {|
  g0 := mkpt None I;
  gadd := fun P Q => mkpt _ (add_on o a b H H2 (proj1_sig P) (proj1_sig Q) (cpt_on P) (cpt_on Q));
  gneg := fun P => mkpt _ (neg_on o a b H (proj1_sig P) (cpt_on P)) |}.

Theorem cpt_laws : grp_laws cpt_ops.
Proof.
  constructor; [intros P Q R|intros P Q|intros P|intros P]; apply cpt_ext; cbn [cpt_ops gadd gneg g0 mkpt proj1_sig].
  - apply (add_assoc o a b H H2 Hns); apply cpt_on.
  - apply (add_comm o a b H H2); apply cpt_on.
  - reflexivity.
  - apply (add_neg o a H).
Qed.
Notation gm := (gmul cpt_ops).

Lemma gmul_nat_pt k P : proj1_sig (gmul_nat cpt_ops k P) = pt_mul o a k (proj1_sig P).
Proof.
  induction k as [|k IH]; [reflexivity|]. cbn [gmul_nat pt_mul]. rewrite <- IH. reflexivity.
Qed.
Lemma gmul_pt k P : proj1_sig (gm k P) = mulz k (proj1_sig P).
Proof.
  destruct k as [|k|k]; cbn [gmul pt_mulz].
  - reflexivity.
  - apply gmul_nat_pt.
  - cbn [cpt_ops gneg mkpt proj1_sig]. rewrite gmul_nat_pt. reflexivity.
Qed.
Lemma gsum_pt l : proj1_sig (gsum cpt_ops l) = pt_sum o a (map (@proj1_sig _ _) l).
Proof.
  induction l as [|P l IH]; [reflexivity|]. cbn [gsum pt_sum map fold_right].
  unfold pt_sum in IH. rewrite <- IH. reflexivity.
Qed.

(** The same laws for points with a separate membership proof. *)
Lemma mulz_on k P : on P -> on (mulz k P).
Proof. intros h. pose proof (gmul_pt k (mkpt P h)) as E. cbn in E. rewrite <- E. apply cpt_on. Qed.

Ltac lift P h := replace P with (proj1_sig (mkpt P h)) by reflexivity.
Lemma mulz_add j k P : on P -> mulz (Z.add j k) P = add (mulz j P) (mulz k P).
Proof.
  intros h. pose proof (f_equal (@proj1_sig _ _) (gmul_add _ cpt_laws j k (mkpt P h))) as E.
  cbn [cpt_ops gadd mkpt proj1_sig] in E. rewrite !gmul_pt in E. exact E.
Qed.
Lemma mulz_mul j k P : on P -> mulz (Z.mul j k) P = mulz j (mulz k P).
Proof.
  intros h. pose proof (f_equal (@proj1_sig _ _) (gmul_mul _ cpt_laws j k (mkpt P h))) as E.
  rewrite !gmul_pt in E. exact E.
Qed.
Lemma mulz_opp k P : on P -> mulz (Z.opp k) P = pt_neg o (mulz k P).
Proof.
  intros h. pose proof (f_equal (@proj1_sig _ _) (gmul_opp _ cpt_laws k (mkpt P h))) as E.
  cbn [cpt_ops gneg mkpt proj1_sig] in E. rewrite !gmul_pt in E. exact E.
Qed.
Lemma mulz_1 P : on P -> mulz 1%Z P = P.
Proof.
  intros h. pose proof (f_equal (@proj1_sig _ _) (gmul_1 _ cpt_laws (mkpt P h))) as E.
  rewrite !gmul_pt in E. exact E.
Qed.
Lemma mulz_pt_add k P Q : on P -> on Q -> mulz k (add P Q) = add (mulz k P) (mulz k Q).
Proof.
  intros h h'. pose proof (f_equal (@proj1_sig _ _) (gmul_gadd _ cpt_laws k (mkpt P h) (mkpt Q h'))) as E.
  cbn [cpt_ops gadd mkpt proj1_sig] in E. rewrite !gmul_pt in E. exact E.
Qed.
Lemma mulz_mod r k P : on P -> mulz r P = None -> mulz (Z.modulo k r) P = mulz k P.
Proof.
  intros h Er. rewrite <- !(gmul_pt _ (mkpt P h)). f_equal. apply (gmul_mod _ cpt_laws).
  apply cpt_ext. rewrite gmul_pt. exact Er.
Qed.
(** A point killed by a prime has that order. *)
Lemma mulz_order r P : on P -> prime r -> P <> None -> mulz r P = None ->
  forall k, mulz k P = None <-> (r | k)%Z.
Proof.
  intros h Hr Hn Er k. split.
  - intros Ek.
    assert (Eg : gm (Z.gcd r k) (mkpt P h) = g0 cpt_ops).
    { apply (gmul_annihil_gcd _ cpt_laws); apply cpt_ext; rewrite gmul_pt; assumption. }
    destruct (Zdivide_dec r k) as [D|D]; [exact D|]. exfalso.
    assert (G : Z.gcd r k = 1%Z).
    { apply Zgcd_1_rel_prime. apply prime_rel_prime; assumption. }
    rewrite G, (gmul_1 _ cpt_laws) in Eg. apply Hn. apply (f_equal (@proj1_sig _ _)) in Eg. exact Eg.
  - intros (q & ->). rewrite mulz_mul, Er by exact h.
    change None with (proj1_sig (g0 cpt_ops)) at 1. rewrite <- gmul_pt, (gmul_g0 _ cpt_laws). reflexivity.
Qed.

(** *** Scalar multiplication *)
Lemma byte_bits_val x v : (0 <= x < 256)%Z -> bits_val v (byte_bits_be x) = (256 * v + x)%Z.
Proof.
  intros Hx. pose proof (bits_val_word x 8 v ltac:(lia)) as E.
  change (bits_val v (byte_bits_be x) = (256 * v + x)%Z). etransitivity; [exact E|].
  change (2 ^ Z.of_nat 8)%Z with 256%Z. rewrite Z.mod_small by lia. lia.
Qed.

Lemma repr_bits_val l : is_bytes l -> bits_val 0%Z (repr_bits_be l) = le_int l.
Proof.
  unfold repr_bits_be. induction l as [|x l IH]; intros Hl; [reflexivity|].
  apply is_bytes_cons in Hl. destruct Hl as [Hx Hl].
  cbn [rev]. rewrite flat_map_app, bits_val_app, IH by exact Hl.
  cbn [flat_map]. rewrite app_nil_r, byte_bits_val by exact Hx. cbn [le_int]. lia.
Qed.

Lemma mul_bits_repr (f : proj F -> proj F) P : on P ->
  (forall q Q, prep o c q Q -> prep o c (f q) (add Q P)) ->
  forall bits acc k, prep o c acc (mulz k P) ->
  prep o c (fold_left (fun acc bit => let acc := proj_double o c acc in select acc (f acc) bit) bits acc)
    (mulz (bits_val k bits) P).
Proof.
  intros HP Hf. induction bits as [|bit bits IH]; intros acc k Ha; cbn [fold_left bits_val]; [exact Ha|].
  apply IH. cbv zeta.
  assert (Hd : prep o c (proj_double o c acc) (mulz (2 * k)%Z P)).
  { replace (2 * k)%Z with (k + k)%Z by lia. rewrite mulz_add by exact HP. apply double_repr; assumption. }
  destruct bit; cbn [select].
  - rewrite mulz_add, mulz_1 by exact HP. apply Hf. exact Hd.
  - rewrite Z.add_0_r. exact Hd.
Qed.

Theorem proj_mul_repr p P bytes : prep o c p P -> is_bytes bytes ->
  prep o c (proj_mul o c p bytes) (mulz (le_int bytes) P).
Proof.
  intros Hp Hb. rewrite <- repr_bits_val by exact Hb. unfold proj_mul.
  apply (mul_bits_repr (fun q => proj_add o c q p)); [apply Hp| |apply identity_repr; exact HC].
  intros q Q Hq. apply add_repr; assumption.
Qed.
Theorem aff_mul_repr p P bytes : arep o c p P -> is_bytes bytes ->
  prep o c (aff_mul o c p bytes) (mulz (le_int bytes) P).
Proof.
  intros Hp Hb. rewrite <- repr_bits_val by exact Hb. unfold aff_mul.
  apply (mul_bits_repr (fun q => proj_madd o c q p)); [apply Hp| |apply identity_repr; exact HC].
  intros q Q Hq. apply madd_repr; assumption.
Qed.

(** *** Sums *)
Theorem proj_sum_repr ps Ps : Forall2 (prep o c) ps Ps -> prep o c (proj_sum o c ps) (pt_sum o a Ps).
Proof.
  intros HF. unfold proj_sum.
  assert (G : forall acc A, prep o c acc A -> prep o c (fold_left (proj_add o c) ps acc) (add A (pt_sum o a Ps))).
  { induction HF as [|p P ps Ps Hp HF IH]; intros acc A Ha; cbn [fold_left pt_sum fold_right].
    - rewrite (add_0_r o a). exact Ha.
    - specialize (IH (proj_add o c acc p) (add A P)).
      assert (S : on (pt_sum o a Ps)).
      { clear - HC H2 HF. induction HF as [|q Q qs Qs Hq HF IH]; cbn [pt_sum fold_right]; [exact I|].
        apply (add_on o a b (cl_field _ _ HC) H2); [apply Hq|exact IH]. }
      rewrite <- (add_assoc o a b H H2 Hns); [|apply Ha|apply Hp|exact S].
      apply IH. apply add_repr; assumption. }
  apply (G (proj_identity o) None). apply identity_repr. exact HC.
Qed.

(** *** batch_normalize *)
Fixpoint bn_acc (acc : F) (pqs : list (proj F * F)) : F :=
  match pqs with
  | [] => acc
  | (p, _) :: rest => bn_acc (select (acc * pz p) acc (proj_is_identity o p)) rest
  end.

Lemma bn_backward_app l1 l2 : forall acc,
  bn_backward o acc (l1 ++ l2) = bn_backward o acc l1 ++ bn_backward o (bn_acc acc l1) l2.
Proof.
  induction l1 as [|[p q] l1 IH]; intros acc; cbn [app bn_backward bn_acc]; [reflexivity|].
  cbv zeta. rewrite IH. reflexivity.
Qed.
Lemma bn_acc_app l1 l2 : forall acc, bn_acc acc (l1 ++ l2) = bn_acc (bn_acc acc l1) l2.
Proof. induction l1 as [|[p q] l1 IH]; intros acc; cbn [app bn_acc]; [reflexivity|]. apply IH. Qed.

Lemma is_identity_z p : proj_is_identity o p = true <-> pz p = 0.
Proof. apply (cl_is0 _ _ HC). Qed.

Lemma bn_correct ps : forall acc qs r, acc <> 0 -> bn_forward o acc ps = (qs, r) ->
  r <> 0 /\ forall i, i * r = 1 ->
    bn_backward o i (rev (combine ps qs)) = rev (map (to_affine o) ps)
    /\ bn_acc i (rev (combine ps qs)) * acc = 1.
Proof.
  induction ps as [|p ps IH]; intros acc qs r Ha E; cbn [bn_forward] in E.
  - injection E as <- <-. split; [exact Ha|]. intros i Hi. cbn. auto.
  - cbv zeta in E. destruct (bn_forward o _ ps) as [qs' r'] eqn:E'. injection E as <- <-.
    set (acc' := select (acc * pz p) acc (proj_is_identity o p)) in *.
    assert (Ha' : acc' <> 0).
    { unfold acc'. destruct (proj_is_identity o p) eqn:Ez; cbn [select]; [exact Ha|].
      apply (mul_nonzero o H); [exact Ha|]. intros X. apply is_identity_z in X. congruence. }
    destruct (IH acc' qs' r' Ha' E') as [Hr Hi]. split; [exact Hr|].
    intros i Ei. destruct (Hi i Ei) as [B1 B2]. cbn [combine map rev].
    rewrite bn_backward_app, bn_acc_app, B1.
    set (j := bn_acc i (rev (combine ps qs'))) in *. cbn [bn_backward bn_acc]. cbv zeta.
    unfold acc' in B2. clear acc' Ha' E' Hi IH.
    pose proof (is_identity_z p) as Z. unfold to_affine.
    pose proof (cl_is0 _ _ HC (inv_or_zero o (pz p))) as Z'.
    destruct (proj_is_identity o p) eqn:Ez; cbn [select] in *.
    + split; [|exact B2]. f_equal. f_equal. pose proof (proj1 Z eq_refl) as Z0.
      rewrite Z0, (inv_or_zero_0 o c HC) in *. rewrite (proj2 Z' eq_refl). reflexivity.
    + assert (Nz : pz p <> 0) by (intros X; apply Z in X; discriminate).
      pose proof (inv_or_zero_spec o c HC _ Nz) as I.
      split; [|rewrite <- B2; ring].
      f_equal. f_equal.
      assert (Et : acc * j = inv_or_zero o (pz p)).
      { apply (mul_cancel_l o H (pz p) _ _ Nz). transitivity (j * (acc * pz p)); [ring|].
        rewrite B2, <- I. ring. }
      rewrite Et. destruct (fis0 o (inv_or_zero o (pz p))); [|reflexivity].
      exfalso. rewrite (proj1 Z' eq_refl) in I. apply (fl_1_0 _ H). rewrite <- I. ring.
Qed.

Theorem batch_normalize_spec ps : batch_normalize o ps = Some (map (to_affine o) ps).
Proof.
  unfold batch_normalize. destruct (bn_forward o 1 ps) as [qs r] eqn:E.
  destruct (bn_correct ps 1 qs r (fl_1_0 _ H) E) as [Hr Hi].
  destruct (fl_inv _ H r Hr) as (i & -> & Ei). f_equal.
  destruct (Hi i) as [-> _]; [rewrite <- Ei; ring|]. apply rev_involutive.
Qed.

(** *** Jacobian coordinates *)
Theorem jacobian_round_trip p P : prep o c p P ->
  let '(x, y, z) := jacobian_coordinates o p in
  exists q, new_jacobian o c x y z = Some q /\ prep o c q P.
Proof.
  intros Hp. unfold jacobian_coordinates, new_jacobian. cbv zeta.
  pose proof (is_identity_repr o c HC p P Hp) as Ei. unfold proj_is_identity in Ei. rewrite Ei.
  match goal with |- exists q, (if proj_is_on_curve o c ?q then _ else _) = _ /\ _ =>
    assert (Hq : prep o c q P); [|assert (Eo : proj_is_on_curve o c q = true)] end.
  - destruct P as [[x y]|]; cbn [select].
    + destruct Hp as (O & Nz & E1 & E2). pose proof (inv_or_zero_spec o c HC _ Nz) as I.
      split; [exact O|]. cbn [px py pz]. rewrite !(rl_sqr _ HR), E1, E2. repeat split; [exact Nz|..].
      * transitivity (x * pz p * (inv_or_zero o (pz p) * pz p)); [ring|]. rewrite I. ring.
      * transitivity (y * pz p * (inv_or_zero o (pz p) * pz p) * (inv_or_zero o (pz p) * pz p)); [ring|].
        rewrite I. ring.
    + destruct Hp as (O & E1 & _ & E2). split; [exact O|]. cbn [px py pz]. rewrite E2.
      repeat split; [ring|apply (fl_1_0 _ H)].
  - apply (proj_on_curve_iff o c HC). destruct P as [[x y]|].
    + right. exists x, y. exact Hq.
    + left. apply Hq.
  - rewrite Eo. eexists. split; [reflexivity|exact Hq].
Qed.

Theorem from_xy_spec x y : from_xy o c x y = Some (mk_aff x y) /\ (exists P, arep o c (mk_aff x y) P)
  \/ from_xy o c x y = None /\ ~ exists P, arep o c (mk_aff x y) P.
Proof.
  unfold from_xy. cbv zeta. pose proof (aff_on_curve_iff o c HC (mk_aff x y)) as E.
  destruct (aff_is_on_curve o c (mk_aff x y)).
  - left. split; [reflexivity|]. apply E. reflexivity.
  - right. split; [reflexivity|]. intros X. apply E in X. discriminate.
Qed.

(** *** The endomorphism (x,y) -> (zeta x, y) of y^2 = x^3 + b *)
Section Endo.
Context (zeta : F) (Ha : a = 0) (Hz : zeta * zeta * zeta = 1).
Definition pt_endo (P : point (F := F)) : point :=
  match P with None => None | Some (x, y) => Some (x * zeta, y) end.

Lemma zeta_nz : zeta <> 0.
Proof. intros E. apply (fl_1_0 _ H). rewrite <- Hz, E. ring. Qed.

Lemma endo_on P : on P -> on (pt_endo P).
Proof.
  destruct P as [[x y]|]; [|trivial]. cbn [on_curve pt_endo]. rewrite Ha. intros ->.
  transitivity (x * x * x * 1 + b); [ring|]. rewrite <- Hz. ring.
Qed.

Lemma endo_add P Q : on P -> on Q -> pt_endo (add P Q) = add (pt_endo P) (pt_endo Q).
Proof.
  intros hP hQ. destruct P as [[x1 y1]|]; [|reflexivity].
  destruct Q as [[x2 y2]|]; [|cbn [pt_endo]; rewrite (add_0_r o a); reflexivity].
  destruct (opp_dec o H x1 y1 x2 y2) as [O|N].
  - rewrite (add_opp o a H _ _ _ _ O). cbn [pt_endo]. destruct O as (-> & ->).
    rewrite (add_opp o a H); [reflexivity|]. split; reflexivity.
  - destruct (add_slope o a b H H2 _ _ _ _ hP hQ N) as (l & S & ->). cbn [pt_endo pt_line].
    rewrite (add_of_slope o a b H H2 (l * (zeta * zeta)) (x1 * zeta) y1 (x2 * zeta) y2).
    + unfold pt_line. f_equal. f_equal.
      * transitivity (l * l * zeta * (zeta * zeta * zeta) - x1 * zeta - x2 * zeta); [rewrite Hz; ring|ring].
      * transitivity (l * (zeta * zeta * zeta) * (x1 - (l * l * (zeta * zeta * zeta) - x1 - x2)) - y1); [rewrite Hz; ring|ring].
    + exact (endo_on _ hP).
    + exact (endo_on _ hQ).
    + intros (E & E'). apply N. split; [|exact E'].
      apply (mul_cancel_l o H zeta _ _ zeta_nz). transitivity (x1 * zeta); [ring|]. rewrite E. ring.
    + destruct S as (A & B). unfold slope in *. rewrite Ha in *. split.
      * rewrite A. transitivity (l * (zeta * zeta * zeta) * (x1 - x2)); [rewrite Hz; ring|ring].
      * transitivity (zeta * zeta * (l * (y1 + y2))); [ring|]. rewrite B. ring.
Qed.

Lemma endo_neg P : pt_endo (pt_neg o P) = pt_neg o (pt_endo P).
Proof. destruct P as [[x y]|]; reflexivity. Qed.

Lemma endo_mulz k P : on P -> pt_endo (mulz k P) = mulz k (pt_endo P).
Proof.
  intros hP.
  assert (G : forall n, pt_endo (pt_mul o a n P) = pt_mul o a n (pt_endo P)).
  { induction n as [|n IH]; [reflexivity|]. cbn [pt_mul].
    rewrite endo_add, IH; [reflexivity|exact hP|apply (mul_on o a b H H2); exact hP]. }
  destruct k as [|k|k]; cbn [pt_mulz]; [reflexivity|apply G|]. rewrite endo_neg, G. reflexivity.
Qed.

Theorem proj_endo_repr p P : prep o c p P -> prep o c (proj_endo o zeta p) (pt_endo P).
Proof.
  intros (O & Hp). split; [apply endo_on; exact O|]. destruct P as [[x y]|]; cbn [pt_endo proj_endo px py pz].
  - destruct Hp as (A & -> & ->). repeat split; [exact A|ring].
  - destruct Hp as (-> & A & ->). repeat split; [ring|exact A].
Qed.

(** If the endomorphism multiplies one point by [lam], it does so on the
    subgroup generated by it. *)
Theorem endo_eigen lam G : on G -> pt_endo G = mulz lam G ->
  forall k, pt_endo (mulz k G) = mulz lam (mulz k G).
Proof.
  intros hG E k. rewrite endo_mulz, E, <- !mulz_mul by exact hG. f_equal. lia.
Qed.
End Endo.
End Points.
