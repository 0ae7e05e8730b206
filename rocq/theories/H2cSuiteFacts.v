(** The suites of the crate: instances of the facts on the maps and the isogenies. *)
From Verif Require Import Base Algebra Pow Tower TowerFacts FiniteField Word Field Params PrimeField Compute ConstFacts
  TowerParams TowerInst SpecCurve SpecCurveFacts Curve CurveFacts CurveParams CurveCheck CurveInst CrateCurves
  Sqrt2 Sqrt2Facts Props_Sqrt2 Props_Field2 SpecH2c H2c H2cParams H2cFacts IsoFacts H2cInst H2cSuites.
From Bignums Require Import BigZ.
Local Open Scope Z_scope.

(** ** Generic part *)
Section Gen.
Context {F : Type} (o : fops F) (c : cconf F) (HC : curve_laws o c) (q : Z) (HF : finite_field o q).
Context (sqrt : F -> sq_out F) (HS : sqrt_ok o sqrt) (is_odd : F -> bool).
Let H := cl_field _ _ HC.
Let HR := fl_rl _ H.
Add Field FG : (field_thy o H).

Lemma zpows3 z j : (j < 3)%nat -> nth j [z; fsqr o z; fmul o (fsqr o z) z] (f0 o) = fpow_nat o z (S j).
Proof using HC.
  clear - HR. intros Hj. rewrite (rl_sqr _ HR).
  destruct j as [|[|[|j]]]; [| | |lia]; cbn [nth fpow_nat]; ring.
Qed.

Definition iso_ok (a' b' : F) (iso : F -> F -> F -> proj F) : Prop := forall t s z, z <> f0 o ->
  fmul o s s = curve_rhs o a' b' t -> exists X Y, prep o c (iso (fmul o t z) (fmul o s z) z) (Some (X, Y)).

Lemma sswu_total iso a b z : a <> f0 o -> ~ is_square o z ->
  (forall x, fmul o x (fmul o z a) = b -> is_square o (curve_rhs o a b x)) ->
  iso_ok a b iso -> forall u, exists t s w X Y,
    sswu_closure o sqrt is_odd iso a b z u = HRet (iso (fmul o t w) (fmul o s w) w) /\ w <> f0 o /\
    sswu_spec o is_odd a b z u t s /\ prep o c (iso (fmul o t w) (fmul o s w) w) (Some (X, Y)).
Proof.
  intros Za Nz He Hi u.
  destruct (sswu_map_spec o H (cl_is0 _ _ HC) q HF (cl_two _ _ HC) sqrt HS is_odd a b z u Za Nz He)
    as (x & y & w & t & s & E & Zw & -> & -> & On & Sp).
  destruct (Hi t s w Zw On) as (X & Y & P). exists t, s, w, X, Y.
  unfold sswu_closure. rewrite E. cbn [h_bind]. auto.
Qed.

Lemma svdw_total qnr two_inv z : qnr_ok o qnr -> fadd o two_inv two_inv = f1 o ->
  let T := fadd o (fmul o (fadd o (fadd o (f1 o) (f1 o)) (f1 o)) (fmul o z z))
             (fmul o (fadd o (fadd o (fadd o (f1 o) (f1 o)) (f1 o)) (f1 o)) (ca c)) in
  T <> f0 o /\ is_square o (fmul o (fneg o (curve_rhs o (ca c) (cb c) z)) T) /\
  (forall h, fadd o h h = fneg o z -> is_square o (curve_rhs o (ca c) (cb c) h) \/ is_square o (curve_rhs o (ca c) (cb c) z)) ->
  forall u, exists x y, svdw_closure o sqrt is_odd qnr c two_inv z u = HRet (mk_proj x y (f1 o)) /\
    svdw_spec o is_odd (ca c) (cb c) z u x y /\ prep o c (mk_proj x y (f1 o)) (Some (x, y)).
Proof.
  intros HQ H2i T (ZT & ST & He) u.
  destruct (svdw_closure_spec o H (cl_is0 _ _ HC) q HF (cl_two _ _ HC) sqrt HS is_odd qnr HQ c HC two_inv z u H2i ZT ST He)
    as (x & y & E & On & Sp). exists x, y. split; [exact E|]. split; [exact Sp|]. split.
  - cbn [on_curve]. exact On.
  - cbn [px py pz]. split; [exact (fl_1_0 _ H)|]. split; ring.
Qed.
End Gen.

(** ** Prime fields *)
Section Prime.
Context (cf : fconf) (Hi : In cf all_fields) {F : Type} (o : fops F) (inj : Z -> F).
Context (HP : prime_field (modulus cf) o inj).
Let H := pf_laws _ _ _ HP.
Let phi (b : bigZ) : F := inj (BigZ.to_Z b).
Let ob := bz_ops (BigZ.of_Z (modulus cf)).
Let Hphi : fhom ob o phi := bz_hom _ o inj HP.
Let HF := prime_field_finite _ _ _ HP.
Lemma p_eqb x y : feqb ob x y = true -> phi x = phi y.
Proof. cbn [ob bz_ops feqb]. intros E. apply BigZ.eqb_eq in E. unfold phi. rewrite E. reflexivity. Qed.
Lemma p_of_Z x : phi (BigZ.of_Z x) = inj x.
Proof. unfold phi. rewrite BigZ.spec_of_Z. reflexivity. Qed.
Lemma p_list l : map phi (b_list l) = map inj l.
Proof. unfold b_list. rewrite map_map. apply map_ext. exact p_of_Z. Qed.

Lemma fq_sqrt_ok : sqrt_ok o (fq_sqrt o inj cf).
Proof.
  intros x. unfold fq_sqrt. pose proof (fp_sqrt_spec cf o inj Hi HP x) as E.
  destruct (fp_sqrt o inj cf x) as [r|]; [left; exists r; auto|right; auto].
Qed.

Lemma sswu1_ok s cert : fadd o (f1 o) (f1 o) <> f0 o -> sswu_check1 (modulus cf) s cert = true ->
  inj (sw_a s) <> f0 o /\ ~ is_square o (inj (sw_z s)) /\
  (forall x, fmul o x (fmul o (inj (sw_z s)) (inj (sw_a s))) = inj (sw_b s) ->
     is_square o (curve_rhs o (inj (sw_a s)) (inj (sw_b s)) x)).
Proof.
  intros H2 E. pose proof (sswu_check_ok ob o phi Hphi H p_eqb (modulus cf) HF H2 _ _ _ _ E) as X.
  rewrite !p_of_Z in X. exact X.
Qed.

Lemma svdw1_ok z cc cert (c : cconf F) : fadd o (f1 o) (f1 o) <> f0 o -> svdw_check1 (modulus cf) z cc cert = true ->
  ca c = inj (cc_a cc) -> cb c = inj (cc_b cc) ->
  let z := inj z in
  let T := fadd o (fmul o (fadd o (fadd o (f1 o) (f1 o)) (f1 o)) (fmul o z z))
             (fmul o (fadd o (fadd o (fadd o (f1 o) (f1 o)) (f1 o)) (f1 o)) (ca c)) in
  T <> f0 o /\ is_square o (fmul o (fneg o (curve_rhs o (ca c) (cb c) z)) T) /\
  (forall h, fadd o h h = fneg o z -> is_square o (curve_rhs o (ca c) (cb c) h) \/ is_square o (curve_rhs o (ca c) (cb c) z)).
Proof.
  intros H2 E -> ->. pose proof (svdw_check_ok ob o phi Hphi H p_eqb H2 _ _ _ _ E) as X.
  cbv zeta in X. rewrite !p_of_Z in X. exact X.
Qed.

Lemma two_inv1 : fadd o (inj (two_inv_int cf)) (inj (two_inv_int cf)) = f1 o.
Proof.
  pose proof (two_inverse cf (field_odd cf Hi) (field_prime cf Hi)) as E.
  rewrite <- (zh_add _ _ (pf_hom _ _ _ HP)). replace (two_inv_int cf + two_inv_int cf) with (2 * two_inv_int cf) by ring.
  rewrite <- (pf_mod _ _ _ HP), E. apply (zh_1 _ _ (pf_hom _ _ _ HP)).
Qed.

Lemma iso1_ok a' b' b K : iso_check1 (modulus cf) a' b' b K = true -> forall x,
  let ev i := peval o (map inj (nth i K [])) x in
  fmul o (ev 1%nat) (fmul o (ev 1%nat) (ev 1%nat)) =
    fmul o (phi (last (b_list (nth 1 K [])) (f0 ob))) (fmul o (ev 3%nat) (ev 3%nat)) /\
  fmul o (fmul o (curve_rhs o (inj a') (inj b') x) (fmul o (ev 2%nat) (ev 2%nat))) (fmul o (ev 1%nat) (fmul o (ev 1%nat) (ev 1%nat))) =
  fmul o (fadd o (fmul o (ev 0%nat) (fmul o (ev 0%nat) (ev 0%nat))) (fmul o (inj b) (fmul o (ev 1%nat) (fmul o (ev 1%nat) (ev 1%nat)))))
    (fmul o (ev 3%nat) (ev 3%nat)).
Proof.
  intros E x. cbv zeta. pose proof (iso_check_ok ob o phi Hphi H p_eqb _ _ _ _ _ _ _ E x) as X.
  rewrite !p_list, !p_of_Z in X. exact X.
Qed.

Lemma kernel1_ok a' b' r XD : fadd o (f1 o) (f1 o) <> f0 o ->
  kernel_check ob (modulus cf) (BigZ.of_Z a') (BigZ.of_Z b') (BigZ.of_Z r) (b_list XD) = true ->
  forall x s, fmul o s s = curve_rhs o (inj a') (inj b') x -> peval o (map inj XD) x <> f0 o.
Proof.
  intros H2 E x s Es. pose proof (kernel_check_ok ob o phi Hphi H p_eqb (modulus cf) _ _ _ _ HF H2 E x s) as X.
  rewrite !p_of_Z, p_list in X. exact (X Es).
Qed.
End Prime.

(** ** Quadratic extensions *)
Section Quad.
Context (t : tower_conf) {F : Type} (o : fops F) (inj : Z -> F) (HP : prime_field (modulus (t_field t)) o inj).
Context (mnr : F -> F) (sq : quad F -> quad F).
Hypothesis Hm : forall x, mnr x = fmul o (inj (t_beta t)) x.
Hypothesis Hsq : forall a, sq a = quad_mul o mnr a a.
Let o2 := quad_ops o mnr sq.
Hypothesis H2 : field_laws o2.
Hypothesis H2f : finite_field o2 (modulus (t_field t) * modulus (t_field t)).
Hypothesis Hchar : fadd o2 (f1 o2) (f1 o2) <> f0 o2.
Let phi (b : bigZ) : F := inj (BigZ.to_Z b).
Let phi2m := quad_map phi.
Let Hphi : fhom (bz2_ops t) o2 phi2m := phi2_hom t o inj HP mnr sq Hm Hsq.
Let Heq : forall x y, feqb (bz2_ops t) x y = true -> phi2m x = phi2m y := phi2_eqb t inj.
Let Hb2 : forall x, phi2m (b2 x) = inj2 inj x := phi2_b2 inj.
Lemma q_list l : map phi2m (b2_list l) = map (inj2 inj) l.
Proof. unfold b2_list. rewrite map_map. apply map_ext. exact Hb2. Qed.

Lemma sswu2_ok s cert : sswu_check2 t s cert = true ->
  inj2 inj (sw_a s) <> f0 o2 /\ ~ is_square o2 (inj2 inj (sw_z s)) /\
  (forall x, fmul o2 x (fmul o2 (inj2 inj (sw_z s)) (inj2 inj (sw_a s))) = inj2 inj (sw_b s) ->
     is_square o2 (curve_rhs o2 (inj2 inj (sw_a s)) (inj2 inj (sw_b s)) x)).
Proof.
  intros E. pose proof (sswu_check_ok (bz2_ops t) o2 phi2m Hphi H2 Heq _ H2f Hchar _ _ _ _ E) as X.
  rewrite !Hb2 in X. exact X.
Qed.

Lemma svdw2_ok z cc cert (c : cconf (quad F)) : svdw_check2 t z cc cert = true ->
  ca c = inj2 inj (cc_a cc) -> cb c = inj2 inj (cc_b cc) ->
  let z := inj2 inj z in
  let T := fadd o2 (fmul o2 (fadd o2 (fadd o2 (f1 o2) (f1 o2)) (f1 o2)) (fmul o2 z z))
             (fmul o2 (fadd o2 (fadd o2 (fadd o2 (f1 o2) (f1 o2)) (f1 o2)) (f1 o2)) (ca c)) in
  T <> f0 o2 /\ is_square o2 (fmul o2 (fneg o2 (curve_rhs o2 (ca c) (cb c) z)) T) /\
  (forall h, fadd o2 h h = fneg o2 z -> is_square o2 (curve_rhs o2 (ca c) (cb c) h) \/ is_square o2 (curve_rhs o2 (ca c) (cb c) z)).
Proof.
  intros E -> ->. pose proof (svdw_check_ok (bz2_ops t) o2 phi2m Hphi H2 Heq Hchar _ _ _ _ E) as X.
  cbv zeta in X. rewrite !Hb2 in X. exact X.
Qed.

Lemma iso2_ok a' b' b K : iso_check2 t a' b' b K = true -> forall x,
  let ev i := peval o2 (map (inj2 inj) (nth i K [])) x in
  fmul o2 (ev 1%nat) (fmul o2 (ev 1%nat) (ev 1%nat)) =
    fmul o2 (phi2m (last (b2_list (nth 1 K [])) (f0 (bz2_ops t)))) (fmul o2 (ev 3%nat) (ev 3%nat)) /\
  fmul o2 (fmul o2 (curve_rhs o2 (inj2 inj a') (inj2 inj b') x) (fmul o2 (ev 2%nat) (ev 2%nat))) (fmul o2 (ev 1%nat) (fmul o2 (ev 1%nat) (ev 1%nat))) =
  fmul o2 (fadd o2 (fmul o2 (ev 0%nat) (fmul o2 (ev 0%nat) (ev 0%nat))) (fmul o2 (inj2 inj b) (fmul o2 (ev 1%nat) (fmul o2 (ev 1%nat) (ev 1%nat)))))
    (fmul o2 (ev 3%nat) (ev 3%nat)).
Proof.
  intros E x. cbv zeta. pose proof (iso_check_ok (bz2_ops t) o2 phi2m Hphi H2 Heq _ _ _ _ _ _ _ E x) as X.
  rewrite !q_list, !Hb2 in X. exact X.
Qed.

Lemma kernel2_ok a' b' r XD :
  kernel_check (bz2_ops t) (modulus (t_field t) * modulus (t_field t)) (b2 a') (b2 b') (b2 r) (b2_list XD) = true ->
  forall x s, fmul o2 s s = curve_rhs o2 (inj2 inj a') (inj2 inj b') x -> peval o2 (map (inj2 inj) XD) x <> f0 o2.
Proof.
  intros E x s Es. pose proof (kernel_check_ok (bz2_ops t) o2 phi2m Hphi H2 Heq _ _ _ _ _ H2f Hchar E x s) as X.
  rewrite !Hb2, q_list in X. exact (X Es).
Qed.
End Quad.

(** ** Isogenies *)
Definition hor (p x : Z) (l : list Z) : Z := fold_right (fun k acc => (k + x * acc) mod p) 0 l.
Definition kernel_tv : Z :=
  let t1 := sw_z bls_g1_sswu * (bls_g1_kernel_u * bls_g1_kernel_u) in t1 * t1 + t1.
Lemma kernel_chk1 : hor (modulus bls12381_fq) bls_g1_kernel (nth 1 (sw_iso bls_g1_sswu) []) = 0.
Proof. vm_compute. reflexivity. Qed.
Lemma kernel_chk2 : hor (modulus bls12381_fq) bls_g1_kernel (nth 3 (sw_iso bls_g1_sswu) []) = 0.
Proof. vm_compute. reflexivity. Qed.
Lemma kernel_chk3 : (bls_g1_kernel_y * bls_g1_kernel_y -
  (bls_g1_kernel * bls_g1_kernel * bls_g1_kernel + sw_a bls_g1_sswu * bls_g1_kernel + sw_b bls_g1_sswu)) mod modulus bls12381_fq = 0.
Proof. vm_compute. reflexivity. Qed.
Lemma kernel_chk4 : (bls_g1_kernel * (sw_a bls_g1_sswu * kernel_tv) + sw_b bls_g1_sswu * (kernel_tv + 1)) mod modulus bls12381_fq = 0.
Proof. vm_compute. reflexivity. Qed.
Lemma kernel_chk5 : (sw_a bls_g1_sswu * kernel_tv * bls_g1_kernel_i) mod modulus bls12381_fq = 1.
Proof. vm_compute. reflexivity. Qed.

Section Isogenies.
Lemma nth_map_map {A B} (f : A -> B) (K : list (list A)) i : nth i (map (map f) K) [] = map f (nth i K []).
Proof. change (@nil B) with (map f []). apply map_nth. Qed.

Context {F : Type} (o : fops F) (inj : Z -> F).
Infix "*" := (fmul o).

Section K1.
Context (HP : prime_field (modulus secp256k1_fp) o inj).
Let c := curve_of o inj secp256k1_consts.
Let HC := cf_laws _ _ _ _ (crate_curve_facts _ _ _ _ (cv_secp256k1 F o inj HP)).
Let H := cl_field _ _ HC.
Add Ring RK1 : (rl_ring _ (fl_rl _ H)).
Theorem secp256k1_iso t s z : z <> f0 o ->
  s * s = curve_rhs o (inj (sw_a secp256k1_sswu)) (inj (sw_b secp256k1_sswu)) t ->
  let ev i := peval o (map inj (nth i secp_iso_polys [])) t in
  exists X Y, X * ev 1%nat = ev 0%nat /\ Y * ev 3%nat = s * ev 2%nat /\ ev 1%nat <> f0 o /\ ev 3%nat <> f0 o /\
    prep o c (iso_map_secp256k1 o (map (map inj) (sw_iso secp256k1_sswu)) (t * z) (s * z) z) (Some (X, Y)).
Proof.
  intros Zz Es ev.
  assert (ZD : ev 1%nat <> f0 o).
  { exact (kernel1_ok secp256k1_fp o inj HP _ _ _ _ (cl_two _ _ HC) (proj1 kernel_checks) t s Es). }
  destruct (iso1_ok secp256k1_fp o inj HP _ _ _ _ (proj1 iso_checks) t) as (E1 & E2).
  assert (Zk : z * z * z * (z * z * z * z) <> f0 o).
  { repeat (apply (mul_nonzero o H)); exact Zz. }
  assert (Ca : ca c = f0 o) by (exact (zh_0 _ _ (pf_hom _ _ _ HP))).
  destruct (iso_repr o c HC _ _ _ _ _ _ _ t s _ Ca Zk Es ZD E1 E2) as (X & Y & EX & EY & ZY & P).
  exists X, Y. split; [exact EX|]. split; [exact EY|]. split; [exact ZD|]. split; [exact ZY|].
  rewrite (secp_eval o c HC). 
  assert (C : forall i j, coef o (map (map inj) (sw_iso secp256k1_sswu)) i j = inj (nth j (nth i (sw_iso secp256k1_sswu) []) 0%Z)).
  { intros i j. unfold coef. rewrite nth_map_map, <- (map_nth inj). f_equal. symmetry. exact (zh_0 _ _ (pf_hom _ _ _ HP)). }
  rewrite !C, <- (zh_1 _ _ (pf_hom _ _ _ HP)). exact P.
Qed.
End K1.

Section G1.
Context (HP : prime_field (modulus bls12381_fq) o inj).
Let c := curve_of o inj bls_g1_consts.
Let HC := cf_laws _ _ _ _ (crate_curve_facts _ _ _ _ (cv_bls_g1 F o inj HP)).
Let H := cl_field _ _ HC.
Add Ring RG1 : (rl_ring _ (fl_rl _ H)).
Notation poly := (fun i => map inj (nth i (sw_iso bls_g1_sswu) [])).

Lemma g1_eval t s z : z <> f0 o -> exists k, k <> f0 o /\
  iso_map_g1 o (map (map inj) (sw_iso bls_g1_sswu)) (t * z) (s * z) z =
  let ev i := peval o (poly i) t in
  mk_proj (k * (ev 0%nat * ev 3%nat)) (k * (s * ev 2%nat * ev 1%nat)) (k * (ev 1%nat * ev 3%nat)).
Proof.
  intros Zz. unfold iso_map_g1.
  assert (ZP : length (zpow_list o 15 z z) = 15%nat) by reflexivity.
  destruct (iso_finish_eval o c HC (map (map inj) (sw_iso bls_g1_sswu)) (zpow_list o 15 z z) t s z) as (k & Zk & E).
  - intros j Hj _. rewrite (zpow_list_nth o c HC) by exact Hj. reflexivity.
  - rewrite !nth_map_map, !map_length. reflexivity.
  - rewrite !nth_map_map, !map_length. reflexivity.
  - rewrite !nth_map_map, !map_length. cbn. lia.
  - rewrite !nth_map_map, !map_length. cbn. lia.
  - rewrite ZP, !nth_map_map, !map_length. cbn. lia.
  - rewrite ZP, !nth_map_map, !map_length. cbn. lia.
  - rewrite ZP. lia.
  - exact Zz.
  - rewrite !nth_map_map in E. exists k. split; [exact Zk|exact E].
Qed.

Theorem bls_g1_iso t s z : z <> f0 o ->
  s * s = curve_rhs o (inj (sw_a bls_g1_sswu)) (inj (sw_b bls_g1_sswu)) t ->
  let ev i := peval o (poly i) t in ev 1%nat <> f0 o ->
  exists X Y, X * ev 1%nat = ev 0%nat /\ Y * ev 3%nat = s * ev 2%nat /\ ev 3%nat <> f0 o /\
    prep o c (iso_map_g1 o (map (map inj) (sw_iso bls_g1_sswu)) (t * z) (s * z) z) (Some (X, Y)).
Proof.
  intros Zz Es ev ZD.
  destruct (iso1_ok bls12381_fq o inj HP _ _ _ _ (proj1 (proj2 iso_checks)) t) as (E1 & E2).
  destruct (g1_eval t s z Zz) as (k & Zk & E). rewrite E. cbv zeta.
  assert (Ca : ca c = f0 o) by (exact (zh_0 _ _ (pf_hom _ _ _ HP))).
  exact (iso_repr o c HC _ _ _ _ _ _ _ t s k Ca Zk Es ZD E1 E2).
Qed.

(** The kernel has rational points: there the map returns (0, 0, 0). *)
Lemma hor_peval x l :
  peval o (map inj l) (inj x) = inj (hor (modulus bls12381_fq) x l).
Proof.
  unfold hor. induction l as [|k l IH]; cbn [map peval fold_right].
  - symmetry. exact (zh_0 _ _ (pf_hom _ _ _ HP)).
  - rewrite IH, (pf_mod _ _ _ HP), (zh_add _ _ (pf_hom _ _ _ HP)), (zh_mul _ _ (pf_hom _ _ _ HP)). reflexivity.
Qed.

Lemma kernel_point : let x := inj bls_g1_kernel in let y := inj bls_g1_kernel_y in
  y * y = curve_rhs o (inj (sw_a bls_g1_sswu)) (inj (sw_b bls_g1_sswu)) x /\
  peval o (poly 1%nat) x = f0 o /\ peval o (poly 3%nat) x = f0 o.
Proof.
  pose proof kernel_chk3 as E3.
  pose proof (pf_hom _ _ _ HP) as Hh. cbv zeta. split; [|split].
  - apply (pf_zero_iff _ _ _ HP) in E3. rewrite (inj_sub _ (fl_rl _ H) _ Hh), !(zh_add _ _ Hh), !(zh_mul _ _ Hh) in E3.
    unfold curve_rhs. set (A := inj bls_g1_kernel_y * inj bls_g1_kernel_y) in *.
    match type of E3 with fsub o A ?B = _ => transitivity (fadd o (fsub o A B) B); [ring|rewrite E3; ring] end.
  - rewrite hor_peval, kernel_chk1. exact (zh_0 _ _ Hh).
  - rewrite hor_peval, kernel_chk2. exact (zh_0 _ _ Hh).
Qed.

Lemma kernel_iso s z : z <> f0 o ->
  iso_map_g1 o (map (map inj) (sw_iso bls_g1_sswu)) (inj bls_g1_kernel * z) (s * z) z = mk_proj (f0 o) (f0 o) (f0 o).
Proof.
  intros Zz. destruct (g1_eval (inj bls_g1_kernel) s z Zz) as (k & _ & ->). cbv zeta.
  destruct kernel_point as (_ & E1 & E3). cbv zeta in E1, E3. rewrite E1, E3. f_equal; ring.
Qed.

Lemma sswu_kernel (is_odd : F -> bool) :
  let u := inj bls_g1_kernel_u in
  bls_g1_map o inj is_odd u = HRet (mk_proj (f0 o) (f0 o) (f0 o)).
Proof.
  assert (HS : sqrt_ok o (fq_sqrt o inj bls12381_fq)) by (apply fq_sqrt_ok; [|exact HP]; vm_compute; tauto).
  destruct (sswu1_ok bls12381_fq o inj HP bls_g1_sswu bls_g1_sswu_cert (cl_two _ _ HC) (proj1 (proj2 (proj2 sswu_checks))))
    as (Za & Nz & He).
  cbv zeta. unfold bls_g1_map, sswu_suite, sswu_closure. set (u := inj bls_g1_kernel_u).
  destruct (sswu_map_spec o H (cl_is0 _ _ HC) _ (prime_field_finite _ _ _ HP) (cl_two _ _ HC) (fq_sqrt o inj bls12381_fq) HS
    is_odd (inj (sw_a bls_g1_sswu)) (inj (sw_b bls_g1_sswu)) (inj (sw_z bls_g1_sswu)) u Za Nz He)
    as (x & y & w & t & s & E & Zw & -> & -> & On & x1 & S0 & S1 & Sq & _). cbv zeta in S0, S1.
  rewrite E. cbn [h_bind]. f_equal.
  enough (t = inj bls_g1_kernel) as -> by exact (kernel_iso s w Zw).
  destruct kernel_point as (On' & _). cbv zeta in On'. 
  pose proof kernel_chk4 as C1. pose proof kernel_chk5 as C2. unfold kernel_tv in C1, C2. cbv zeta in C1, C2.
  pose proof (pf_hom _ _ _ HP) as Hh.
  apply (pf_zero_iff _ _ _ HP) in C1. apply (f_equal inj) in C2. rewrite (pf_mod _ _ _ HP) in C2.
  repeat first [rewrite (zh_add _ _ Hh) in C1 | rewrite (zh_mul _ _ Hh) in C1 | rewrite (zh_1 _ _ Hh) in C1].
  repeat first [rewrite (zh_add _ _ Hh) in C2 | rewrite (zh_mul _ _ Hh) in C2 | rewrite (zh_1 _ _ Hh) in C2].
  fold u in C1, C2. set (tv := fadd o (inj (sw_z bls_g1_sswu) * (u * u) * (inj (sw_z bls_g1_sswu) * (u * u))) (inj (sw_z bls_g1_sswu) * (u * u))) in *.
  assert (Zat : inj (sw_a bls_g1_sswu) * tv <> f0 o).
  { intros X. apply (fl_1_0 _ H). rewrite <- C2, X. ring. }
  assert (Ztv : tv <> f0 o). { intros X. apply Zat. rewrite X. ring. }
  specialize (S1 Ztv).
  assert (E1 : x1 = inj bls_g1_kernel).
  { apply (mul_cancel_l o H (inj (sw_a bls_g1_sswu) * tv)); [exact Zat|].
    transitivity (x1 * (inj (sw_a bls_g1_sswu) * tv)); [ring|]. rewrite S1.
    match type of C1 with fadd o ?A ?B = _ => transitivity (fsub o (fadd o A B) B); [rewrite C1; ring|ring] end. }
  rewrite E1 in Sq. apply Sq. exists (inj bls_g1_kernel_y). exact On'.
Qed.
End G1.

Section G2.
Context (HP : prime_field (modulus bls12381_fq) o inj).
Let o2 := bls_fq2 o.
Let T := bls_tower_facts o inj HP.
Let c := curve_of o2 (inj2 inj) bls_g2_consts.
Let HC := cf_laws _ _ _ _ (crate_curve_facts _ _ _ _ (cv_bls_g2 F o inj HP)).
Let H := cl_field _ _ HC.
Notation poly := (fun i => map (inj2 inj) (nth i (sw_iso bls_g2_sswu) [])).

Theorem bls_g2_iso t s z : z <> f0 o2 ->
  fmul o2 s s = curve_rhs o2 (inj2 inj (sw_a bls_g2_sswu)) (inj2 inj (sw_b bls_g2_sswu)) t ->
  let ev i := peval o2 (poly i) t in
  exists X Y, fmul o2 X (ev 1%nat) = ev 0%nat /\ fmul o2 Y (ev 3%nat) = fmul o2 s (ev 2%nat) /\ ev 1%nat <> f0 o2 /\ ev 3%nat <> f0 o2 /\
    prep o2 c (iso_map_g2 o2 (map (map (inj2 inj)) (sw_iso bls_g2_sswu)) (fmul o2 t z) (fmul o2 s z) z) (Some (X, Y)).
Proof.
  intros Zz Es ev.
  assert (ZD : ev 1%nat <> f0 o2).
  { exact (kernel2_ok bls12381_tower o inj HP (mnr_neg o) (quad_square_complex o) (mnr_neg_inj o inj _ HP) (sq_complex o inj _ HP)
      (tf_2 _ _ _ _ _ T) (tf_2fin _ _ _ _ _ T) (cl_two _ _ HC) _ _ _ _ (proj2 kernel_checks) t s Es). }
  destruct (iso2_ok bls12381_tower o inj HP (mnr_neg o) (quad_square_complex o) (mnr_neg_inj o inj _ HP) (sq_complex o inj _ HP)
      (tf_2 _ _ _ _ _ T) _ _ _ _ (proj2 (proj2 iso_checks)) t) as (E1 & E2).
  unfold iso_map_g2. cbv zeta.
  destruct (iso_finish_eval o2 c HC (map (map (inj2 inj)) (sw_iso bls_g2_sswu)) [z; fsqr o2 z; fmul o2 (fsqr o2 z) z] t s z) as (k & Zk & E).
  - intros j _ Hj. exact (zpows3 o2 c HC z j Hj).
  - rewrite !nth_map_map, !map_length. reflexivity.
  - rewrite !nth_map_map, !map_length. reflexivity.
  - rewrite !nth_map_map, !map_length. cbn. lia.
  - rewrite !nth_map_map, !map_length. cbn. lia.
  - rewrite !nth_map_map, !map_length. cbn. lia.
  - rewrite !nth_map_map, !map_length. cbn. lia.
  - cbn. lia.
  - exact Zz.
  - rewrite !nth_map_map in E. rewrite E.
    assert (Ca : ca c = f0 o2).
    { unfold c, curve_of, bls_g2_consts, inj2. cbn [ca cc_a fst snd]. rewrite (zh_0 _ _ (pf_hom _ _ _ HP)). reflexivity. }
    destruct (iso_repr o2 c HC _ _ _ _ _ _ _ t s k Ca Zk Es ZD E1 E2) as (X & Y & EX & EY & ZY & P).
    exists X, Y. auto.
Qed.
End G2.
End Isogenies.

(** ** Non-residues of a quadratic extension *)
Section QuadQnr.
Context {F : Type} (p : Z) (o : fops F) (inj : Z -> F) (HP : prime_field p o inj).
Context (mnr : F -> F) (beta : F) (sq : quad F -> quad F).
Hypothesis Hp2 : 2 < p.
Hypothesis Hm : forall x, mnr x = fmul o beta x.
Hypothesis Hnr : forall x, fmul o x x <> beta.
Hypothesis Hsq : forall a, sq a = quad_mul o mnr a a.
Let H := pf_laws _ _ _ HP.
Let HR := fl_rl _ H.
Let o2 := quad_ops o mnr sq.
Let H2 : field_laws o2 := quad_field_laws o mnr beta H Hm Hnr sq Hsq.
Let HR2 := fl_rl _ H2.
Let FF := prime_field_finite _ _ _ HP.
Let FF2 : finite_field o2 (p * p) := quad_finite o mnr _ p FF Hm Hnr sq Hsq.
Add Ring FRq : (rl_ring _ HR).

Lemma embed_mul x y : fmul o2 (mk_quad x (f0 o)) (mk_quad y (f0 o)) = mk_quad (fmul o x y) (f0 o).
Proof using HR Hm.
  change (quad_mul o mnr (mk_quad x (f0 o)) (mk_quad y (f0 o)) = mk_quad (fmul o x y) (f0 o)).
  rewrite (quad_mul_school o mnr beta HR Hm). apply quad_ext; cbn [q0 q1]; ring.
Qed.
Lemma embed_pow x e : 0 <= e -> fpowz o2 (mk_quad x (f0 o)) e = mk_quad (fpowz o x e) (f0 o).
Proof using HR HR2 Hm.
  revert e. apply natlike_ind; [reflexivity|]. intros e He IH. unfold Z.succ.
  rewrite !(fpowz_succ _ HR), !(fpowz_succ _ HR2), IH, embed_mul by exact He. reflexivity.
Qed.

Lemma norm_square x : is_square o2 x <-> is_square o (quad_norm o mnr x).
Proof using FF2 HP Hp2 Hnr Hsq Hm.
  split.
  - intros (y & <-). exists (quad_norm o mnr y). symmetry. exact (quad_norm_mul o mnr beta HR Hm y y).
  - intros Hn. destruct (feqb o2 x (f0 o2)) eqn:E0.
    { apply (fl_eqb _ H2) in E0. rewrite E0. exists (f0 o2). exact (fpowz_zero _ HR2 2 ltac:(lia)). }
    assert (Nx : x <> f0 o2) by (intros X; apply (fl_eqb _ H2) in X; congruence).
    assert (NN : quad_norm o mnr x <> f0 o) by (intros X; apply Nx; exact (proj1 (quad_norm_zero o mnr beta H Hm Hnr x) X)).
    pose proof (square_half_pow o H p FF (pf_two _ _ _ HP Hp2) _ NN Hn) as E.
    apply (euler o2 H2 (p * p) FF2 (two_2 p o inj HP mnr sq Hp2) x Nx).
    destruct (p_odd p o inj HP Hp2) as [_ P0].
    rewrite (half2 p o inj HP Hp2), (Z.mul_comm _ (p + 1)), (fpowz_mul _ HR2) by lia.
    assert (X1 : fpowz o2 x 1 = x) by (apply fpowz_1; exact HR2).
    pose proof (norm_pow p o inj HP mnr beta sq Hp2 Hm Hnr Hsq x 1 ltac:(lia)) as NP.
    fold o2 in NP. rewrite X1, Z.mul_1_l in NP.
    assert (X2 : fmul o2 (fq2_frobenius o 1 x) x = mk_quad (quad_norm o mnr x) (f0 o)).
    { rewrite <- (quad_mul_conj o mnr beta HR Hm x). change (fq2_frobenius o 1 x) with (quad_conjugate o x).
      exact (Rmul_comm (rl_ring _ HR2) _ _). }
    rewrite <- NP, X2, embed_pow, E by lia. reflexivity.
Qed.

Theorem quad_qnr_ok qnr : qnr_ok o qnr -> qnr_ok o2 (quad_qnr o mnr qnr).
Proof using FF2 HP Hp2 Hnr Hsq Hm.
  intros HQ x. unfold quad_qnr. rewrite (HQ _), norm_square. reflexivity.
Qed.
End QuadQnr.
