(** C62: polynomial commitments (KZG) written with the functions of the crate: scalar multiplication,
    batch normalisation, multi-scalar multiplication, Fourier transform of scalars and of points,
    pairing.  The crate has no such scheme; this is what a caller such as halo2 gets from composing
    C03, C14, C16, C17, C26, C27, C28, C49 and C50. *)
From Verif Require Import Base Word Bytes Field SpecField Params FieldFacts BytesFacts
  Algebra Pow Tower TowerFacts FiniteField PrimeField Primality Certs TowerParams TowerInst SpecCurve SpecCurveFacts Group
  Curve CurveFacts CurveGroup CurveParams CurveCheck CurveCerts CurveInst CrateCurves Pairing PairingParams
  SpecPairing PairingFacts PairingInst Divisors PairingMiller Bilinear Props_Miller LimbField Fft FftInst Msm MsmFacts
  Props_Field Props_Field2 Props_Curve Props_Jacobi Props_Fft Props_Msm Props_Pairing Props_Bilinear Props_Nondeg Ecdsa SerdeInst Props_Signature.
Local Open Scope Z_scope.

(** ** What the caller writes *)
Section Caller.
Context {F : Type} (o : fops F) (c : cconf F) (sc : fconf).
(** The structured reference string: [g], [s g], [s^2 g], ... *)
Fixpoint srs_points (cur : proj F) (s : list Z) (n : nat) : list (proj F) :=
  match n with O => [] | S n => cur :: srs_points (proj_mul o c cur (to_repr sc s)) s n end.
Definition srs (g : aff F) (s : list Z) (n : nat) : option (list (aff F)) := batch_normalize o (srs_points (proj_generator o g) s n).
(** The commitment to a polynomial given by its coefficients, lowest first. *)
Definition commit (ln_ceil : nat -> Z) (threads : nat) (coeffs : list (list Z)) (bases : list (aff F)) : option (aff F) :=
  match msm_best o c sc ln_ceil threads coeffs bases with Some r => Some (to_affine o r) | None => None end.
(** Division by [X - z]: the quotient and the remainder, which is the value at [z]. *)
Fixpoint divide (z : list Z) (coeffs : list (list Z)) : list (list Z) * list Z :=
  match coeffs with
  | [] => ([], fe_zero sc)
  | a :: rest => let (q, v) := divide z rest in (v :: q, Field.fe_add sc a (Field.fe_mul sc z v))
  end.
(** [p - k g] *)
Definition shift (p g : aff F) (k : list Z) : aff F :=
  to_affine o (proj_sub o c (to_curve o p) (proj_mul o c (proj_generator o g) (to_repr sc k))).
(** The reference string for values on the group of roots of unity instead of coefficients. *)
Definition to_lagrange (threads : nat) (ps : list (proj F)) (w_inv n_inv : list Z) (k : nat) : option (list (aff F)) :=
  match best_fft (point_fft o c sc) threads ps w_inv k with
  | Some qs => batch_normalize o (map (fun q => proj_mul o c q (to_repr sc n_inv)) qs)
  | None => None
  end.
End Caller.
(** The verifier's equation for "the polynomial in [C] has the value [y] at [z]": the pairing of
    [C - y g1] with [g2] is that of the proof [W] with [s g2 - z g2]. *)
Definition kzg_check {F E} (o : fops F) (c1 : cconf F) (g1 : aff F) (o2 : fops (quad F)) (c2 : cconf (quad F)) (g2 : aff (quad F)) (sc : fconf)
    (e : aff F -> aff (quad F) -> option E) (C : aff F) (s2 : aff (quad F)) (z y : list Z) (W : aff F) : Prop :=
  exists v, e (shift o c1 sc C g1 y) g2 = Some v /\ e W (shift o2 c2 sc s2 g2 z) = Some v.

(** ** Polynomials *)
Definition zpeval (p : list Z) (x : Z) : Z := fold_right (fun a acc => a + x * acc) 0 p.
Section Ints.
Lemma mod_ex a b n : n <> 0 -> (a mod n = b mod n <-> exists k, a = b + k * n).
Proof.
  intros N. split.
  - intros E. exists (a / n - b / n). pose proof (Z.div_mod a n N). pose proof (Z.div_mod b n N). rewrite E in H. lia.
  - intros [k ->]. apply Z.mod_add. exact N.
Qed.
Lemma kate_step r v x px zv V w k j (Vm : Z) : px - V = (x - zv) * w + k * r -> V = r * j + Vm ->
  v + x * px - (v + zv * V) = (x - zv) * (Vm + x * w) + (x * k + (x - zv) * j) * r.
Proof. intros E1 E2. replace px with (V + ((x - zv) * w + k * r)) by lia. rewrite E2. ring. Qed.
End Ints.
Section Divide.
Context (sc : fconf) (Hc : odd_conf sc).
Notation repr := (represents (num_limbs sc) (modulus sc)). Notation r := (modulus sc).
Lemma zpeval_mod p x : zpeval p (x mod r) mod r = zpeval p x mod r.
Proof.
  induction p as [|a p IH]; [reflexivity|]. cbn [zpeval fold_right]. fold (zpeval p (x mod r)). fold (zpeval p x).
  rewrite Zplus_mod, Zmult_mod, IH, Z.mod_mod, <- Zmult_mod, <- Zplus_mod by (pose proof (proj1 Hc); lia). reflexivity.
Qed.
Lemma divide_spec z zv ks vs : repr z zv -> Forall2 repr ks vs ->
  exists ws, Forall2 repr (fst (divide sc z ks)) ws /\ length ws = length vs /\ repr (snd (divide sc z ks)) (zpeval vs zv mod r) /\
    forall x, (zpeval vs x - zpeval vs zv) mod r = ((x - zv) * zpeval ws x) mod r.
Proof.
  intros Rz HF. assert (P0 : r <> 0) by (pose proof (proj1 Hc); lia).
  induction HF as [|a v ks vs Ra HF (ws & Fw & Lw & Rv & Ew)].
  - exists []. cbn [divide fst snd zpeval fold_right]. split; [constructor|]. split; [reflexivity|]. split; [rewrite Z.mod_0_l by exact P0; exact (fe_zero_repr sc Hc)|].
    intros x. rewrite Z.mul_0_r. reflexivity.
  - cbn [divide]. destruct (divide sc z ks) as [q u]. cbn [fst snd] in *.
    exists (zpeval vs zv mod r :: ws). split; [constructor; assumption|]. split; [cbn; congruence|].
    cbn [zpeval fold_right]. fold (zpeval vs zv). split.
    + pose proof (fe_add_repr sc Hc _ _ _ _ Ra (fe_mul_repr sc Hc _ _ _ _ Rz Rv)) as X.
      rewrite Zplus_mod_idemp_r in X. rewrite Z.add_comm, <- Zplus_mod_idemp_l, Zmult_mod_idemp_r, Zplus_mod_idemp_l, Z.add_comm in X. exact X.
    + intros x. fold (zpeval vs x). fold (zpeval ws x). specialize (Ew x).
      apply mod_ex in Ew; [|exact P0]. destruct Ew as [k Ek].
      pose proof (Z.div_mod (zpeval vs zv) r P0) as Ev. apply mod_ex; [exact P0|].
      exists (x * k + (x - zv) * (zpeval vs zv / r)). apply (kate_step _ _ _ _ _ _ _ _ _ _ Ek Ev).
Qed.
End Divide.

(** ** Sums of multiples *)
Section Sums.
Context {G : Type} (g : gops G) (H : grp_laws g).
Notation m := (gmul g). Notation sum := (gsum g).
Lemma zsum_act {A} (f : A -> Z) l P : m (zsum (map f l)) P = sum (map (fun x => m (f x) P) l).
Proof.
  induction l as [|x l IH]; [exact (gmul_0 g P)|]. cbn [zsum map fold_right]. rewrite (gmul_add g H). fold (zsum (map f l)). rewrite IH. reflexivity.
Qed.
Lemma sum_const {A} (l : list A) : sum (map (fun _ => g0 g) l) = g0 g.
Proof. induction l as [|x l IH]; [reflexivity|]. cbn [map gsum fold_right]. fold (sum (map (fun _ : A => g0 g) l)). rewrite IH. apply (gl_0 _ H). Qed.
Lemma sum_swap {A B} (f : A -> B -> G) la lb :
  sum (map (fun a => sum (map (f a) lb)) la) = sum (map (fun b => sum (map (fun a => f a b) la)) lb).
Proof.
  induction la as [|a la IH].
  - symmetry. exact (sum_const lb).
  - cbn [map gsum fold_right]. fold (sum (map (fun a => sum (map (f a) lb)) la)). rewrite IH.
    rewrite <- (gsum_add g H (f a) (fun b => sum (map (fun a => f a b) la)) lb). reflexivity.
Qed.
Lemma combine_map {A B C} (f : A -> B) (la : list A) (lc : list C) : combine (map f la) lc = map (fun x => (f (fst x), snd x)) (combine la lc).
Proof. revert lc. induction la as [|a la IH]; intros [|y lc]; try reflexivity. cbn [map combine fst snd]. rewrite IH. reflexivity. Qed.
Lemma combine_map_r {A B C} (f : A -> B) (la : list A) (lc : list C) : length la = length lc ->
  map snd (combine (map f la) lc) = lc /\ combine lc (map f la) = map (fun x => (snd x, f (fst x))) (combine la lc).
Proof.
  revert lc. induction la as [|a la IH]; intros [|y lc] L; try discriminate L; [split; reflexivity|].
  injection L as L. destruct (IH lc L) as [I1 I2]. cbn [map combine fst snd]. rewrite I1, I2. split; reflexivity.
Qed.
(** The transform of the scalars can be moved to the points. *)
Definition gdft (w : Z) (Qs : list G) (i : nat) : G :=
  sum (map (fun jQ => m (w ^ Z.of_nat (i * fst jQ)) (snd jQ)) (combine (seq 0 (length Qs)) Qs)).
Lemma dual w vs Qs n : length vs = n -> length Qs = n ->
  sum (map (fun x => m (fst x) (snd x)) (combine (map (zdft_entry w vs) (seq 0 n)) Qs))
  = sum (map (fun x => m (fst x) (snd x)) (combine vs (map (gdft w Qs) (seq 0 n)))).
Proof.
  intros Lv LQ. rewrite combine_map, map_map. rewrite (proj2 (combine_map_r (gdft w Qs) (seq 0 n) vs ltac:(rewrite seq_length; congruence))), map_map.
  cbn [fst snd].
  transitivity (sum (map (fun jQ => sum (map (fun ix => m (snd ix * w ^ Z.of_nat (fst jQ * fst ix)) (snd jQ)) (combine (seq 0 n) vs))) (combine (seq 0 n) Qs))).
  - f_equal. apply map_ext. intros [j Q]. cbn [fst snd]. unfold zdft_entry. rewrite zsum_act, Lv. reflexivity.
  - rewrite sum_swap. f_equal. apply map_ext. intros [i x]. cbn [fst snd]. unfold gdft. rewrite (gmul_gsum g H), map_map, LQ.
    f_equal. apply map_ext. intros [j Q]. cbn [fst snd]. rewrite <- (gmul_mul g H), (Nat.mul_comm j i). reflexivity.
Qed.
End Sums.

Section Points.
Context {F : Type} (o : fops F) (c : cconf F) (HC : curve_laws o c).
Notation on := (on_curve o (ca c) (cb c)). Notation m := (pt_mulz o (ca c)). Notation add := (pt_add o (ca c)).
Notation g := (cpt_ops o c HC). Notation GL := (cpt_laws o c HC).
Lemma lift_on Ps : Forall on Ps -> exists Qs : list (cpt o c), map (@proj1_sig _ _) Qs = Ps.
Proof.
  induction 1 as [|P Ps h _ (Qs & E)]; [exists []; reflexivity|]. exists (mkpt o c HC P h :: Qs). cbn [map]. rewrite E. reflexivity.
Qed.
Lemma pt_gdft w (Qs : list (cpt o c)) i : proj1_sig (gdft g w Qs i) = pdft_entry o (ca c) w (map (@proj1_sig _ _) Qs) i.
Proof.
  unfold gdft, pdft_entry. rewrite (gsum_pt o c HC), map_map, map_length. f_equal.
  generalize 0%nat as s. induction Qs as [|Q Qs IH]; intros s; [reflexivity|]. cbn [length seq combine map fst snd].
  rewrite (gmul_pt o c HC). f_equal. apply IH.
Qed.
Lemma msum_mod r fs Qs : Forall (fun Q => on Q /\ m r Q = None) Qs -> msum_pts o (ca c) (map (fun x => x mod r) fs) Qs = msum_pts o (ca c) fs Qs.
Proof.
  intros HQ. unfold msum_pts. f_equal. revert fs. induction HQ as [|Q Qs [h k] _ IH]; intros [|x fs]; try reflexivity.
  cbn [map combine fst snd]. rewrite (mulz_mod o c HC r x Q h k). f_equal. apply IH.
Qed.
Lemma pts_dual w vs Qs n : length vs = n -> length Qs = n -> Forall on Qs ->
  msum_pts o (ca c) (map (zdft_entry w vs) (seq 0 n)) Qs = msum_pts o (ca c) vs (map (pdft_entry o (ca c) w Qs) (seq 0 n)).
Proof.
  intros Lv LQ HQ. destruct (lift_on Qs HQ) as (Rs & <-). rewrite map_length in LQ.
  assert (E : map (pdft_entry o (ca c) w (map (@proj1_sig _ _) Rs)) (seq 0 n) = map (@proj1_sig _ _) (map (gdft g w Rs) (seq 0 n))).
  { rewrite map_map. apply map_ext. intros i. symmetry. apply pt_gdft. }
  rewrite E, <- !(msum_pt o c HC). f_equal. exact (dual g GL w vs Rs n Lv LQ).
Qed.
Lemma pdft_on w Ps i : Forall on Ps -> on (pdft_entry o (ca c) w Ps i).
Proof. intros HP. destruct (lift_on Ps HP) as (Qs & <-). rewrite <- pt_gdft. apply (cpt_on o c HC). Qed.
Lemma sum_scale k (l : list (cpt o c)) : (forall P, In P l -> gmul g k P = g0 g) -> gmul g k (gsum g l) = g0 g.
Proof.
  intros K. rewrite (gmul_gsum g GL). rewrite (map_ext_in _ (fun _ => g0 g)) by exact K. apply (sum_const g GL).
Qed.
Lemma pdft_torsion r w Ps i : Forall (fun P => on P /\ m r P = None) Ps -> m r (pdft_entry o (ca c) w Ps i) = None.
Proof.
  intros HP. assert (HO : Forall on Ps) by (eapply Forall_impl; [|exact HP]; cbv beta; tauto).
  destruct (lift_on Ps HO) as (Qs & <-). rewrite <- pt_gdft, <- (gmul_pt o c HC).
  unfold gdft. rewrite sum_scale; [reflexivity|]. intros P HI. apply in_map_iff in HI. destruct HI as ([j Q] & <- & HI). cbn [fst snd].
  rewrite <- (gmul_mul g GL), Z.mul_comm, (gmul_mul g GL).
  apply in_combine_r in HI. rewrite Forall_forall in HP. destruct (HP (proj1_sig Q) (in_map _ _ _ HI)) as [_ K].
  replace (gmul g r Q) with (g0 g); [apply (gmul_g0 g GL)|]. apply cpt_ext. rewrite (gmul_pt o c HC). symmetry. exact K.
Qed.
Lemma pdft_scale k w Ps i : Forall on Ps -> pdft_entry o (ca c) w (map (m k) Ps) i = m k (pdft_entry o (ca c) w Ps i).
Proof.
  intros HP. destruct (lift_on Ps HP) as (Qs & <-). rewrite <- pt_gdft, <- (gmul_pt o c HC), map_map.
  rewrite (map_ext _ (fun x => proj1_sig (gmul g k x))) by (intros Q; symmetry; apply (gmul_pt o c HC)). rewrite <- map_map, <- pt_gdft. f_equal.
  unfold gdft. rewrite (gmul_gsum g GL), map_map, map_length. f_equal. generalize 0%nat as s. induction Qs as [|Q Qs IH]; intros s; [reflexivity|].
  cbn [length seq map combine fst snd]. rewrite IH by (inversion HP; assumption). f_equal. rewrite <- !(gmul_mul g GL), Z.mul_comm. reflexivity.
Qed.
(** Powers of the secret. *)
Fixpoint pow_points (t : Z) (P : point (F := F)) (n : nat) : list (point (F := F)) :=
  match n with O => [] | S n => P :: pow_points t (m t P) n end.
Lemma pow_on t n : forall P, on P -> Forall on (pow_points t P n).
Proof. induction n as [|n IH]; intros P h; constructor; [exact h|]. apply IH. apply (mulz_on o c HC). exact h. Qed.
Lemma pow_len t n : forall P, length (pow_points t P n) = n.
Proof. induction n as [|n IH]; intros P; [reflexivity|]. cbn. rewrite IH. reflexivity. Qed.
Lemma pow_torsion t r n : forall P, on P -> m r P = None -> Forall (fun P => m r P = None) (pow_points t P n).
Proof.
  induction n as [|n IH]; intros P h k; constructor; [exact k|]. apply IH; [apply (mulz_on o c HC); exact h|].
  rewrite <- (mulz_mul o c HC) by exact h. rewrite Z.mul_comm, (mulz_mul o c HC), k by exact h. apply pt_mulz_none.
Qed.
Lemma pow_eval t vs : forall P, on P -> msum_pts o (ca c) vs (pow_points t P (length vs)) = m (zpeval vs t) P.
Proof.
  induction vs as [|v vs IH]; intros P h; [reflexivity|]. cbn [length pow_points]. unfold msum_pts. cbn [combine map fst snd].
  unfold pt_sum. cbn [fold_right]. fold (pt_sum o (ca c) (map (fun x => m (fst x) (snd x)) (combine vs (pow_points t (m t P) (length vs))))).
  fold (msum_pts o (ca c) vs (pow_points t (m t P) (length vs))). rewrite (IH _ (mulz_on o c HC t P h)).
  cbn [zpeval fold_right]. fold (zpeval vs t). rewrite (mulz_add o c HC), (Z.mul_comm t), (mulz_mul o c HC) by exact h. reflexivity.
Qed.
Lemma pow_finite t r n : prime r -> t mod r <> 0 -> forall P, on P -> P <> None -> m r P = None -> Forall (fun P => P <> None) (pow_points t P n).
Proof.
  intros Hr Ht. induction n as [|n IH]; intros P h N k; constructor; [exact N|]. apply IH.
  - apply (mulz_on o c HC). exact h.
  - intros E. apply Ht. apply Z.mod_divide; [pose proof (prime_ge_2 r Hr); lia|]. exact (proj1 (mulz_order o c HC r P h Hr N k t) E).
  - rewrite <- (mulz_mul o c HC) by exact h. rewrite Z.mul_comm, (mulz_mul o c HC), k by exact h. apply pt_mulz_none.
Qed.
End Points.

(** ** Values instead of coefficients *)
Section Roots.
Lemma inv_root r x x' (e : nat) : 1 < r -> x' * x mod r = 1 -> (x ^ Z.of_nat e + 1) mod r = 0 -> (x' ^ Z.of_nat e + 1) mod r = 0.
Proof.
  intros Hr E R. set (k := Z.of_nat e) in *.
  assert (P : (x' * x) ^ k mod r = 1).
  { rewrite Zpow_facts.Zpower_mod, E, Z.pow_1_l by lia. apply Z.mod_1_l. lia. }
  rewrite Z.pow_mul_l in P. set (a := x' ^ k) in *. set (b := x ^ k) in *. clearbody a b. clear - Hr P R.
  apply Z.mod_divide in R; [|lia]. destruct R as [q Q]. pose proof (Z.div_mod (a * b) r ltac:(lia)) as D. rewrite P in D.
  apply Z.mod_divide; [lia|]. exists (a * q - a * b / r). nia.
Qed.
End Roots.
Section Lagrange.
Context {F : Type} (o : fops F) (c : cconf F) (g : aff F) (sc : fconf) (HV : crate_curve o c g sc).
Notation r := (modulus sc). Notation m := (pt_mulz o (ca c)). Notation on := (on_curve o (ca c) (cb c)).
Notation repr := (represents (num_limbs sc) (modulus sc)).
Let HC := cf_laws _ _ _ _ (crate_curve_facts o c g sc HV).
Let Is := scalar_in o c g sc HV.
Let Hr := field_prime sc Is.
Lemma preps_inj ps Ps : Forall2 (prep o c) ps Ps -> forall Qs, Forall2 (prep o c) ps Qs -> Ps = Qs.
Proof using HC.
  induction 1 as [|p P ps Ps h _ IH]; intros Qs HQ; inversion HQ; subst; [reflexivity|]. f_equal; [|apply IH; assumption].
  eapply (arepr_inj o c HC); [apply (to_affine_repr o c HC); exact h|]. apply (to_affine_repr o c HC). assumption.
Qed.
Lemma preps_aff ps Ps : Forall2 (prep o c) ps Ps -> Forall2 (arep o c) (map (to_affine o) ps) Ps.
Proof using HC. induction 1; constructor; [apply (to_affine_repr o c HC)|]; assumption. Qed.
Lemma preps_on ps Ps : Forall2 (prep o c) ps Ps -> Forall on Ps.
Proof. induction 1 as [|p P ps Ps h _ IH]; constructor; [apply h|exact IH]. Qed.
Lemma preps_mul k v ps Ps : repr k v -> Forall2 (prep o c) ps Ps -> Forall2 (prep o c) (map (fun q => proj_mul o c q (to_repr sc k)) ps) (map (m v) Ps).
Proof using HV. intros R. induction 1; constructor; [|assumption]. exact (C27_mul F o c g sc HV _ _ k v H R). Qed.
(** Transforming with [x'], then with [x]. *)
Lemma dft_dft x x' w w' k ps Ps : Forall2 (prep o c) ps Ps -> Forall (fun P => m r P = None) Ps -> repr w x -> repr w' x' ->
  length ps = (2 ^ k)%nat -> (k <> 0%nat -> (x ^ Z.of_nat (2 ^ (k - 1)) + 1) mod r = 0) -> x' * x mod r = 1 ->
  map (pdft_entry o (ca c) x (map (pdft_entry o (ca c) x' Ps) (seq 0 (2 ^ k)))) (seq 0 (2 ^ k)) = map (m (2 ^ Z.of_nat k)) Ps.
Proof using HV HC Hr.
  intros hp kP Rx Rx' L Root E. pose proof (prime_ge_2 r Hr) as R2.
  assert (Root' : k <> 0%nat -> (x' ^ Z.of_nat (2 ^ (k - 1)) + 1) mod r = 0) by (intros N; exact (inv_root r x x' _ ltac:(lia) E (Root N))).
  rewrite Z.mul_comm in E.
  destruct (C14_points_inverse F o c g sc HV 1%nat 1%nat ps Ps w' x' w x k hp kP Rx' Rx L Root' E) as (qs & rs & E1 & E2 & hr).
  destruct (C14_points F o c g sc HV 1%nat ps Ps w' x' k hp kP Rx' L Root') as (qs' & E1' & hq). rewrite E1 in E1'. injection E1' as <-.
  assert (Lq : length qs = (2 ^ k)%nat).
  { rewrite (f2_len _ _ _ hq), map_length, seq_length. exact L. }
  rewrite L in hq.
  assert (kq : Forall (fun P => m r P = None) (map (pdft_entry o (ca c) x' Ps) (seq 0 (2 ^ k)))).
  { apply Forall_map. apply Forall_forall. intros i _. apply (pdft_torsion o c HC). pose proof (preps_on ps Ps hp) as OP.
    rewrite Forall_forall in OP, kP |- *. intros P HI. split; [exact (OP P HI)|exact (kP P HI)]. }
  destruct (C14_points F o c g sc HV 1%nat qs _ w x k hq kq Rx Lq Root) as (rs' & E2' & hr'). rewrite E2 in E2'. injection E2' as <-.
  rewrite Lq in hr'. exact (preps_inj _ _ hr' _ hr).
Qed.
Lemma lagrange_sum x x' xi w w' k ps Ps vs : Forall2 (prep o c) ps Ps -> Forall (fun P => m r P = None) Ps -> repr w x -> repr w' x' ->
  length ps = (2 ^ k)%nat -> length vs = (2 ^ k)%nat -> (k <> 0%nat -> (x ^ Z.of_nat (2 ^ (k - 1)) + 1) mod r = 0) -> x' * x mod r = 1 -> xi * 2 ^ Z.of_nat k mod r = 1 ->
  msum_pts o (ca c) (map (fun i => zdft_entry x vs i mod r) (seq 0 (2 ^ k))) (map (m xi) (map (pdft_entry o (ca c) x' Ps) (seq 0 (2 ^ k)))) = msum_pts o (ca c) vs Ps.
Proof using HV HC Hr.
  intros hp kP Rx Rx' L Lv Root E Ei. pose proof (prime_ge_2 r Hr) as R2. pose proof (preps_on ps Ps hp) as OP.
  set (Qs := map (pdft_entry o (ca c) x' Ps) (seq 0 (2 ^ k))).
  assert (TP : Forall (fun P => on P /\ m r P = None) Ps).
  { rewrite Forall_forall in OP, kP |- *. intros P HI. split; [exact (OP P HI)|exact (kP P HI)]. }
  assert (TQ : Forall (fun P => on P /\ m r P = None) Qs).
  { apply Forall_map. apply Forall_forall. intros i _. split; [apply (pdft_on o c HC); exact OP|]. apply (pdft_torsion o c HC). exact TP. }
  assert (TQi : Forall (fun P => on P /\ m r P = None) (map (m xi) Qs)).
  { apply Forall_map. eapply Forall_impl; [|exact TQ]. intros P [h kk]. split; [apply (mulz_on o c HC); exact h|].
    rewrite <- (mulz_mul o c HC) by exact h. rewrite Z.mul_comm, (mulz_mul o c HC), kk by exact h. apply pt_mulz_none. }
  rewrite <- (map_map (zdft_entry x vs) (fun y => y mod r)). rewrite (msum_mod o c HC r _ _ TQi).
  rewrite (pts_dual o c HC x vs (map (m xi) Qs) (2 ^ k)%nat Lv).
  2: { unfold Qs. rewrite !map_length, seq_length. reflexivity. }
  2: { eapply Forall_impl; [|exact TQi]. cbv beta. tauto. }
  assert (X : map (pdft_entry o (ca c) x (map (m xi) Qs)) (seq 0 (2 ^ k)) = map (m xi) (map (pdft_entry o (ca c) x Qs) (seq 0 (2 ^ k)))).
  { rewrite map_map. apply map_ext. intros i. apply (pdft_scale o c HC). eapply Forall_impl; [|exact TQ]. cbv beta. tauto. }
  rewrite X. unfold Qs. rewrite (dft_dft x x' w w' k ps Ps hp kP Rx Rx' L Root E), map_map. f_equal.
  transitivity (map (fun P => P) Ps); [|apply map_id]. apply map_ext_in. intros P HI. rewrite Forall_forall in TP. destruct (TP P HI) as [h kk].
  rewrite <- (mulz_mul o c HC) by exact h. rewrite <- (mulz_mod o c HC r _ P h kk), Ei. apply (mulz_1 o c HC). exact h.
Qed.
End Lagrange.

(** ** The scheme *)
Definition commits {F E} (o : fops F) (c1 : cconf F) (g1 : aff F) (o2 : fops (quad F)) (c2 : cconf (quad F)) (g2 : aff (quad F)) (sc : fconf)
    (e : aff F -> aff (quad F) -> option E) : Prop :=
  let r := modulus sc in let repr := represents (num_limbs sc) r in let G := Some (ax g1, ay g1) in let m := pt_mulz o (ca c1) in
  forall ln threads ks vs s t, ln_ok ln -> (0 < threads)%nat -> Forall2 repr ks vs -> repr s t -> t <> 0 ->
  let s2 := secret_mul o2 c2 sc (proj_generator o2 g2) s in
  exists bases C, srs o c1 sc g1 s (length ks) = Some bases /\ commit o c1 sc ln threads ks bases = Some C /\ arep o c1 C (m (zpeval vs t) G) /\
  forall z zv y yv, repr z zv -> repr y yv ->
  (* a proof of the right value is computed from the quotient, and is accepted for no other value *)
  (let (q, v) := divide sc z ks in repr v (zpeval vs zv mod r) /\
     exists W, commit o c1 sc ln threads q bases = Some W /\ (kzg_check o c1 g1 o2 c2 g2 sc e C s2 z y W <-> yv = zpeval vs zv mod r)) /\
  (* what the check says about any element of the group *)
  (forall W P, arep o c1 W P -> m r P = None ->
     (kzg_check o c1 g1 o2 c2 g2 sc e C s2 z y W <-> m (zpeval vs t - yv) G = m (t - zv) P)) /\
  (* two accepted values at the same place give the [t - z]-th part of a known multiple of the generator *)
  (forall y' yv' W P W' P', repr y' yv' -> arep o c1 W P -> m r P = None -> arep o c1 W' P' -> m r P' = None ->
     kzg_check o c1 g1 o2 c2 g2 sc e C s2 z y W -> kzg_check o c1 g1 o2 c2 g2 sc e C s2 z y' W' ->
     m (yv' - yv) G = m (t - zv) (pt_sub o c1 P P')).

Section Scheme.
Context {F E : Type} (o : fops F) (c1 : cconf F) (g1 : aff F) (o2 : fops (quad F)) (c2 : cconf (quad F)) (g2 : aff (quad F)) (sc : fconf).
Context (V1 : crate_curve o c1 g1 sc) (V2 : crate_curve o2 c2 g2 sc) (Ha : ca c1 = f0 o).
Context (o12 : fops E) (H12 : field_laws o12) (e : aff F -> aff (quad F) -> option E).
Context (Hb : bilinear o c1 o2 c2 o12 (modulus sc) e) (Hn : nondegenerate o c1 o2 c2 o12 (modulus sc) e).
Notation r := (modulus sc). Notation m1 := (pt_mulz o (ca c1)). Notation m2 := (pt_mulz o2 (ca c2)).
Notation repr := (represents (num_limbs sc) (modulus sc)).
Let C1 := crate_curve_facts _ _ _ _ V1. Let C2 := crate_curve_facts _ _ _ _ V2.
Let HC1 := cf_laws _ _ _ _ C1. Let HC2 := cf_laws _ _ _ _ C2. Let Is := scalar_in o c1 g1 sc V1. Let Hr := field_prime sc Is.
Let Ho := field_odd sc Is.
Notation G := (Some (ax g1, ay g1)). Notation H := (Some (ax g2, ay g2)).
Let O1 := proj1 (cf_gen _ _ _ _ C1). Let K1 := cf_order _ _ _ _ C1.
Let O2 := proj1 (cf_gen _ _ _ _ C2). Let K2 := cf_order _ _ _ _ C2.
Lemma srs_reps s t n : repr s t -> forall p P, prep o c1 p P -> Forall2 (prep o c1) (srs_points o c1 sc p s n) (pow_points o c1 t P n).
Proof using V1.
  intros R. induction n as [|n IH]; intros p P h; [constructor|]. constructor; [exact h|]. apply IH. exact (C27_mul F o c1 g1 sc V1 p P s t h R).
Qed.
Lemma shift_rep {K} (ok : fops K) c g (V : crate_curve ok c g sc) p P k v : arep ok c p P -> repr k v ->
  on_curve ok (ca c) (cb c) (Some (ax g, ay g)) -> arep ok c (shift ok c sc p g k) (pt_sub ok c P (pt_mulz ok (ca c) v (Some (ax g, ay g)))).
Proof.
  intros h R O. pose proof (cf_laws _ _ _ _ (crate_curve_facts _ _ _ _ V)) as HC. apply (to_affine_repr ok c HC). apply (sub_repr ok c HC).
  - apply (to_curve_repr ok c HC). exact h.
  - exact (C27_mul _ ok c g sc V _ _ k v (gprep ok c g HC O) R).
Qed.
Lemma sub_scalars {K} (ok : fops K) c (HC : curve_laws ok c) a b P : on_curve ok (ca c) (cb c) P ->
  pt_sub ok c (pt_mulz ok (ca c) a P) (pt_mulz ok (ca c) b P) = pt_mulz ok (ca c) (a - b) P.
Proof.
  intros O. unfold pt_sub. rewrite <- (mulz_opp ok c HC) by exact O. rewrite <- (mulz_add ok c HC) by exact O. reflexivity.
Qed.
Lemma tors {K} (ok : fops K) c (HC : curve_laws ok c) a k P : on_curve ok (ca c) (cb c) P -> pt_mulz ok (ca c) k P = None -> pt_mulz ok (ca c) k (pt_mulz ok (ca c) a P) = None.
Proof.
  intros O K0. rewrite <- (mulz_mul ok c HC), Z.mul_comm, (mulz_mul ok c HC), K0 by exact O. apply pt_mulz_none.
Qed.
Lemma check_iff C pv s t z zv y yv W P : arep o c1 C (m1 pv G) -> repr s t -> repr z zv -> repr y yv -> arep o c1 W P -> m1 r P = None ->
  (kzg_check o c1 g1 o2 c2 g2 sc e C (secret_mul o2 c2 sc (proj_generator o2 g2) s) z y W <-> m1 (pv - yv) G = m1 (t - zv) P).
Proof using All.
  intros hC Rs Rz Ry hW kP. pose proof (shift_rep o c1 g1 V1 _ _ y yv hC Ry O1) as hS. rewrite (sub_scalars o c1 HC1 _ _ _ O1) in hS.
  pose proof (sm_rep sc o2 c2 g2 V2 _ _ s t (gprep o2 c2 g2 HC2 O2) Rs) as hs2.
  pose proof (shift_rep o2 c2 g2 V2 _ _ z zv hs2 Rz O2) as hpk. rewrite (sub_scalars o2 c2 HC2 _ _ _ O2) in hpk.
  set (pk := shift o2 c2 sc _ g2 z) in *. set (sg := shift o c1 sc C g1 y) in *.
  pose proof (first_torsion o c1 HC1 o2 c2 HC2 o12 H12 r Hr e Hb Hn W sg P _ g2 pk H (t - zv) hW hS (rep_of o2 c2 g2 O2) hpk K2 ltac:(discriminate)
    (tors o c1 HC1 _ _ _ O1 K1) kP) as X.
  rewrite <- X. unfold kzg_check. fold sg pk. split.
  - intros (v & -> & ->). reflexivity.
  - intros Ee. destruct (proj1 Hb _ _ _ _ hS (rep_of o2 c2 g2 O2) K2) as (v & Ev & _). exists v. split; [exact Ev|]. rewrite <- Ee. exact Ev.
Qed.
Lemma eq_scalars a b : m1 a G = m1 b G <-> a mod r = b mod r.
Proof using All.
  split.
  - intros X. assert (D : m1 (a - b) G = None).
    { rewrite <- (sub_scalars o c1 HC1 a b G O1), X. apply (sub_eq o c1 HC1); [apply (mulz_on o c1 HC1); exact O1..|reflexivity]. }
    apply (mulz_order o c1 HC1 r G O1 Hr ltac:(discriminate) K1) in D. destruct D as [k D].
    pose proof (prime_ge_2 r Hr) as R2. apply mod_ex; [clear - R2; lia|]. exists k. clear - D. lia.
  - intros X. rewrite <- (mulz_mod o c1 HC1 r a G O1 K1), X. apply (mulz_mod o c1 HC1 r b G O1 K1).
Qed.
Lemma commits_ok : commits o c1 g1 o2 c2 g2 sc e.
Proof using All.
  unfold commits. cbv zeta. intros ln threads ks vs s t Hln Ht Fk Rs Nt.
  set (s2 := secret_mul o2 c2 sc (proj_generator o2 g2) s).
  pose proof (prime_ge_2 r Hr) as R2.
  assert (Tm : t mod r <> 0).
  { rewrite Z.mod_small; [exact Nt|]. exact (repr_bound sc _ _ Rs). }
  pose proof (srs_reps s t (length ks) Rs _ _ (gprep o c1 g1 HC1 O1)) as hp.
  pose proof (preps_aff o c1 g1 sc V1 _ _ hp) as hb.
  set (bases := map (to_affine o) (srs_points o c1 sc (proj_generator o g1) s (length ks))) in *.
  pose proof (pow_finite o c1 HC1 t r (length ks) Hr Tm G O1 ltac:(discriminate) K1) as Fin.
  assert (Lb : length bases = length ks) by (rewrite (f2_len _ _ _ hb); apply pow_len).
  assert (COM : forall ls ws, Forall2 repr ls ws -> length ws = length ks -> exists C, commit o c1 sc ln threads ls bases = Some C /\ arep o c1 C (m1 (zpeval ws t) G)).
  { intros ls ws Fl Ll. pose proof (f2_len _ _ _ Fl) as Le.
    destruct (C17_finite_partial F o c1 g1 sc V1 Ha ln Hln threads ls ws bases _ Ht Fl hb ltac:(congruence) Fin) as (rr & Er & hr).
    exists (to_affine o rr). unfold commit. rewrite Er. split; [reflexivity|]. rewrite <- (pow_eval o c1 HC1 t ws G O1), Ll.
    exact (to_affine_repr o c1 HC1 _ _ hr). }
  destruct (COM ks vs Fk (eq_sym (f2_len _ _ _ Fk))) as (C & EC & hC). exists bases, C.
  split. { unfold srs. rewrite (C28_batch_normalize F o c1 g1 sc V1). reflexivity. }
  split; [exact EC|]. split; [exact hC|]. intros z zv y yv Rz Ry.
  assert (CH : forall y yv W P, repr y yv -> arep o c1 W P -> m1 r P = None -> (kzg_check o c1 g1 o2 c2 g2 sc e C s2 z y W <-> m1 (zpeval vs t - yv) G = m1 (t - zv) P)).
  { intros y0 yv0 W P Ry0 hW kP. exact (check_iff C _ s t z zv y0 yv0 W P hC Rs Rz Ry0 hW kP). }
  split; [|split].
  - destruct (divide_spec sc Ho z zv ks vs Rz Fk) as (ws & Fw & Lw & Rv & Ew). destruct (divide sc z ks) as [q v]. cbn [fst snd] in Fw, Rv.
    split; [exact Rv|]. destruct (COM q ws Fw ltac:(rewrite Lw; symmetry; exact (f2_len _ _ _ Fk))) as (W & EW & hW). exists W. split; [exact EW|].
    rewrite (CH y yv W _ Ry hW (tors o c1 HC1 _ _ _ O1 K1)). rewrite <- (mulz_mul o c1 HC1) by exact O1. rewrite eq_scalars, <- Ew.
    pose proof (repr_bound sc _ _ Ry) as Ryr. rewrite !mod_ex by (clear - R2; lia). split.
    + intros [k X]. symmetry. rewrite <- (Z.mod_small yv r Ryr). apply mod_ex; [clear - R2; lia|]. exists k. clear - X. lia.
    + intros X. pose proof (Z.div_mod (zpeval vs zv) r ltac:(clear - R2; lia)) as D. exists (zpeval vs zv / r). rewrite X. clear - D. lia.
  - intros W P. exact (CH y yv W P Ry).
  - intros y' yv' W P W' P' Ry' hW kP hW' kP' Q Q'. apply (CH y yv W P Ry hW kP) in Q. apply (CH y' yv' W' P' Ry' hW' kP') in Q'.
    rewrite (sub_mul o c1 HC1) by (apply hW || apply hW'). rewrite <- Q, <- Q', (sub_scalars o c1 HC1 _ _ _ O1). f_equal. clear. lia.
Qed.
End Scheme.

(** For every number of threads, polynomial, secret and point: the commitment exists, the proof
    exists, and the check decides whether the value is right.  bn256: *)
Theorem C62_bn256 : forall Hc, let o := lf_ops bn256_fq Hc in let inj := lf_inj bn256_fq Hc in let o2 := bn256_fq2 o in
  commits o (curve_of_bn256_g1 o inj bn256_g1_consts) (gen_aff inj bn256_g1_consts) o2 (curve_of o2 (inj2 inj) bn256_g2_consts)
    (gen_aff (inj2 inj) bn256_g2_consts) bn256_fr (bn256_pairing o inj).
Proof.
  intros Hc o inj o2. pose proof (lf_pf7 bn256_fq ltac:(in_fields) Hc) as HP.
  exact (commits_ok o _ _ o2 _ _ bn256_fr (cv_bn256_g1 _ o inj HP) (cv_bn256_g2 _ o inj HP) (zh_0 _ _ (pf_hom _ _ _ HP)) _
    (en_field _ _ _ _ _ _ _ _ _ _ (crate_engine_facts o inj _ _ _ _ _ _ _ _ _ (eng_bn256 o inj HP))) _
    (C49_bn256 _ o inj HP) (proj1 (C50_bn256 _ o inj HP))).
Qed.
Print Assumptions C62_bn256.
Theorem C62_bls12381 : forall Hc, let o := lf_ops bls12381_fq Hc in let inj := lf_inj bls12381_fq Hc in let o2 := bls_fq2 o in
  commits o (curve_of o inj bls_g1_consts) (gen_aff inj bls_g1_consts) o2 (curve_of o2 (inj2 inj) bls_g2_consts)
    (gen_aff (inj2 inj) bls_g2_consts) bls12381_fr (bls_pairing o inj).
Proof.
  intros Hc o inj o2. pose proof (lf_pf7 bls12381_fq ltac:(in_fields) Hc) as HP.
  exact (commits_ok o _ _ o2 _ _ bls12381_fr (cv_bls_g1 _ o inj HP) (cv_bls_g2 _ o inj HP) (zh_0 _ _ (pf_hom _ _ _ HP)) _
    (en_field _ _ _ _ _ _ _ _ _ _ (crate_engine_facts o inj _ _ _ _ _ _ _ _ _ (eng_bls12381 o inj HP))) _
    (C49_bls12381 _ o inj HP) (proj1 (C50_bls12381 _ o inj HP))).
Qed.
Print Assumptions C62_bls12381.
Theorem C62_pluto : forall Hc, let o := lf_ops pluto_eris_fp Hc in let inj := lf_inj pluto_eris_fp Hc in let o2 := pluto_fp2 o in
  commits o (curve_of o inj pluto_consts) (gen_aff inj pluto_consts) o2 (curve_of o2 (inj2 inj) triton_consts)
    (gen_aff (inj2 inj) triton_consts) pluto_eris_fq (pluto_pairing o inj).
Proof.
  intros Hc o inj o2. pose proof (lf_pf7 pluto_eris_fp ltac:(in_fields) Hc) as HP.
  exact (commits_ok o _ _ o2 _ _ pluto_eris_fq (cv_pluto _ o inj HP) (cv_triton _ o inj HP) (zh_0 _ _ (pf_hom _ _ _ HP)) _
    (en_field _ _ _ _ _ _ _ _ _ _ (crate_engine_facts o inj _ _ _ _ _ _ _ _ _ (eng_pluto o inj HP))) _
    (C49_pluto _ o inj HP) (proj1 (C50_pluto _ o inj HP))).
Qed.
Print Assumptions C62_pluto.
(** Every curve: the values of a polynomial on the group of the [2^k]-th roots of unity (the
    Fourier transform of its coefficients) and the inverse transform of the reference string
    (over points, divided by [2^k]) give the same commitment as the coefficients. *)
Theorem C62_lagrange : forall F (o : fops F) c g sc, crate_curve o c g sc -> forall ln, ln_ok ln -> forall threads ps Ps ks vs w x w' x' ni xi k,
  let r := modulus sc in let repr := represents (num_limbs sc) r in
  (0 < threads)%nat -> Forall2 (prep o c) ps Ps -> Forall (fun P => pt_mulz o (ca c) r P = None) Ps -> Forall2 repr ks vs ->
  repr w x -> repr w' x' -> repr ni xi -> length ps = (2 ^ k)%nat -> length ks = (2 ^ k)%nat ->
  (k <> 0%nat -> (x ^ Z.of_nat (2 ^ (k - 1)) + 1) mod r = 0) -> x' * x mod r = 1 -> xi * 2 ^ Z.of_nat k mod r = 1 ->
  exists L B E q1 q2, to_lagrange o c sc threads ps w' ni k = Some L /\ batch_normalize o ps = Some B /\
    best_fft (limb_fft sc) threads ks w k = Some E /\
    msm_parallel o c sc ln threads E L = Some q1 /\ msm_parallel o c sc ln threads ks B = Some q2 /\
    to_affine o q1 = to_affine o q2 /\ arep o c (to_affine o q1) (msum_pts o (ca c) vs Ps).
Proof.
  intros F o c g sc HV ln Hln threads ps Ps ks vs w x w' x' ni xi k r0 repr0 Ht hp kP Fk Rw Rw' Rn Lp Lk Root Ex En. subst r0 repr0.
  pose proof (cf_laws _ _ _ _ (crate_curve_facts o c g sc HV)) as HC. pose proof (scalar_in o c g sc HV) as Is.
  pose proof (field_prime sc Is) as Hr. pose proof (prime_ge_2 _ Hr) as R2.
  assert (Root' : k <> 0%nat -> (x' ^ Z.of_nat (2 ^ (k - 1)) + 1) mod modulus sc = 0) by (intros N; exact (inv_root (modulus sc) x x' _ ltac:(lia) Ex (Root N))).
  destruct (C14_points F o c g sc HV threads ps Ps w' x' k hp kP Rw' Lp Root') as (qs & Eq & hq).
  destruct (C14_field sc Is threads ks vs w x k Fk Rw Lk Root) as (b & Eb & Fb). rewrite Lp in hq. rewrite Lk in Fb.
  pose proof (preps_aff o c g sc HV _ _ (preps_mul o c g sc HV ni xi _ _ Rn hq)) as hL. pose proof (preps_aff o c g sc HV _ _ hp) as hB.
  set (L := map (to_affine o) (map (fun q => proj_mul o c q (to_repr sc ni)) qs)) in *. set (B := map (to_affine o) ps) in *.
  assert (Ll : length b = length L).
  { rewrite (f2_len _ _ _ Fb), (f2_len _ _ _ hL), !map_length. reflexivity. }
  assert (Lb : length ks = length B) by (unfold B; rewrite map_length, Lp; exact Lk).
  destruct (C16_parallel F o c g sc HV ln Hln threads b _ L _ Ht Fb hL Ll) as (q1 & E1 & h1).
  destruct (C16_parallel F o c g sc HV ln Hln threads ks vs B Ps Ht Fk hB Lb) as (q2 & E2 & h2).
  rewrite (lagrange_sum o c g sc HV x x' xi w w' k ps Ps vs hp kP Rw Rw' Lp (eq_trans (eq_sym (f2_len _ _ _ Fk)) Lk) Root Ex En) in h1.
  exists L, B, b, q1, q2. split. { unfold to_lagrange. rewrite Eq. exact (C28_batch_normalize F o c g sc HV _). }
  split; [exact (C28_batch_normalize F o c g sc HV _)|]. split; [exact Eb|]. split; [exact E1|]. split; [exact E2|].
  pose proof (to_affine_repr o c HC _ _ h1) as a1. pose proof (to_affine_repr o c HC _ _ h2) as a2.
  split; [exact (arepr_unique o c _ _ _ a1 a2)|exact a1].
Qed.
Print Assumptions C62_lagrange.
(** The hypotheses are met: bn256, three threads, the polynomial [X^2 + 4 X + 5], secret 7, value 50 at 5. *)
Example C62_example : forall Hc, let o := lf_ops bn256_fq Hc in let inj := lf_inj bn256_fq Hc in let o2 := bn256_fq2 o in
  let c1 := curve_of_bn256_g1 o inj bn256_g1_consts in let g1 := gen_aff inj bn256_g1_consts in
  let c2 := curve_of o2 (inj2 inj) bn256_g2_consts in let g2 := gen_aff (inj2 inj) bn256_g2_consts in
  let ks := map (mont_of bn256_fr) [5; 4; 1] in let s2 := secret_mul o2 c2 bn256_fr (proj_generator o2 g2) (mont_of bn256_fr 7) in
  exists bases C W, srs o c1 bn256_fr g1 (mont_of bn256_fr 7) 3 = Some bases /\ commit o c1 bn256_fr (fun _ => 4) 3 ks bases = Some C /\
    arep o c1 C (pt_mulz o (ca c1) 82 (Some (ax g1, ay g1))) /\
    kzg_check o c1 g1 o2 c2 g2 bn256_fr (bn256_pairing o inj) C s2 (mont_of bn256_fr 5) (mont_of bn256_fr 50) W /\
    ~ kzg_check o c1 g1 o2 c2 g2 bn256_fr (bn256_pairing o inj) C s2 (mont_of bn256_fr 5) (mont_of bn256_fr 51) W.
Proof.
  intros Hc o inj o2 c1 g1 c2 g2 ks s2. assert (Is : In bn256_fr all_fields) by in_fields.
  assert (R : forall v, 0 <= v < 100 -> represents (num_limbs bn256_fr) (modulus bn256_fr) (mont_of bn256_fr v) v).
  { intros v Hv. refine (eq_ind _ (represents _ _ _) (mont_of_repr bn256_fr v Is) _ _). apply Z.mod_small. split; [apply Hv|].
    apply Z.lt_trans with 100; [apply Hv|vm_compute; reflexivity]. }
  assert (Fk : Forall2 (represents (num_limbs bn256_fr) (modulus bn256_fr)) ks [5; 4; 1]).
  { repeat (apply Forall2_cons; [apply R; lia|]). apply Forall2_nil. }
  pose proof (R 5 ltac:(lia)) as R5. pose proof (R 50 ltac:(lia)) as R50. pose proof (R 51 ltac:(lia)) as R51.
  destruct (C62_bn256 Hc (fun _ => 4) 3%nat ks [5; 4; 1] (mont_of bn256_fr 7) 7 ltac:(intros n _; lia) ltac:(lia) Fk (R 7 ltac:(lia)) ltac:(lia))
    as (bases & C & E1 & E2 & hC & K).
  exists bases, C. pose proof (proj1 (K (mont_of bn256_fr 5) 5 (mont_of bn256_fr 50) 50 R5 R50)) as K1.
  pose proof (proj1 (K (mont_of bn256_fr 5) 5 (mont_of bn256_fr 51) 51 R5 R51)) as K2.
  set (d := divide bn256_fr (mont_of bn256_fr 5) ks) in K1, K2. clearbody d.
  set (cf := kzg_check _ _ _ _ _ _ _ _ _ _ _ (mont_of bn256_fr 50)) in *. set (ct := kzg_check _ _ _ _ _ _ _ _ _ _ _ (mont_of bn256_fr 51)) in *.
  clearbody cf ct. destruct d as [q v]. destruct K1 as (_ & W & EW & KW). destruct K2 as (_ & W' & EW' & KW').
  assert (EE : W' = W) by (apply some_inj; rewrite <- EW, <- EW'; reflexivity). subst W'. exists W. split; [exact E1|]. split; [exact E2|]. split; [exact hC|]. split.
  - apply KW. vm_compute. reflexivity.
  - intros X. apply KW' in X. vm_compute in X. discriminate.
Qed.
(** Two coefficients, the square roots of unity. *)
Example C62_lagrange_example : forall Hc, let o := lf_ops bn256_fq Hc in let inj := lf_inj bn256_fq Hc in
  let c := curve_of_bn256_g1 o inj bn256_g1_consts in let g := gen_aff inj bn256_g1_consts in let G := Some (ax g, ay g) in let sc := bn256_fr in
  exists L B E q1 q2, to_lagrange o c sc 2 [proj_generator o g; proj_generator o g] (mont_of sc (-1)) (mont_of sc ((modulus sc + 1) / 2)) 1 = Some L /\
    batch_normalize o [proj_generator o g; proj_generator o g] = Some B /\ best_fft (limb_fft sc) 2 [mont_of sc 3; mont_of sc 4] (mont_of sc (-1)) 1 = Some E /\
    msm_parallel o c sc (fun _ => 4) 2 E L = Some q1 /\ msm_parallel o c sc (fun _ => 4) 2 [mont_of sc 3; mont_of sc 4] B = Some q2 /\
    to_affine o q1 = to_affine o q2 /\ arep o c (to_affine o q1) (msum_pts o (ca c) [3 mod modulus sc; 4 mod modulus sc] [G; G]).
Proof.
  intros Hc o inj c g G sc. pose proof (lf_pf7 bn256_fq ltac:(in_fields) Hc) as HP. pose proof (cv_bn256_g1 _ o inj HP) as V.
  pose proof (crate_curve_facts _ _ _ _ V) as CF. pose proof (gprep o c g (cf_laws _ _ _ _ CF) (proj1 (cf_gen _ _ _ _ CF))) as hg.
  pose proof (cf_order _ _ _ _ CF) as kg. assert (Is : In sc all_fields) by in_fields. pose proof (fun v => mont_of_repr sc v Is) as R.
  refine (C62_lagrange _ o c g sc V (fun _ => 4) (fun n _ => _) 2%nat [proj_generator o g; proj_generator o g] [G; G] [mont_of sc 3; mont_of sc 4]
    [3 mod modulus sc; 4 mod modulus sc] _ ((-1) mod modulus sc) _
    ((-1) mod modulus sc) _ (((modulus sc + 1) / 2) mod modulus sc) 1%nat _ _ _ _ (R _) (R _) (R _) eq_refl eq_refl _ _ _).
  - split; [discriminate|]. discriminate.
  - repeat constructor.
  - repeat (apply Forall2_cons; [exact hg|]). apply Forall2_nil.
  - repeat (apply Forall_cons; [exact kg|]). apply Forall_nil.
  - repeat (apply Forall2_cons; [apply R|]). apply Forall2_nil.
  - intros _. vm_compute. reflexivity.
  - vm_compute. reflexivity.
  - vm_compute. reflexivity.
Qed.
