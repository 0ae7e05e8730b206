(** Property C14: [best_fft] (src/fft.rs) computes the discrete Fourier
    transform, for every number of threads.

    [zdft_entry w x i] is the integer [sum_j x_j w^(i j)] and [pdft_entry o a w Ps i]
    the curve point [sum_j w^(i j) P_j] (FftInst.v). *)
From Verif Require Import Base Algebra Pow PrimeField SpecField Field FieldFacts Params LimbField ConstFacts Certs.
From Verif Require Import SpecCurve Curve CurveFacts CurveGroup CrateCurves CurveInst Props_Field Props_Field2 Props_Curve.
From Verif Require Import Group Fft FftFacts FftInst FftSched.
From Coq Require Import Arith.
Local Open Scope nat_scope.

(** Field elements, as the limb code stores them. *)
Theorem C14_field : forall c, In c all_fields -> forall threads a xs w x k,
  let p := modulus c in let rep := represents (num_limbs c) p in
  Forall2 rep a xs -> rep w x -> length a = 2 ^ k ->
  (k <> 0 -> ((x ^ Z.of_nat (2 ^ (k - 1)) + 1) mod p = 0)%Z) ->
  exists b, best_fft (limb_fft c) threads a w k = Some b /\
    Forall2 rep b (map (fun i => (zdft_entry x xs i mod p)%Z) (seq 0 (length a))).
Proof. exact (fun c H => limb_fft_spec c (field_odd c H) (field_sized c H) (field_prime c H)). Qed.
Print Assumptions C14_field.
(** Transforming back with the inverse root multiplies by [n = 2^k]. *)
Theorem C14_field_inverse : forall c, In c all_fields -> forall threads threads' a xs w x w' x' k,
  let p := modulus c in let rep := represents (num_limbs c) p in
  Forall2 rep a xs -> rep w x -> rep w' x' -> length a = 2 ^ k ->
  (k <> 0 -> ((x ^ Z.of_nat (2 ^ (k - 1)) + 1) mod p = 0)%Z) -> (x' * x mod p = 1)%Z ->
  exists b d, best_fft (limb_fft c) threads a w k = Some b /\ best_fft (limb_fft c) threads' b w' k = Some d /\
    Forall2 rep d (map (fun y => (2 ^ Z.of_nat k * y) mod p)%Z xs).
Proof. exact (fun c H => limb_fft_inverse c (field_odd c H) (field_sized c H) (field_prime c H)). Qed.
Print Assumptions C14_field_inverse.

(** Projective points of every curve of the crate, of order dividing that of the
    scalar field (all points, except for the curves with a cofactor). *)
Theorem C14_points : forall F (o : fops F) c g sc, crate_curve o c g sc -> forall threads ps Ps w x k,
  Forall2 (prep o c) ps Ps -> Forall (fun P => pt_mulz o (ca c) (modulus sc) P = None) Ps ->
  represents (num_limbs sc) (modulus sc) w x -> length ps = 2 ^ k ->
  (k <> 0 -> ((x ^ Z.of_nat (2 ^ (k - 1)) + 1) mod modulus sc = 0)%Z) ->
  exists qs, best_fft (point_fft o c sc) threads ps w k = Some qs /\
    Forall2 (prep o c) qs (map (pdft_entry o (ca c) x Ps) (seq 0 (length ps))).
Proof.
  exact (fun F o c g sc HV => let H := scalar_in o c g sc HV in
    point_fft_spec o c (cf_laws _ _ _ _ (crate_curve_facts o c g sc HV)) sc (field_odd sc H) (field_sized sc H) (field_prime sc H)
      (s_mul o c g sc HV) (sub_repr o c (cf_laws _ _ _ _ (crate_curve_facts o c g sc HV)))).
Qed.
Print Assumptions C14_points.
Theorem C14_points_inverse : forall F (o : fops F) c g sc, crate_curve o c g sc -> forall threads threads' ps Ps w x w' x' k,
  Forall2 (prep o c) ps Ps -> Forall (fun P => pt_mulz o (ca c) (modulus sc) P = None) Ps ->
  represents (num_limbs sc) (modulus sc) w x -> represents (num_limbs sc) (modulus sc) w' x' -> length ps = 2 ^ k ->
  (k <> 0 -> ((x ^ Z.of_nat (2 ^ (k - 1)) + 1) mod modulus sc = 0)%Z) -> (x' * x mod modulus sc = 1)%Z ->
  exists qs rs, best_fft (point_fft o c sc) threads ps w k = Some qs /\ best_fft (point_fft o c sc) threads' qs w' k = Some rs /\
    Forall2 (prep o c) rs (map (pt_mulz o (ca c) (2 ^ Z.of_nat k)) Ps).
Proof.
  exact (fun F o c g sc HV => let H := scalar_in o c g sc HV in
    point_fft_inverse o c (cf_laws _ _ _ _ (crate_curve_facts o c g sc HV)) sc (field_odd sc H) (field_sized sc H) (field_prime sc H)
      (s_mul o c g sc HV) (sub_repr o c (cf_laws _ _ _ _ (crate_curve_facts o c g sc HV)))).
Qed.
Print Assumptions C14_points_inverse.

(** Any module over any commutative ring; in particular the code path ([threads])
    makes no difference. *)
Theorem C14_module : forall M Sc (so : fops Sc) (g : gops M) act, module_laws so g act -> forall threads w k a,
  length a = 2 ^ k -> (k <> 0 -> fpow_nat so w (2 ^ (k - 1)) = fneg so (f1 so)) ->
  best_fft (mops so g act) threads a w k = Some (dft so g act w a).
Proof. exact (fun M Sc so g act HM => best_fft_spec so g act HM). Qed.
Print Assumptions C14_module.
(** The [assert_eq!] of fft.rs:43. *)
Theorem C14_wrong_length : forall G S (o : fft_ops G S) threads a w k, length a <> 2 ^ k -> best_fft o threads a w k = None.
Proof.
  intros G S o threads a w k N. unfold best_fft. apply Nat.eqb_neq in N. rewrite N. reflexivity.
Qed.
Print Assumptions C14_wrong_length.
(** Every interleaving of the statements of the two closures handed to
    [rayon::join], at all levels of the recursion, gives the sequential result. *)
Theorem C14_interleaving : forall G S (o : fft_ops G S) tw k fuel lo tc m r,
  recursive_butterfly o fuel (vals m lo (2 ^ Datatypes.S k)) (2 ^ Datatypes.S k) tc tw = Some r ->
  exists p, rec_prog fuel lo (2 ^ Datatypes.S k) tc tw = Some p /\
    forall l, trace p l -> vals (exec o m l) lo (2 ^ Datatypes.S k) = r.
Proof.
  intros G S o tw k fuel lo tc m r E. destruct (rec_prog_spec o tw k fuel lo tc m r E) as (p & E1 & _ & E2). eauto.
Qed.
Print Assumptions C14_interleaving.

(** *** The hypotheses can be met *)
(** The crate's own root of unity. *)
Example C14_root : exists w, represents (num_limbs bn256_fr) (modulus bn256_fr) (ROOT_OF_UNITY bn256_fr) w /\
  ((w ^ 2 ^ 27 + 1) mod modulus bn256_fr = 0)%Z.
Proof.
  assert (I : In bn256_fr all_fields) by (cbn [In all_fields]; tauto).
  exists (root_of_unity_int bn256_fr mod modulus bn256_fr)%Z. split; [exact (const_repr bn256_fr (field_odd _ I) _)|].
  rewrite <- Zplus_mod_idemp_l, <- Zpower_mod by reflexivity.
  pose proof (root_half bn256_fr (field_odd _ I) (generator_half _ I)) as E.
  replace (two_adicity bn256_fr - 1)%Z with 27%Z in E by (vm_compute; reflexivity).
  rewrite E. replace (modulus bn256_fr - 1 + 1)%Z with (modulus bn256_fr) by ring. apply Z_mod_same_full.
Qed.
(** 22^2 = -1 mod 97; the polynomial 1 + 2X + 3X^2 + 4X^3 at 1, 22, -1, -22; both code paths. *)
Definition small_fft (threads : nat) : option (list Z) :=
  option_map (map (fun a => eval (fe_from_mont small_field a)))
    (best_fft (limb_fft small_field) threads (map (mont_of small_field) [1; 2; 3; 4]%Z) (mont_of small_field 22) 2).
Example C14_example : small_fft 1 = small_fft 4 /\
  small_fft 1 = Some (map (fun x => (1 + 2 * x + 3 * x ^ 2 + 4 * x ^ 3) mod 97) [1; 22; -1; -22])%Z.
Proof. split; vm_compute; reflexivity. Qed.
