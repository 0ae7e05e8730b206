(** Property theorems C59: the ECDSA example of the test suite, for all keys, nonces and
    messages, on secp256k1 and secp256r1 with the limb arithmetic of the crate.

    [represents n p a x]: the limbs [a] hold [x].  [arep o c p P]: the affine coordinates
    [p] stand for the point [P].  [lf_val bf x] is the integer that [x] holds. *)
From Coq Require Import String.
From Verif Require Import Base Algebra Word Limbs Bytes SpecField BytesFacts Field FieldFacts FieldSerdeFacts Params Inverse LimbField.
From Verif Require Import PrimeField SpecCurve SpecCurveFacts Curve CurveFacts CurveParams CurveInst CurveGroup CrateCurves Ecdsa EcdsaFacts.
From Verif Require Import SerdeInst Props_Field Props_Field2 Props_Curve Props_Serde Sha256 HashToCurve Hash Compute HashVectors.
From Bignums Require Import BigZ.
Local Open Scope Z_scope.

(** The two curves on which the test runs. *)
Inductive ecdsa_curve : forall bf (Hc : odd_conf bf), cconf (lf bf) -> aff (lf bf) -> fconf -> Prop :=
| ec_secp256k1 Hc : ecdsa_curve secp256k1_fp Hc (curve_of (lf_ops secp256k1_fp Hc) (lf_inj secp256k1_fp Hc) secp256k1_consts)
    (gen_aff (lf_inj secp256k1_fp Hc) secp256k1_consts) secp256k1_fq
| ec_secp256r1 Hc : ecdsa_curve secp256r1_fp Hc (curve_of (lf_ops secp256r1_fp Hc) (lf_inj secp256r1_fp Hc) secp256r1_consts)
    (gen_aff (lf_inj secp256r1_fp Hc) secp256r1_consts) secp256r1_fq.
(** [to_repr] of the base field *)
Definition lf_repr_bytes {bf} (x : lf bf) : list Z := to_repr bf (limbs x).

(** FIPS 186, verification: [e] is the hash, [P] the public key. *)
Definition ecdsa_valid {F} (o : fops F) (a : F) (xint : F -> Z) (n : Z) (G P : point (F := F)) (e r s : Z) : Prop :=
  0 < r < n /\ 0 < s < n /\ exists w x y, (s * w) mod n = 1 /\
    pt_add o a (pt_mulz o a (e * w) G) (pt_mulz o a (r * w) P) = Some (x, y) /\ xint x mod n = r.

Record ecdsa_ok bf (Hc : odd_conf bf) c g sc : Prop := {
  eo_curve : crate_curve (lf_ops bf Hc) c g sc;
  eo_whole : whole_curve (lf_ops bf Hc) c g sc;
  eo_scalar : In sc all_fields;
  eo_size : size sc = 32%nat /\ size bf = 32%nat }.
Lemma ecdsa_curve_ok bf Hc c g sc : ecdsa_curve bf Hc c g sc -> ecdsa_ok bf Hc c g sc.
Proof.
  intros [Hk|Hr]; constructor.
  - apply cv_secp256k1. apply lf_pf; in_fields.
  - apply wc_secp256k1. apply lf_pf; in_fields.
  - in_fields.
  - split; vm_compute; reflexivity.
  - apply cv_secp256r1. apply lf_pf; in_fields.
  - apply wc_secp256r1. apply lf_pf; in_fields.
  - in_fields.
  - split; vm_compute; reflexivity.
Qed.

Section Statements.
Context bf (Hc : odd_conf bf) (c : cconf (lf bf)) (g : aff (lf bf)) (sc : fconf) (X : ecdsa_curve bf Hc c g sc).
Let K := ecdsa_curve_ok _ _ _ _ _ X.
Local Notation o := (lf_ops bf Hc).
Let HV := eo_curve _ _ _ _ _ K.
Let Hf := crate_curve_facts _ _ _ _ HV.
Let HC := cf_laws _ _ _ _ Hf.
Let I := eo_scalar _ _ _ _ _ K.
Local Notation repr := (represents (num_limbs sc) (modulus sc)).
Local Notation mulz := (pt_mulz o (ca c)).
Local Notation G := (Some (ax g, ay g)).

Lemma e_modn x : repr (mod_n sc lf_repr_bytes x) (lf_val bf x mod modulus sc).
Proof.
  destruct (C04_to_repr bf (limbs x) (lf_val bf x) Hc (lf_repr bf Hc x)) as (L & B & E).
  destruct (eo_size _ _ _ _ _ K) as [S1 S2]. unfold mod_n, lf_repr_bytes.
  assert (E2 : le_int (to_repr bf (limbs x) ++ repeat 0 32) = lf_val bf x).
  { rewrite le_int_app, E. change (le_int (repeat 0 32)) with 0. ring. }
  rewrite <- E2. apply (C05_from_uniform_bytes sc _ (field_odd sc I)).
  - apply is_bytes_app. split; [exact B|]. apply Forall_forall. intros b Hb. apply repeat_spec in Hb. subst. lia.
  - rewrite app_length, L, repeat_length, S1, S2. lia.
Qed.
Lemma e_gen : on_curve o (ca c) (cb c) G.
Proof. exact (proj1 (cf_gen _ _ _ _ Hf)). Qed.
Lemma e_order : mulz (modulus sc) G = None.
Proof. exact (proj2 (C33_whole _ _ _ _ _ (eo_whole _ _ _ _ _ K) G e_gen)). Qed.
Lemma e_val0 : lf_val bf (f0 o) = 0.
Proof.
  pose proof (lf_repr bf Hc (f0 o)) as R. pose proof (fe_zero_repr bf Hc) as Z0.
  exact (repr_unique bf Hc _ _ _ R Z0).
Qed.

Lemma s_verify pk P m e r rv s sv : arep o c pk P -> repr m e -> repr r rv -> repr s sv ->
  (sv = 0 -> ecdsa_verify o c g sc lf_repr_bytes pk m r s = None) /\
  (sv <> 0 -> rv <> 0 -> exists b, ecdsa_verify o c g sc lf_repr_bytes pk m r s = Some b /\
     (b = true <-> ecdsa_valid o (ca c) (lf_val bf) (modulus sc) G P e rv sv)).
Proof.
  intros Apk Re Rr Rs.
  destruct (verify_spec o c HC g sc (field_odd sc I) (field_sized sc I) (field_prime sc I) lf_repr_bytes (lf_val bf) e_modn e_gen
    (C27_mul _ o c g sc HV) (C27_mul_affine _ o c g sc HV) pk P m e r rv s sv Apk Re Rr Rs) as [A B].
  split; [exact A|]. intros Ns Nr. destruct (B Ns) as (w & b & Ew & Hw & Ev & Hb). exists b. split; [exact Ev|].
  pose proof (proj1 (proj2 Rs)) as Bs. pose proof (proj1 (proj2 Rr)) as Br.
  assert (OP : on_curve o (ca c) (cb c) P) by apply Apk.
  pose proof (proj2 (C33_whole _ _ _ _ _ (eo_whole _ _ _ _ _ K) P OP)) as KP.
  rewrite !(mulz_mod o c HC (modulus sc)) in Hb by (assumption || exact e_gen || exact e_order).
  rewrite Hb. unfold ecdsa_valid. split.
  - intros E. split; [clear - Br Nr; lia|]. split; [clear - Bs Ns; lia|]. exists w.
    destruct (pt_add o (ca c) (mulz (e * w) G) (mulz (rv * w) P)) as [[x y]|].
    + exists x, y. split; [exact Ew|]. split; [reflexivity|exact E].
    + exfalso. cbn [xof] in E. rewrite e_val0 in E. apply Nr. rewrite <- E. reflexivity.
  - intros (_ & _ & w' & x & y & Ew' & E & Ex).
    assert (EW : w mod modulus sc = w' mod modulus sc).
    { apply (cancel_mod sc (field_prime sc I) sv w); [exact Ew|]. rewrite Ew, Ew'. reflexivity. }
    assert (M : forall t Q, on_curve o (ca c) (cb c) Q -> mulz (t * w) Q = mulz (t * w') Q).
    { intros t Q OQ. apply (mulz_congr o c HC sc); [exact OQ|exact (proj2 (C33_whole _ _ _ _ _ (eo_whole _ _ _ _ _ K) Q OQ))|].
      rewrite <- Zmult_mod_idemp_r, EW, Zmult_mod_idemp_r. reflexivity. }
    rewrite (M e G e_gen), (M rv P OP), E. exact Ex.
Qed.
Lemma s_sign sk d m e k t : repr sk d -> repr m e -> repr k t ->
  (t = 0 -> ecdsa_sign o c g sc lf_repr_bytes sk m k = None) /\
  (t <> 0 -> exists r s rv sv x y, ecdsa_sign o c g sc lf_repr_bytes sk m k = Some (r, s) /\
     mulz t G = Some (x, y) /\ rv = lf_val bf x mod modulus sc /\
     repr r rv /\ repr s sv /\ (t * sv) mod modulus sc = (e + rv * d) mod modulus sc).
Proof.
  intros Rd Re Rt.
  destruct (sign_spec o c HC g sc (field_odd sc I) (field_sized sc I) (field_prime sc I) lf_repr_bytes (lf_val bf) e_modn e_gen
    (C27_mul _ o c g sc HV) sk d m e k t Rd Re Rt) as [A B].
  split; [exact A|]. intros Nt. destruct (B Nt) as (r & s & sv & E & Rr & Rs & Q). cbv zeta in Rr, Q.
  destruct (mulz t G) as [[x y]|] eqn:EG.
  - exists r, s, (lf_val bf x mod modulus sc), sv, x, y. cbn [xof] in *. auto 10.
  - exfalso. apply (C44_generator _ o c g sc HV) in EG. pose proof (proj1 (proj2 Rt)) as Bt.
    apply Z.divide_pos_le in EG; lia.
Qed.
Lemma s_complete sk d m e k t r s sv : repr sk d -> repr m e -> repr k t -> t <> 0 ->
  ecdsa_sign o c g sc lf_repr_bytes sk m k = Some (r, s) -> repr s sv -> sv <> 0 ->
  ecdsa_verify o c g sc lf_repr_bytes (ecdsa_pk o c g sc sk) m r s = Some true.
Proof.
  intros Rd Re Rt Nt. exact (complete o c HC g sc (field_odd sc I) (field_sized sc I) (field_prime sc I) lf_repr_bytes (lf_val bf)
    e_modn e_gen e_order (C27_mul _ o c g sc HV) (C27_mul_affine _ o c g sc HV) sk d m e k t Rd Re Rt Nt r s sv).
Qed.
Lemma s_malleable pk P m e r rv s sv : arep o c pk P -> repr m e -> repr r rv -> repr s sv ->
  ecdsa_verify o c g sc lf_repr_bytes pk m r (fe_neg sc s) = ecdsa_verify o c g sc lf_repr_bytes pk m r s.
Proof.
  intros Apk. apply (malleable o c HC g sc (field_odd sc I) (field_sized sc I) (field_prime sc I) lf_repr_bytes (lf_val bf)
    e_modn e_gen e_order (C27_mul _ o c g sc HV) (C27_mul_affine _ o c g sc HV) pk P m e r rv s sv Apk).
  exact (proj2 (C33_whole _ _ _ _ _ (eo_whole _ _ _ _ _ K) P (proj1 Apk))).
Qed.
Lemma s_degenerate pk P s sv : arep o c pk P -> repr s sv -> sv <> 0 ->
  ecdsa_verify o c g sc lf_repr_bytes pk (fe_zero sc) (fe_zero sc) s = Some true.
Proof.
  intros Apk Rs Ns. pose proof (fe_zero_repr sc (field_odd sc I)) as R0.
  destruct (verify_spec o c HC g sc (field_odd sc I) (field_sized sc I) (field_prime sc I) lf_repr_bytes (lf_val bf) e_modn e_gen
    (C27_mul _ o c g sc HV) (C27_mul_affine _ o c g sc HV) pk P _ _ _ _ s sv Apk R0 R0 Rs) as [_ B].
  destruct (B Ns) as (w & b & Ew & Hw & -> & Hb). f_equal. apply Hb.
  change (0 * w) with 0. rewrite Z.mod_0_l by (pose proof (n_gt1 sc (field_prime sc I)); lia).
  cbn [pt_mulz pt_add xof]. rewrite e_val0. apply Z.mod_0_l. pose proof (n_gt1 sc (field_prime sc I)); lia.
Qed.
End Statements.

(** Signing panics exactly for the nonce 0, and otherwise computes [r] and [s] of FIPS 186. *)
Theorem C59_sign : forall bf Hc c g sc, ecdsa_curve bf Hc c g sc -> forall sk d m e k t,
  let o := lf_ops bf Hc in let n := modulus sc in let repr := represents (num_limbs sc) n in
  repr sk d -> repr m e -> repr k t ->
  (t = 0 -> ecdsa_sign o c g sc lf_repr_bytes sk m k = None) /\
  (t <> 0 -> exists r s rv sv x y, ecdsa_sign o c g sc lf_repr_bytes sk m k = Some (r, s) /\
     pt_mulz o (ca c) t (Some (ax g, ay g)) = Some (x, y) /\ rv = lf_val bf x mod n /\
     repr r rv /\ repr s sv /\ (t * sv) mod n = (e + rv * d) mod n).
Proof. exact s_sign. Qed.
Print Assumptions C59_sign.
(** Verification panics exactly for [s = 0], and for [r <> 0] accepts exactly the
    signatures that FIPS 186 accepts, for every public key on the curve. *)
Theorem C59_verify : forall bf Hc c g sc, ecdsa_curve bf Hc c g sc -> forall pk P m e r rv s sv,
  let o := lf_ops bf Hc in let n := modulus sc in let repr := represents (num_limbs sc) n in
  arep o c pk P -> repr m e -> repr r rv -> repr s sv ->
  (sv = 0 -> ecdsa_verify o c g sc lf_repr_bytes pk m r s = None) /\
  (sv <> 0 -> rv <> 0 -> exists b, ecdsa_verify o c g sc lf_repr_bytes pk m r s = Some b /\
     (b = true <-> ecdsa_valid o (ca c) (lf_val bf) n (Some (ax g, ay g)) P e rv sv)).
Proof. exact s_verify. Qed.
Print Assumptions C59_verify.
(** The assertion of the test: what was signed is accepted, for all keys, messages and
    nonces ([s = 0], where the test would panic, excepted). *)
Theorem C59_complete : forall bf Hc c g sc, ecdsa_curve bf Hc c g sc -> forall sk d m e k t r s sv,
  let o := lf_ops bf Hc in let repr := represents (num_limbs sc) (modulus sc) in
  repr sk d -> repr m e -> repr k t -> t <> 0 ->
  ecdsa_sign o c g sc lf_repr_bytes sk m k = Some (r, s) -> repr s sv -> sv <> 0 ->
  ecdsa_verify o c g sc lf_repr_bytes (ecdsa_pk o c g sc sk) m r s = Some true.
Proof. exact s_complete. Qed.
Print Assumptions C59_complete.
Theorem C59_malleable : forall bf Hc c g sc, ecdsa_curve bf Hc c g sc -> forall pk P m e r rv s sv,
  let o := lf_ops bf Hc in let repr := represents (num_limbs sc) (modulus sc) in
  arep o c pk P -> repr m e -> repr r rv -> repr s sv ->
  ecdsa_verify o c g sc lf_repr_bytes pk m r (fe_neg sc s) = ecdsa_verify o c g sc lf_repr_bytes pk m r s.
Proof. exact s_malleable. Qed.
Print Assumptions C59_malleable.
(** [CurveAffine::coordinates] is documented to return nothing for the identity.  It
    returns (0, 0) on every curve ... *)
Theorem C59_coordinates_refuted : forall F (o : fops F) c g sc, crate_curve o c g sc ->
  (forall p P, arep o c p P -> exists xy, coordinates o c p = Some xy) /\
  coordinates o c (aff_identity o) = Some (f0 o, f0 o).
Proof.
  intros F o c g sc HV. pose proof (cf_laws _ _ _ _ (crate_curve_facts o c g sc HV)) as HC. split.
  - intros p P A. rewrite (coordinates_spec o c HC p P A). eauto.
  - refine (coordinates_spec o c HC (aff_identity o) None _). split; [exact Logic.I|split; reflexivity].
Qed.
Print Assumptions C59_coordinates_refuted.
(** ... so the verifier of the example, which relies on the [unwrap], accepts [r = 0] with
    any [s] for the hash 0, under every public key. *)
Theorem C59_zero_r_refuted : forall bf Hc c g sc, ecdsa_curve bf Hc c g sc -> forall pk P s sv,
  let o := lf_ops bf Hc in
  arep o c pk P -> represents (num_limbs sc) (modulus sc) s sv -> sv <> 0 ->
  ecdsa_verify o c g sc lf_repr_bytes pk (fe_zero sc) (fe_zero sc) s = Some true.
Proof. exact s_degenerate. Qed.
Print Assumptions C59_zero_r_refuted.

(** RFC 6979, A.2.5: P-256, SHA-256, message "sample".  The base field runs in BigZ. *)
Definition ex_o := be_ops (modulus secp256r1_fp).
Definition ex_inj := binj (modulus secp256r1_fp).
Definition ex_c := curve_of ex_o ex_inj secp256r1_consts.
Definition ex_g := gen_aff ex_inj secp256r1_consts.
Definition ex_repr (x : bigZ) : list Z := le_bytes 32 (BigZ.to_Z x).
Definition ex_sk := mont_of secp256r1_fq 0xC9AFA9D845BA75166B5C215767B1D6934E50C3DB36E89B127B8A622B120F6721.
Definition ex_k := mont_of secp256r1_fq 0xA6E3C57DD01ABE90086538398355DD4C3B17AA873382B0F24D6129493D8AAD60.
Definition ex_m := mont_of secp256r1_fq (le_int (rev (hash sha256_digest (ascii_bytes "sample")))).
Definition ex_r := mont_of secp256r1_fq 0xEFD48B2AACB6A8FD1140DD9CD45E81D69D2C877B56AAF991C34D0EA84EAF3716.
Definition ex_s := mont_of secp256r1_fq 0xF7CB1C942D657C41D436C7A1B6E29F65F3E900DBB9AFF4064DC4AB2F843ACDA8.
Example C59_example_sign : ecdsa_sign ex_o ex_c ex_g secp256r1_fq ex_repr ex_sk ex_m ex_k = Some (ex_r, ex_s).
Proof. vm_compute. reflexivity. Qed.
Definition ex_pk := mk_aff (ex_inj 0x60FED4BA255A9D31C961EB74C6356D68C049B8923B61FA6CE669622E60F29FB6)
  (ex_inj 0x7903FE1008B8BC99A41AE9E95628BC64F2F1B20C2D7E9F5177A3C294D4462299).
Example C59_example_verify :
  ecdsa_verify ex_o ex_c ex_g secp256r1_fq ex_repr ex_pk ex_m ex_r ex_s = Some true.
Proof. vm_compute. reflexivity. Qed.
(** The hypotheses of the theorems are met. *)
Example C59_example_hypotheses : forall Hc,
  ecdsa_curve secp256r1_fp Hc (curve_of (lf_ops _ Hc) (lf_inj _ Hc) secp256r1_consts) (gen_aff (lf_inj _ Hc) secp256r1_consts) secp256r1_fq /\
  (exists d, represents 4 (modulus secp256r1_fq) ex_sk d) /\ (exists t, represents 4 (modulus secp256r1_fq) ex_k t /\ t <> 0).
Proof.
  intros Hc. split; [constructor|]. assert (I : In secp256r1_fq all_fields) by in_fields.
  split; eexists; [exact (mont_of_repr secp256r1_fq _ I)|]. split; [exact (mont_of_repr secp256r1_fq _ I)|]. vm_compute. discriminate.
Qed.
