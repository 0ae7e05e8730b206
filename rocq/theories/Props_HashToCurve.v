(** C52: hash_to_curve from the bytes of the message to the point, over the limb arrays of the
    crate and for any hash function with 32-byte output. *)
From Coq Require Import String.
From Verif Require Import Base Word Bytes Field SpecField Params FieldFacts BytesFacts
  Algebra Pow Tower TowerFacts FiniteField PrimeField Primality Certs TowerParams TowerInst SpecCurve SpecCurveFacts
  Curve CurveFacts CurveGroup CurveParams CurveInst CrateCurves Pairing PairingParams Sqrt2
  SpecH2c H2c H2cParams H2cSuites H2cFacts IsoFacts H2cInst H2cSuiteFacts H2cUnique
  Hash SpecHash HashFacts Cofactor Jacobi LimbField Serde SerdeInst Sha256 HashToCurve
  Props_Field Props_Field2 Props_Sqrt2 Props_Hash Props_H2c Props_Jacobi Props_Cofactor Compute.
From Bignums Require Import BigZ.
Local Open Scope Z_scope.

(** ** The specification *)
(** RFC 9380, section 4.1: [sgn0] of a prime field, and of a quadratic extension. *)
Definition sgn0 (c : fconf) (x : lf c) : bool := Z.odd (lf_val c x).
Definition sgn0_2 (c : fconf) (x : quad (lf c)) : bool :=
  sgn0 c (q0 x) || ((lf_val c (q0 x) =? 0) && sgn0 c (q1 x)).

(** [u -> P] of the suites: section 6.6.1; section 6.6.2; and section 6.6.3, the simplified SWU
    map to the isogenous curve followed by the isogeny (x_num/x_den, y y_num/y_den). *)
Definition svdw_point {E} (o : fops E) (sgn : E -> bool) (a b z u : E) (P : E * E) : Prop :=
  svdw_spec o sgn a b z u (fst P) (snd P).
Definition sswu_point {E} (o : fops E) (sgn : E -> bool) (a b z u : E) (P : E * E) : Prop :=
  sswu_spec o sgn a b z u (fst P) (snd P).
Definition sswu_iso_point {E} (o : fops E) (sgn : E -> bool) (a b z : E) (polys : list (list E)) (u : E) (P : E * E) : Prop :=
  exists t s, sswu_spec o sgn a b z u t s /\
  let ev i := peval o (nth i polys []) t in
  ev 1%nat <> f0 o /\ ev 3%nat <> f0 o /\
  fmul o (fst P) (ev 1%nat) = ev 0%nat /\ fmul o (snd P) (ev 3%nat) = fmul o s (ev 2%nat).

(** Section 3: u = hash_to_field(msg, 2), Q0 = map(u[0]), Q1 = map(u[1]), R = h_eff (Q0 + Q1).
    [elem] builds an element from its coefficients, of [L] bytes each; [m] is the degree.  The
    result is in the group generated by [gen], of order [r]. *)
Definition h2c_result {E} (o : fops E) (c : cconf E) (gen : E * E) (r h_eff : Z) (point : E -> E * E -> Prop)
    (u0 u1 : E) (out : h2c (proj E)) : Prop :=
  exists q Q0 Q1, out = HRet q /\ point u0 Q0 /\ point u1 Q1 /\
  let R := pt_mulz o (ca c) h_eff (pt_add o (ca c) (Some Q0) (Some Q1)) in
  prep o c q R /\ (exists k, R = pt_mulz o (ca c) k (Some gen)) /\ pt_mulz o (ca c) r R = None.
Definition rfc_u {E} (elem : (nat -> Z) -> E) (p : Z) (m L : nat) (D : digest) (msg DST : list Z) (i : nat) : E :=
  elem (field_coeff (hash D) 32 (block_size D) p m L msg DST 2 i).
Definition h2c_correct {E} (o : fops E) (c : cconf E) (gen : E * E) (r h_eff : Z) (elem : (nat -> Z) -> E) (p : Z)
    (m L : nat) (domain : string) (point : E -> E * E -> Prop) (run : digest -> list Z -> list Z -> h2c (proj E)) : Prop :=
  forall D, digest_ok D -> output_size D = 32%nat -> forall prefix msg,
  let DST := prefix ++ ascii_bytes domain in (length DST <= 255)%nat ->
  let u := rfc_u elem p m L D msg DST in
  h2c_result o c gen r h_eff point (u 0%nat) (u 1%nat) (run D prefix msg).

(** ** Assembly *)
Lemma suite_result {E} (o : fops E) c (HC : curve_laws o c) gen r h clear tf (CS : cofactor_spec o c gen r h clear tf)
    mp (point : E -> E * E -> Prop) nb L fu D domain prefix msg u0 u1 :
  (nb + 128) / 8 <= Z.of_nat L ->
  (forall u, u = u0 \/ u = u1 -> exists q P, mp u = HRet q /\ prep o c q (Some P) /\ point u P) ->
  hash_to_field D prefix domain fu L msg = Some (u0, u1) ->
  h2c_result o c gen r h point u0 u1 (hash_with_suite o c mp clear nb L fu D domain prefix msg).
Proof.
  intros Hb HM HF. destruct (HM u0 (or_introl eq_refl)) as (p0 & Q0 & E0 & R0 & S0).
  destruct (HM u1 (or_intror eq_refl)) as (p1 & Q1 & E1 & R1 & S1).
  unfold hash_with_suite. replace ((nb + 128) / 8 <=? Z.of_nat L) with true by (symmetry; apply Z.leb_le; exact Hb).
  rewrite HF. unfold suite_hash_to_curve. cbn [h_unwrap h_bind]. rewrite E0. cbn [h_bind]. rewrite E1. cbn [h_bind].
  pose proof (add_repr o c HC _ _ _ _ R0 R1) as RA. pose proof (cs_clear _ _ _ _ _ _ _ CS _ _ RA) as RC.
  eexists _, Q0, Q1. split; [reflexivity|]. split; [exact S0|]. split; [exact S1|]. cbv zeta. split; [exact RC|].
  pose proof (cs_into _ _ _ _ _ _ _ CS _ (proj1 RA)) as I. split; [exact I|].
  apply (cs_group _ _ _ _ _ _ _ CS _ (proj1 RC)). exact I.
Qed.
Lemma suite_panics {E} (o : fops E) c mp clear nb L fu D domain prefix msg : (0 < output_size D)%nat -> Z.of_nat (L * 2) <= 65535 ->
  (255 < length (prefix ++ domain))%nat -> @hash_with_suite E o c mp clear nb L fu D domain prefix msg = HPanic.
Proof.
  intros HP HL HD. unfold hash_with_suite. destruct (_ <=? _); [|reflexivity]. unfold hash_to_field.
  rewrite (C37_panics D prefix domain msg (L * 2) HP HL); [reflexivity|]. left. intros (_ & _ & X). lia.
Qed.

Section Limb.
Context (fc : fconf) (Hi : In fc all_fields) (Hc : odd_conf fc).
Notation o := (lf_ops fc Hc). Notation inj := (lf_inj fc Hc).
Lemma zr : zrep (modulus fc) o inj (lf_val fc).
Proof. exact (lf_zrep fc Hc (field_sized fc Hi) (field_prime fc Hi)). Qed.
Lemma lf_val_eq l x : represents (num_limbs fc) (modulus fc) l x -> lf_of (lf0 fc Hc) l = inj x.
Proof using All.
  intros R. rewrite <- (zr_inj_val _ _ _ _ zr (lf_of _ l)). f_equal. exact (proj1 (repr_val fc Hc (lf0 fc Hc) _ _ R)).
Qed.
Lemma odd_sgn0 x : lf_odd fc x = sgn0 fc x.
Proof using All. exact (C11_is_odd fc (limbs x) (lf_val fc x) Hc (lf_repr fc Hc x)). Qed.
Lemma val_bound x : 0 <= lf_val fc x < modulus fc.
Proof using All.
  rewrite <- (zr_mod (modulus fc) _ _ _ (field_prime fc Hi) zr x). apply Z.mod_pos_bound.
  destruct (field_prime fc Hi). lia.
Qed.
Lemma sgn0_ok : sgn_ok o (sgn0 fc).
Proof using All.
  intros x N. unfold sgn0. rewrite (zr_neg _ _ _ _ zr). pose proof (val_bound x) as B.
  assert (Nz : lf_val fc x <> 0).
  { intros E. apply N. rewrite <- (zr_inj_val _ _ _ _ zr x), E, <- (zr_inj_val _ _ _ _ zr (f0 o)), (zr_0 _ _ _ _ zr). reflexivity. }
  replace (- lf_val fc x mod modulus fc) with (modulus fc - lf_val fc x)
    by (apply Z.mod_unique_pos with (-1); lia).
  rewrite Z.odd_sub, (proj2 Hc). destruct (Z.odd (lf_val fc x)); reflexivity.
Qed.
Lemma lf_sq_dec (x : lf fc) : is_square o x \/ ~ is_square o x.
Proof using All.
  pose proof (lf_pf7 fc Hi Hc) as HP.
  assert (G : 2 < modulus fc).
  { pose proof (proj1 Hc) as A. pose proof (proj2 Hc) as B. clear - A B.
    destruct (Z.eq_dec (modulus fc) 2) as [E|E]; [rewrite E in B; discriminate B|lia]. }
  exact (square_dec o (pf_laws _ _ _ HP) _ (prime_field_finite _ _ _ HP) (pf_two _ _ _ HP G) x).
Qed.

(** hash_to_field in the limb field *)
Context (D : digest) (HD : digest_ok D) (H32 : output_size D = 32%nat).
Lemma lf_hash_to_field prefix domain msg L : (0 < L <= 2 * size fc)%nat -> xmd_supported 32 (prefix ++ domain) (2 * L) ->
  let u := rfc_u (fun k => inj (k 0%nat)) (modulus fc) 1 L D msg (prefix ++ domain) in
  hash_to_field D prefix domain (lf_fu fc Hc) L msg = Some (u 0%nat, u 1%nat).
Proof using All.
  intros HL HS. rewrite <- H32 in HS. destruct (C37_field D HD fc Hc prefix domain msg L HL HS) as (l0 & l1 & E & R0 & R1).
  cbv zeta in R0, R1. unfold rfc_u. rewrite <- H32. rewrite <- (lf_val_eq _ _ R0), <- (lf_val_eq _ _ R1).
  unfold hash_to_field in *. destruct (expand_message _ _ _ _ _); [|discriminate E]. injection E as <- <-. reflexivity.
Qed.
Lemma t2_hash_to_field prefix domain msg half : (0 < half <= 2 * size fc)%nat -> xmd_supported 32 (prefix ++ domain) (4 * half) ->
  let u := rfc_u (fun k => mk_quad (inj (k 0%nat)) (inj (k 1%nat))) (modulus fc) 2 half D msg (prefix ++ domain) in
  hash_to_field D prefix domain (t2_from_uniform_bytes fc Hc half) (2 * half) msg = Some (u 0%nat, u 1%nat).
Proof using All.
  intros HL HS. rewrite <- H32 in HS.
  destruct (C37_quad D HD fc Hi Hc prefix domain msg half HL HS) as (u0 & u1 & E & A0 & A1 & B0 & B1).
  cbv zeta in A0, A1, B0, B1. cbv zeta. rewrite E. unfold rfc_u. rewrite <- H32. rewrite <- A0, <- A1, <- B0, <- B1.
  rewrite !(zr_inj_val _ _ _ _ zr). destruct u0, u1. reflexivity.
Qed.
End Limb.

(** ** The suites over prime fields *)
Lemma plain_correct fc (Hi : In fc all_fields) Hc c g sc mp (point : lf fc -> lf fc * lf fc -> Prop) L domain :
  let o := lf_ops fc Hc in let inj := lf_inj fc Hc in
  whole_curve o c g sc -> In (fc, 1%nat, L) hash_suites ->
  (forall u, exists q P, mp u = HRet q /\ prep o c q (Some P) /\ point u P) ->
  h2c_correct o c (ax g, ay g) (modulus sc) 1 (fun k => inj (k 0%nat)) (modulus fc) 1 L domain point
    (fun D prefix msg => plain_suite o (lf_fu fc Hc) D prefix msg fc c mp L domain).
Proof.
  intros o inj HW HS HM D HD H32 prefix msg DST Hl u.
  pose proof (cf_laws _ _ _ _ (crate_curve_facts _ _ _ _ (whole_crate o c g sc HW))) as HC.
  destruct (C37_suites fc 1 L HS) as (Hb & _ & L0 & L1 & X).
  refine (suite_result o c HC _ _ _ _ _ (proj1 (C43_plain _ o c g sc HW)) mp point _ L _ D _ prefix msg _ _ Hb (fun u _ => HM u) _).
  apply (lf_hash_to_field fc Hi Hc D HD H32 prefix _ msg L).
  - clear - L0 L1. lia.
  - exact (X _ Hl).
Qed.

Lemma nth_polys {E} (f : Z -> E) (polys : list (list Z)) i : nth i (map (map f) polys) [] = map f (nth i polys []).
Proof. apply (map_nth (map f) polys []). Qed.

(** C52. *)
Theorem C52_secp256k1 : forall Hc, let o := lf_ops secp256k1_fp Hc in let inj := lf_inj secp256k1_fp Hc in
  h2c_correct o (curve_of o inj secp256k1_consts) (inj (cc_gx secp256k1_consts), inj (cc_gy secp256k1_consts))
    (modulus secp256k1_fq) 1 (fun k => inj (k 0%nat)) (modulus secp256k1_fp) 1 48 "secp256k1_XMD:SHA-256_SSWU_RO_"
    (sswu_iso_point o (sgn0 _) (inj (sw_a secp256k1_sswu)) (inj (sw_b secp256k1_sswu)) (inj (-11)) (map (map inj) secp_iso_polys))
    (secp256k1_hash o inj (lf_odd _) (lf_fu _ Hc)).
Proof.
  intros Hc o inj. assert (Hi : In secp256k1_fp all_fields) by in_fields. pose proof (lf_pf7 _ Hi Hc) as HP.
  refine (plain_correct _ Hi Hc _ (gen_aff inj secp256k1_consts) _ _ _ 48 _ (wc_secp256k1 _ o inj HP) _ _).
  { unfold hash_suites. cbn [In]. tauto. }
  intros u. destruct (C46_secp256k1 _ o inj HP (lf_odd _) u) as (t & s & z & Zz & Sp & E).
  apply (sswu_spec_ext o _ (sgn0 _) (odd_sgn0 _ Hi Hc)) in Sp.
  destruct (C38_secp256k1 _ o inj HP t s z Zz (sswu_on o (pf_laws _ _ _ HP) _ _ _ _ _ _ _ Sp)) as (X & Y & A & B & C & D & P).
  eexists _, (X, Y). split; [exact E|]. split; [exact P|]. exists t, s. split.
  - assert (Ez : inj (-11) = inj (sw_z secp256k1_sswu)); [|rewrite Ez; exact Sp].
    rewrite (proj1 (proj1 C46_constants)). symmetry. exact (pf_mod _ _ _ HP (-11)).
  - cbv beta zeta. rewrite !nth_polys. auto.
Qed.
Theorem C52_secp256r1 : forall Hc, let o := lf_ops secp256r1_fp Hc in let inj := lf_inj secp256r1_fp Hc in
  h2c_correct o (curve_of o inj secp256r1_consts) (inj (cc_gx secp256r1_consts), inj (cc_gy secp256r1_consts))
    (modulus secp256r1_fq) 1 (fun k => inj (k 0%nat)) (modulus secp256r1_fp) 1 48 "P256_XMD:SHA-256_SSWU_RO_"
    (sswu_point o (sgn0 _) (inj (cc_a secp256r1_consts)) (inj (cc_b secp256r1_consts)) (inj (-10)))
    (secp256r1_hash o inj (lf_odd _) (lf_fu _ Hc)).
Proof.
  intros Hc o inj. assert (Hi : In secp256r1_fp all_fields) by in_fields. pose proof (lf_pf7 _ Hi Hc) as HP.
  refine (plain_correct _ Hi Hc _ (gen_aff inj secp256r1_consts) _ _ _ 48 _ (wc_secp256r1 _ o inj HP) _ _).
  { unfold hash_suites. cbn [In]. tauto. }
  intros u. destruct (C46_secp256r1 _ o inj HP (lf_odd _) u) as (x & y & z & Zz & E & Sp).
  apply (sswu_spec_ext o _ (sgn0 _) (odd_sgn0 _ Hi Hc)) in Sp.
  eexists _, (x, y). split; [exact E|]. split; [|exact Sp].
  split; [exact (sswu_on o (pf_laws _ _ _ HP) _ _ _ _ _ _ _ Sp)|]. split; [exact Zz|]. split; reflexivity.
Qed.
Lemma svdw_correct fc (Hi : In fc all_fields) Hc c g sc mp L domain : let o := lf_ops fc Hc in let inj := lf_inj fc Hc in
  whole_curve o c g sc -> In (fc, 1%nat, L) hash_suites ->
  (forall u, exists x y, mp u = HRet (mk_proj x y (f1 o)) /\ svdw_spec o (lf_odd _) (ca c) (cb c) (f1 o) u x y /\
     prep o c (mk_proj x y (f1 o)) (Some (x, y))) ->
  h2c_correct o c (ax g, ay g) (modulus sc) 1 (fun k => inj (k 0%nat)) (modulus fc) 1 L domain
    (svdw_point o (sgn0 _) (ca c) (cb c) (f1 o))
    (fun D prefix msg => plain_suite o (lf_fu fc Hc) D prefix msg fc c mp L domain).
Proof.
  intros o inj HW HS HM. refine (plain_correct _ Hi Hc _ g _ _ _ L _ HW HS _). intros u.
  destruct (HM u) as (x & y & E & Sp & P). apply (svdw_spec_ext o _ (sgn0 _) (odd_sgn0 _ Hi Hc)) in Sp.
  exists (mk_proj x y (f1 o)), (x, y). split; [exact E|]. split; [exact P|exact Sp].
Qed.
Theorem C52_bn256_g1 : forall Hc, let o := lf_ops bn256_fq Hc in let inj := lf_inj bn256_fq Hc in
  let c := curve_of_bn256_g1 o inj bn256_g1_consts in
  h2c_correct o c (inj (cc_gx bn256_g1_consts), inj (cc_gy bn256_g1_consts))
    (modulus bn256_fr) 1 (fun k => inj (k 0%nat)) (modulus bn256_fq) 1 48 "BN254G1_XMD:SHA-256_SVDW_RO_"
    (svdw_point o (sgn0 _) (ca c) (cb c) (f1 o)) (bn256_g1_hash o inj (lf_odd _) (lf_nonres _) (lf_fu _ Hc)).
Proof.
  intros Hc o inj c. assert (Hi : In bn256_fq all_fields) by in_fields. pose proof (lf_pf7 _ Hi Hc) as HP.
  destruct svdw_checks as (S1 & S2 & S3 & S4 & S5 & _).
  refine (svdw_correct _ Hi Hc _ (gen_aff inj bn256_g1_consts) _ _ 48 _ (wc_bn256_g1 _ o inj HP) _ _).
  { unfold hash_suites. cbn [In]. tauto. }
  exact (svdw_map_spec' o inj (lf_odd _) bn256_fq Hi HP _ (C07_qnr_test _ Hc Hi) _ _ _
    (cf_laws _ _ _ _ (crate_curve_facts _ _ _ _ (cv_bn256_g1 _ o inj HP))) S1 eq_refl eq_refl).
Qed.
Theorem C52_grumpkin : forall Hc, let o := lf_ops bn256_fr Hc in let inj := lf_inj bn256_fr Hc in
  let c := curve_of o inj grumpkin_consts in
  h2c_correct o c (inj (cc_gx grumpkin_consts), inj (cc_gy grumpkin_consts))
    (modulus bn256_fq) 1 (fun k => inj (k 0%nat)) (modulus bn256_fr) 1 48 "GRUMPKIN_XMD:SHA-256_SVDW_RO_"
    (svdw_point o (sgn0 _) (ca c) (cb c) (f1 o)) (grumpkin_hash o inj (lf_odd _) (lf_nonres _) (lf_fu _ Hc)).
Proof.
  intros Hc o inj c. assert (Hi : In bn256_fr all_fields) by in_fields. pose proof (lf_pf7 _ Hi Hc) as HP.
  destruct svdw_checks as (S1 & S2 & S3 & S4 & S5 & _).
  refine (svdw_correct _ Hi Hc _ (gen_aff inj grumpkin_consts) _ _ 48 _ (wc_grumpkin _ o inj HP) _ _).
  { unfold hash_suites. cbn [In]. tauto. }
  exact (svdw_map_spec' o inj (lf_odd _) bn256_fr Hi HP _ (C07_qnr_test _ Hc Hi) _ _ _
    (cf_laws _ _ _ _ (crate_curve_facts _ _ _ _ (cv_grumpkin _ o inj HP))) S2 eq_refl eq_refl).
Qed.
Theorem C52_secq256k1 : forall Hc, let o := lf_ops secp256k1_fq Hc in let inj := lf_inj secp256k1_fq Hc in
  let c := curve_of o inj secq256k1_consts in
  h2c_correct o c (inj (cc_gx secq256k1_consts), inj (cc_gy secq256k1_consts))
    (modulus secp256k1_fp) 1 (fun k => inj (k 0%nat)) (modulus secp256k1_fq) 1 48 "secq256k1_XMD:SHA-256_SVDW_RO_"
    (svdw_point o (sgn0 _) (ca c) (cb c) (f1 o)) (secq256k1_hash o inj (lf_odd _) (lf_nonres _) (lf_fu _ Hc)).
Proof.
  intros Hc o inj c. assert (Hi : In secp256k1_fq all_fields) by in_fields. pose proof (lf_pf7 _ Hi Hc) as HP.
  destruct svdw_checks as (S1 & S2 & S3 & S4 & S5 & _).
  refine (svdw_correct _ Hi Hc _ (gen_aff inj secq256k1_consts) _ _ 48 _ (wc_secq256k1 _ o inj HP) _ _).
  { unfold hash_suites. cbn [In]. tauto. }
  exact (svdw_map_spec' o inj (lf_odd _) secp256k1_fq Hi HP _ (C07_qnr_test _ Hc Hi) _ _ _
    (cf_laws _ _ _ _ (crate_curve_facts _ _ _ _ (cv_secq256k1 _ o inj HP))) S3 eq_refl eq_refl).
Qed.
Theorem C52_pluto : forall Hc, let o := lf_ops pluto_eris_fp Hc in let inj := lf_inj pluto_eris_fp Hc in
  let c := curve_of o inj pluto_consts in
  h2c_correct o c (inj (cc_gx pluto_consts), inj (cc_gy pluto_consts))
    (modulus pluto_eris_fq) 1 (fun k => inj (k 0%nat)) (modulus pluto_eris_fp) 1 72 "pluto_XMD:SHA-256_SVDW_RO_"
    (svdw_point o (sgn0 _) (ca c) (cb c) (f1 o)) (pluto_hash o inj (lf_odd _) (lf_nonres _) (lf_fu _ Hc)).
Proof.
  intros Hc o inj c. assert (Hi : In pluto_eris_fp all_fields) by in_fields. pose proof (lf_pf7 _ Hi Hc) as HP.
  destruct svdw_checks as (S1 & S2 & S3 & S4 & S5 & _).
  refine (svdw_correct _ Hi Hc _ (gen_aff inj pluto_consts) _ _ 72 _ (wc_pluto _ o inj HP) _ _).
  { unfold hash_suites. cbn [In]. tauto. }
  exact (svdw_map_spec' o inj (lf_odd _) pluto_eris_fp Hi HP _ (C07_qnr_test _ Hc Hi) _ _ _
    (cf_laws _ _ _ _ (crate_curve_facts _ _ _ _ (cv_pluto _ o inj HP))) S4 eq_refl eq_refl).
Qed.
Theorem C52_eris : forall Hc, let o := lf_ops pluto_eris_fq Hc in let inj := lf_inj pluto_eris_fq Hc in
  let c := curve_of o inj eris_consts in
  h2c_correct o c (inj (cc_gx eris_consts), inj (cc_gy eris_consts))
    (modulus pluto_eris_fp) 1 (fun k => inj (k 0%nat)) (modulus pluto_eris_fq) 1 72 "eris_XMD:SHA-256_SVDW_RO_"
    (svdw_point o (sgn0 _) (ca c) (cb c) (f1 o)) (eris_hash o inj (lf_odd _) (lf_nonres _) (lf_fu _ Hc)).
Proof.
  intros Hc o inj c. assert (Hi : In pluto_eris_fq all_fields) by in_fields. pose proof (lf_pf7 _ Hi Hc) as HP.
  destruct svdw_checks as (S1 & S2 & S3 & S4 & S5 & _).
  refine (svdw_correct _ Hi Hc _ (gen_aff inj eris_consts) _ _ 72 _ (wc_eris _ o inj HP) _ _).
  { unfold hash_suites. cbn [In]. tauto. }
  exact (svdw_map_spec' o inj (lf_odd _) pluto_eris_fq Hi HP _ (C07_qnr_test _ Hc Hi) _ _ _
    (cf_laws _ _ _ _ (crate_curve_facts _ _ _ _ (cv_eris _ o inj HP))) S5 eq_refl eq_refl).
Qed.
Definition C52_plain := (C52_secp256k1, C52_secp256r1, C52_bn256_g1, C52_grumpkin, C52_secq256k1, C52_pluto, C52_eris).
Print Assumptions C52_plain.

(** Partial for bls12-381 G1: unless a point of the isogenous curve to which one of the two field
    elements goes is in the kernel of the isogeny (the crate returns a non-point then, C38). *)
Theorem C52_bls_g1_partial : forall Hc, let o := lf_ops bls12381_fq Hc in let inj := lf_inj bls12381_fq Hc in
  let polys := map (map inj) (sw_iso bls_g1_sswu) in
  let a := inj (sw_a bls_g1_sswu) in let b := inj (sw_b bls_g1_sswu) in
  forall D, digest_ok D -> output_size D = 32%nat -> forall prefix msg,
  let DST := prefix ++ ascii_bytes "BLS12381G1_XMD:SHA-256_SSWU_RO_" in (length DST <= 255)%nat ->
  let u := rfc_u (fun k => inj (k 0%nat)) (modulus bls12381_fq) 1 64 D msg DST in
  (forall i t s, (i < 2)%nat -> sswu_spec o (sgn0 _) a b (inj 11) (u i) t s -> peval o (nth 1 polys []) t <> f0 o) ->
  h2c_result o (curve_of o inj bls_g1_consts) (inj (cc_gx bls_g1_consts), inj (cc_gy bls_g1_consts)) (modulus bls12381_fr)
    0xd201000000010001 (sswu_iso_point o (sgn0 _) a b (inj 11) polys) (u 0%nat) (u 1%nat)
    (bls_g1_hash o inj (lf_odd _) (lf_fu _ Hc) D prefix msg).
Proof.
  intros Hc o inj polys a b D HD H32 prefix msg DST Hl u HK.
  assert (Hi : In bls12381_fq all_fields) by in_fields. pose proof (lf_pf7 _ Hi Hc) as HP.
  pose proof (cf_laws _ _ _ _ (crate_curve_facts _ _ _ _ (cv_bls_g1 _ o inj HP))) as HC.
  assert (HS : In (bls12381_fq, 1%nat, 64%nat) hash_suites) by (unfold hash_suites; cbn [In]; tauto).
  destruct (C37_suites _ _ _ HS) as (Hb & _ & L0 & L1 & X).
  refine (suite_result o _ HC _ _ _ _ _ (C43_bls_g1 _ o inj HP) _ _ _ 64 _ D _ prefix msg _ _ Hb _ _).
  - assert (HM : forall i, (i < 2)%nat -> exists q P, bls_g1_map o inj (lf_odd _) (u i) = HRet q /\
        prep o (curve_of o inj bls_g1_consts) q (Some P) /\ sswu_iso_point o (sgn0 _) a b (inj 11) polys (u i) P).
    { intros i Hi2. destruct (bls_g1_map_spec o inj (lf_odd _) HP (u i)) as (t & s & z & E & Zz & Sp & _).
      rewrite (proj1 (proj2 (proj2 C46_constants))) in Sp.
      apply (sswu_spec_ext o _ (sgn0 _) (odd_sgn0 _ Hi Hc)) in Sp.
      pose proof (HK i t s Hi2 Sp) as N. unfold polys in N. rewrite nth_polys in N.
      destruct (C38_bls_g1_partial _ o inj HP t s z Zz (sswu_on o (pf_laws _ _ _ HP) _ _ _ _ _ _ _ Sp) N) as (U & V & A & B & C & P).
      eexists _, (U, V). split; [exact E|]. split; [exact P|]. exists t, s. split; [exact Sp|].
      cbv beta zeta. unfold polys. rewrite !nth_polys. auto. }
    intros v [-> | ->]; [exact (HM 0%nat ltac:(lia))|exact (HM 1%nat ltac:(lia))].
  - apply (lf_hash_to_field _ Hi Hc D HD H32 prefix _ msg 64).
    + clear - L0 L1. lia.
    + exact (X _ Hl).
Qed.
Print Assumptions C52_bls_g1_partial.

(** ** The suites over the quadratic extensions *)
(** The [is_odd] of the extensions is that of the first coefficient ... *)
Lemma t2_odd_c0 fc Hc x : t2_odd fc Hc x = sgn0 fc (q0 x).
Proof. exact (t2_ysign fc Hc (fun _ => SqRet None) x). Qed.
(** ... which is sgn0 when that coefficient is not zero. *)
Theorem C52_sgn : forall fc (Hc : odd_conf fc), In fc all_fields -> forall x,
  q0 x <> f0 (lf_ops fc Hc) -> t2_odd fc Hc x = sgn0_2 fc x.
Proof.
  intros fc Hc Hi x N. rewrite t2_odd_c0. unfold sgn0_2. destruct (sgn0 fc (q0 x)); [reflexivity|].
  destruct (Z.eqb_spec (lf_val fc (q0 x)) 0) as [E|E]; [|reflexivity]. exfalso. apply N.
  pose proof (zr fc Hi Hc) as R. rewrite <- (zr_inj_val _ _ _ _ R (q0 x)), E. apply (zh_0 _ _ (pf_hom _ _ _ (lf_pf7 _ Hi Hc))).
Qed.

Section Quad.
Context (fc : fconf) (Hi : In fc all_fields) (Hc : odd_conf fc).
Notation o := (lf_ops fc Hc). Notation inj := (lf_inj fc Hc).
Lemma quad_correct (o2 : fops (quad (lf fc))) c (HC : curve_laws o2 c) gen r h clear tf (CS : cofactor_spec o2 c gen r h clear tf)
    mp (point : quad (lf fc) -> quad (lf fc) * quad (lf fc) -> Prop) half domain :
  In (fc, 2%nat, (2 * half)%nat) hash_suites ->
  (forall u, exists q P, mp u = HRet q /\ prep o2 c q (Some P) /\ point u P) ->
  h2c_correct o2 c gen r h (fun k => mk_quad (inj (k 0%nat)) (inj (k 1%nat))) (modulus fc) 2 half domain point
    (fun D prefix msg => hash_with_suite o2 c mp clear (num_bits fc) (2 * half) (t2_from_uniform_bytes fc Hc half) D (ascii_bytes domain) prefix msg).
Proof using All.
  intros HS HM D HD H32 prefix msg DST Hl u. destruct (C37_suites _ _ _ HS) as (Hb & _ & L0 & L1 & X).
  refine (suite_result o2 c HC _ _ _ _ _ CS mp point _ _ _ D _ prefix msg _ _ Hb (fun u _ => HM u) _).
  apply (t2_hash_to_field fc Hi Hc D HD H32 prefix _ msg half).
  - clear - L0 L1. lia.
  - replace (4 * half)%nat with (2 * (2 * half))%nat by lia. exact (X _ Hl).
Qed.
End Quad.

(** Partial: [sgn0] of the first coefficient stands for the sgn0 of the extension. *)
Theorem C52_bls_g2_partial : forall Hc, let fc := bls12381_fq in let o := lf_ops fc Hc in let inj := lf_inj fc Hc in
  let o2 := bls_fq2 o in
  h2c_correct o2 (curve_of o2 (inj2 inj) bls_g2_consts) (inj2 inj (cc_gx bls_g2_consts), inj2 inj (cc_gy bls_g2_consts))
    (modulus bls12381_fr) bls_g2_h_eff (fun k => mk_quad (inj (k 0%nat)) (inj (k 1%nat))) (modulus fc) 2 64
    "BLS12381G2_XMD:SHA-256_SSWU_RO_"
    (sswu_iso_point o2 (fun x => sgn0 fc (q0 x)) (inj2 inj (sw_a bls_g2_sswu)) (inj2 inj (sw_b bls_g2_sswu))
       (mk_quad (inj (-2)) (inj (-1))) (map (map (inj2 inj)) (sw_iso bls_g2_sswu)))
    (bls_g2_hash o inj (t2_odd fc Hc) (t2_from_uniform_bytes fc Hc 64)).
Proof.
  intros Hc fc o inj o2. assert (Hi : In fc all_fields) by (unfold fc; in_fields). pose proof (lf_pf7 _ Hi Hc) as HP.
  pose proof (cf_laws _ _ _ _ (crate_curve_facts _ _ _ _ (cv_bls_g2 _ o inj HP))) as HC.
  refine (quad_correct _ Hi Hc o2 _ HC _ _ _ _ _ (C43_bls_g2 _ o inj HP) _ _ 64 _ _ _).
  { unfold hash_suites. cbn [In]. change (2 * 64)%nat with 128%nat. tauto. }
  intros u. destruct (C46_bls_g2 _ o inj HP (t2_odd fc Hc) u) as (t & s & z & Zz & Sp & E).
  apply (sswu_spec_ext o2 _ (fun x => sgn0 fc (q0 x)) (t2_odd_c0 _ Hc)) in Sp.
  destruct (C38_bls_g2 _ o inj HP t s z Zz (sswu_on o2 (cl_field _ _ HC) _ _ _ _ _ _ _ Sp)) as (X & Y & A & B & C & D & P).
  eexists _, (X, Y). split; [exact E|]. split; [exact P|]. exists t, s. split.
  - assert (Ez : mk_quad (inj (-2)) (inj (-1)) = inj2 inj (sw_z bls_g2_sswu)); [|rewrite Ez; exact Sp].
    rewrite (proj1 (proj2 (proj2 (proj2 C46_constants)))). unfold inj2. cbn [fst snd]. f_equal; symmetry; exact (pf_mod _ _ _ HP _).
  - cbv beta zeta. rewrite !(map_nth (map (inj2 inj)) (sw_iso bls_g2_sswu) []). auto.
Qed.
Theorem C52_bn256_g2_partial : forall Hc, let fc := bn256_fq in let o := lf_ops fc Hc in let inj := lf_inj fc Hc in
  let o2 := bn256_fq2 o in let c := curve_of o2 (inj2 inj) bn256_g2_consts in
  h2c_correct o2 c (inj2 inj (cc_gx bn256_g2_consts), inj2 inj (cc_gy bn256_g2_consts))
    (modulus bn256_fr) bn_m (fun k => mk_quad (inj (k 0%nat)) (inj (k 1%nat))) (modulus fc) 2 48
    "BN254G2_XMD:SHA-256_SVDW_RO_"
    (svdw_point o2 (fun x => sgn0 fc (q0 x)) (ca c) (cb c) (f1 o2))
    (bn256_g2_hash o inj (t2_odd fc Hc) (t2_nonres fc Hc) (t2_from_uniform_bytes fc Hc 48)).
Proof.
  intros Hc fc o inj o2 c. assert (Hi : In fc all_fields) by (unfold fc; in_fields). pose proof (lf_pf7 _ Hi Hc) as HP.
  pose proof (cf_laws _ _ _ _ (crate_curve_facts _ _ _ _ (cv_bn256_g2 _ o inj HP))) as HC.
  refine (quad_correct _ Hi Hc o2 _ HC _ _ _ _ _ (C43_bn256_g2 _ o inj HP) _ _ 48 _ _ _).
  { unfold hash_suites. cbn [In]. change (2 * 48)%nat with 96%nat. tauto. }
  intros u. destruct (bn256_g2_map_spec o inj (t2_odd fc Hc) _ HP (C07_qnr_test _ Hc Hi) u) as (x & y & E & Sp & P).
  apply (svdw_spec_ext o2 _ (fun x => sgn0 fc (q0 x)) (t2_odd_c0 _ Hc)) in Sp.
  exists (mk_proj x y (f1 o2)), (x, y). split; [exact E|]. split; [exact P|exact Sp].
Qed.
Definition C52_quad := (C52_sgn, C52_bls_g2_partial, C52_bn256_g2_partial).
Print Assumptions C52_quad.

(** A tag of more than 255 bytes is a panic in every suite (RFC 9380 hashes it, section 5.3.3). *)
Theorem C52_panics : forall F (o : fops F) inj odd qnr fu odd2 qnr2 fu2 D prefix msg, (0 < output_size D)%nat ->
  let long (domain : string) := (255 < length (prefix ++ ascii_bytes domain))%nat in
  (long "secp256k1_XMD:SHA-256_SSWU_RO_"%string -> secp256k1_hash o inj odd fu D prefix msg = HPanic) /\
  (long "P256_XMD:SHA-256_SSWU_RO_"%string -> secp256r1_hash o inj odd fu D prefix msg = HPanic) /\
  (long "BN254G1_XMD:SHA-256_SVDW_RO_"%string -> bn256_g1_hash o inj odd qnr fu D prefix msg = HPanic) /\
  (long "GRUMPKIN_XMD:SHA-256_SVDW_RO_"%string -> grumpkin_hash o inj odd qnr fu D prefix msg = HPanic) /\
  (long "secq256k1_XMD:SHA-256_SVDW_RO_"%string -> secq256k1_hash o inj odd qnr fu D prefix msg = HPanic) /\
  (long "pluto_XMD:SHA-256_SVDW_RO_"%string -> pluto_hash o inj odd qnr fu D prefix msg = HPanic) /\
  (long "eris_XMD:SHA-256_SVDW_RO_"%string -> eris_hash o inj odd qnr fu D prefix msg = HPanic) /\
  (long "BLS12381G1_XMD:SHA-256_SSWU_RO_"%string -> bls_g1_hash o inj odd fu D prefix msg = HPanic) /\
  (long "BLS12381G2_XMD:SHA-256_SSWU_RO_"%string -> bls_g2_hash o inj odd2 fu2 D prefix msg = HPanic) /\
  (long "BN254G2_XMD:SHA-256_SVDW_RO_"%string -> bn256_g2_hash o inj odd2 qnr2 fu2 D prefix msg = HPanic).
Proof.
  intros F o inj odd qnr fu odd2 qnr2 fu2 D prefix msg HD long.
  repeat match goal with |- _ /\ _ => split end; intros Hl; (apply suite_panics; [exact HD|cbn; lia|exact Hl]).
Qed.
Print Assumptions C52_panics.

(** SHA-256 satisfies the hypotheses of the theorems. *)
Lemma be_bytes_ok n x : length (be_bytes n x) = n /\ Forall (fun b => 0 <= b < 256) (be_bytes n x).
Proof.
  unfold be_bytes. split; [rewrite map_length, rev_length, seq_length; reflexivity|].
  apply Forall_forall. intros b Hb. apply in_map_iff in Hb as (i & <- & _). apply Z.mod_pos_bound. lia.
Qed.
Theorem C52_sha256 : digest_ok sha256_digest /\ output_size sha256_digest = 32%nat.
Proof.
  split; [|reflexivity]. split; [cbn; lia|]. intros m. cbn [hash sha256_digest output_size]. unfold sha256.
  cbn [flat_map]. rewrite !app_length. cbn [length]. rewrite !(proj1 (be_bytes_ok 4 _)). split; [reflexivity|].
  repeat (apply Forall_app; split; [apply be_bytes_ok|]). constructor.
Qed.
Print Assumptions C52_sha256.
(** FIPS 180-4, example of one block. *)
Example C52_sha256_abc : sha256 (ascii_bytes "abc") =
  be_bytes 32 0xba7816bf8f01cfea414140de5dae2223b00361a396177a9cb410ff61f20015ad.
Proof. vm_compute. reflexivity. Qed.
