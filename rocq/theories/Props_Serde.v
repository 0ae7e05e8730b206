(** Theorems about the encodings of curve points and of extension-field
    elements (C29-C33, C45).  The curves, with their codecs and flag layouts,
    are listed in SerdeInst.v ([coded_six], [coded_x0], [coded_quad]).

    [arep o c A P]: the affine value A represents the point P of the curve;
    [prep]: the same for projective values (CurveFacts.v). *)
From Verif Require Import Base Word Limbs Bytes Field SpecField LimbsFacts FieldFacts BytesFacts FieldSerdeFacts Params
  Algebra Pow Tower TowerFacts FiniteField PrimeField Primality Compute TowerParams TowerInst SpecCurve SpecCurveFacts Group
  Curve CurveFacts CurveGroup CurveParams CurveCheck CurveCerts CurveInst CrateCurves Inverse LimbField
  Sqrt SqrtFacts Sqrt2 Sqrt2Facts Props_Field2 Props_Tower Props_Sqrt2 Serde SerdeFacts OrderFacts SerdeInst SmallOrder.

(** ** C29: compressed encoding, round trip *)
Definition c29_for {F} (o : fops F) (c : cconf F) (k : codec F) cf lex (A : aff F) : Prop :=
  exists l, aff_to_bytes o c k cf lex A = Some l /\ length l = csize k cf /\ is_bytes l
    /\ aff_from_bytes o c k cf lex l = SqRet (Some A).
Definition c29_proj_for {F} (o : fops F) (c : cconf F) (k : codec F) cf lex (p : proj F) P : Prop :=
  exists l q, proj_to_bytes o c k cf lex p = Some l /\ length l = csize k cf /\ is_bytes l
    /\ proj_from_bytes o c k cf lex l = SqRet (Some q) /\ prep o c q P /\ proj_eq o p q = true.

(** bn256 G1, grumpkin, secp256k1, secq256k1, pluto, eris: every point. *)
Theorem C29_six : forall F (o : fops F) c g sc k cf lex, coded_six o c g sc k cf lex ->
  (forall A P, arep o c A P -> c29_for o c k cf lex A)
  /\ (forall p P, prep o c p P -> c29_proj_for o c k cf lex p P).
Proof.
  intros F o c g sc k cf lex X. pose proof (coded_six_facts _ _ _ _ _ _ _ X) as CF.
  pose proof (coded_curve_laws _ _ _ _ _ _ CF) as HC.
  assert (G : forall P, on_curve o (ca c) (cb c) P ->
    match P with None => True | Some (x, y) => x <> f0 o /\ y_sign k lex (fneg o y) = negb (y_sign k lex y) end).
  { intros [[x y]|] On; [|exact I]. split.
    - intros ->. exact (six_no_x0 _ _ _ _ _ _ _ X y On).
    - exact (prime_sign_ok _ _ _ _ _ _ _ (or_introl X) x y On). }
  split.
  - intros A P HA. exact (cz_roundtrip o c k cf lex HC (cd_laws _ _ _ _ _ _ CF) (cd_spare _ _ _ _ _ _ CF) A P HA (G P (proj1 HA))).
  - intros p P Hp. exact (cz_roundtrip_proj o c k cf lex HC (cd_laws _ _ _ _ _ _ CF) (cd_spare _ _ _ _ _ _ CF) p P Hp (G P (proj1 Hp))).
Qed.
Print Assumptions C29_six.

(** secp256r1 and bls12381 G1: every point except the two with x = 0. *)
Theorem C29_x0_partial : forall F (o : fops F) c g sc k cf lex, coded_x0 o c g sc k cf lex ->
  (forall A P, arep o c A P -> (forall y, P <> Some (f0 o, y)) -> c29_for o c k cf lex A)
  /\ (forall p P, prep o c p P -> (forall y, P <> Some (f0 o, y)) -> c29_proj_for o c k cf lex p P).
Proof.
  intros F o c g sc k cf lex X. pose proof (coded_x0_facts _ _ _ _ _ _ _ X) as CF.
  pose proof (coded_curve_laws _ _ _ _ _ _ CF) as HC.
  assert (G : forall P, on_curve o (ca c) (cb c) P -> (forall y, P <> Some (f0 o, y)) ->
    match P with None => True | Some (x, y) => x <> f0 o /\ y_sign k lex (fneg o y) = negb (y_sign k lex y) end).
  { intros [[x y]|] On N; [|exact I]. split.
    - intros ->. exact (N y eq_refl).
    - exact (prime_sign_ok _ _ _ _ _ _ _ (or_intror X) x y On). }
  split.
  - intros A P HA N. exact (cz_roundtrip o c k cf lex HC (cd_laws _ _ _ _ _ _ CF) (cd_spare _ _ _ _ _ _ CF) A P HA (G P (proj1 HA) N)).
  - intros p P Hp N. exact (cz_roundtrip_proj o c k cf lex HC (cd_laws _ _ _ _ _ _ CF) (cd_spare _ _ _ _ _ _ CF) p P Hp (G P (proj1 Hp) N)).
Qed.
Print Assumptions C29_x0_partial.

(** Those two points do exist; their encodings are rejected. *)
Lemma x0_point {F} (o : fops F) c g sc k cf lex : coded_x0 o c g sc k cf lex ->
  exists y, on_curve o (ca c) (cb c) (Some (f0 o, y)).
Proof.
  intros [Hc|Hc].
  - pose proof (lf_pf secp256r1_fp ltac:(in_fields) Hc) as HP.
    exists (lf_inj secp256r1_fp Hc secp256r1_sqrt_b).
    apply (x0_on _ (pf_laws _ _ _ HP)). rewrite <- (zh_mul _ _ (pf_hom _ _ _ HP)).
    apply (pf_eq _ _ _ HP). vm_compute. reflexivity.
  - pose proof (lf_pf bls12381_fq ltac:(in_fields) Hc) as HP.
    exists (lf_inj bls12381_fq Hc 2).
    apply (x0_on _ (pf_laws _ _ _ HP)). rewrite <- (zh_mul _ _ (pf_hom _ _ _ HP)).
    apply (pf_eq _ _ _ HP). vm_compute. reflexivity.
Qed.
Theorem C29_x0_refuted : forall F (o : fops F) c g sc k cf lex, coded_x0 o c g sc k cf lex ->
  exists A P l, arep o c A P /\ aff_to_bytes o c k cf lex A = Some l /\ aff_from_bytes o c k cf lex l = SqRet None.
Proof.
  intros F o c g sc k cf lex X. pose proof (coded_x0_facts _ _ _ _ _ _ _ X) as CF.
  destruct (x0_point _ _ _ _ _ _ _ X) as (y & On).
  destruct (cz_x0_rejected o c k cf lex (coded_curve_laws _ _ _ _ _ _ CF) (cd_laws _ _ _ _ _ _ CF) (cd_spare _ _ _ _ _ _ CF) y On)
    as (l & E1 & _ & _ & E2).
  exists (mk_aff (f0 o) y), (Some (f0 o, y)), l. split; [split; [exact On|split; reflexivity]|]. auto.
Qed.
Print Assumptions C29_x0_refuted.

(** bn256 G2, bls12381 G2 and triton: the points on which the sign bit tells y from -y. *)
Theorem C29_quad_partial : forall fc Hc o c g sc k cf lex, coded_quad fc Hc o c g sc k cf lex ->
  (forall A P, arep o c A P -> match P with Some (_, y) => sign_clear (lf_ops fc Hc) lex y | None => True end ->
     c29_for o c k cf lex A)
  /\ (forall p P, prep o c p P -> match P with Some (_, y) => sign_clear (lf_ops fc Hc) lex y | None => True end ->
     c29_proj_for o c k cf lex p P).
Proof.
  intros fc Hc o c g sc k cf lex X. pose proof (coded_quad_facts _ _ _ _ _ _ _ _ _ X) as CF.
  pose proof (coded_curve_laws _ _ _ _ _ _ CF) as HC.
  assert (G : forall P, on_curve o (ca c) (cb c) P -> match P with Some (_, y) => sign_clear (lf_ops fc Hc) lex y | None => True end ->
    match P with None => True | Some (x, y) => x <> f0 o /\ y_sign k lex (fneg o y) = negb (y_sign k lex y) end).
  { intros [[x y]|] On S; [|exact I]. split.
    - intros ->. exact (quad_no_x0 _ _ _ _ _ _ _ _ _ X y On).
    - exact (coded_quad_sign _ _ _ _ _ _ _ _ _ X y S). }
  split.
  - intros A P HA S. exact (cz_roundtrip o c k cf lex HC (cd_laws _ _ _ _ _ _ CF) (cd_spare _ _ _ _ _ _ CF) A P HA (G P (proj1 HA) S)).
  - intros p P Hp S. exact (cz_roundtrip_proj o c k cf lex HC (cd_laws _ _ _ _ _ _ CF) (cd_spare _ _ _ _ _ _ CF) p P Hp (G P (proj1 Hp) S)).
Qed.
Print Assumptions C29_quad_partial.

(** On each of the three there are points with y-coordinates that share their sign with -y. *)
Lemma twin_point fc Hc o c g sc k cf lex : coded_quad fc Hc o c g sc k cf lex ->
  exists x y, on_curve o (ca c) (cb c) (Some (x, y)) /\ y_sign k lex (fneg o y) = y_sign k lex y.
Proof.
  intros [Hc' o2|Hc' o2|Hc' fuel Hf o2].
  - assert (I : In bn256_fq all_fields) by in_fields. pose proof (lf_pf _ I Hc') as HP.
    eexists _, _. split; [exact (proj2 (bn256_g2_small _ _ HP))|].
    unfold bn256_fq2_codec. rewrite !t2_ysign. unfold o2, bn256_fq2, fq2_ops. cbn [quad_ops fneg quad_neg q0].
    pose proof (lf_zrep bn256_fq Hc' (field_sized _ I) (field_prime _ I)) as Z.
    cbn [bn256_g2_twin snd fst inj2 q0 q1]. rewrite (zh_0 _ _ (pf_hom _ _ _ HP)).
    rewrite (proj2 (neg_zero_iff _ (pf_laws _ _ _ HP) _) eq_refl). reflexivity.
  - assert (I : In bls12381_fq all_fields) by in_fields. pose proof (lf_pf _ I Hc') as HP.
    eexists _, _. split; [exact (proj2 (bls_g2_small _ _ HP))|].
    unfold y_sign, bls_fq2_codec. cbn [t2_codec k_lex]. unfold t2_lex, o2, bls_fq2, fq2_ops. cbn [quad_ops fneg quad_neg q0 q1].
    cbn [bls_g2_twin snd fst inj2 q0 q1]. rewrite !(fp_lex bls12381_fq Hc').
    pose proof (lf_zrep bls12381_fq Hc' (field_sized _ I) (field_prime _ I)) as Z.
    rewrite !(zr_neg _ _ _ _ Z), !(zr_val_inj _ _ _ _ Z).
    replace ((modulus bls12381_fq - 1) / 2 <=? (- (((modulus bls12381_fq - 1) / 2) mod modulus bls12381_fq)) mod modulus bls12381_fq) with true
      by (vm_compute; reflexivity).
    replace ((modulus bls12381_fq - 1) / 2 <=? ((modulus bls12381_fq - 1) / 2) mod modulus bls12381_fq) with true
      by (vm_compute; reflexivity).
    cbn [orb]. reflexivity.
  - assert (I : In pluto_eris_fp all_fields) by in_fields. pose proof (lf_pf _ I Hc') as HP.
    eexists _, _. split; [exact (proj2 (triton_small _ _ HP))|].
    unfold pluto_fp2_codec. rewrite !t2_ysign. unfold o2, pluto_fp2, fp2_ops. cbn [quad_ops fneg quad_neg q0].
    cbn [triton_twin snd fst inj2 q0 q1]. rewrite (zh_0 _ _ (pf_hom _ _ _ HP)).
    rewrite (proj2 (neg_zero_iff _ (pf_laws _ _ _ HP) _) eq_refl). reflexivity.
Qed.
Theorem C29_quad_refuted : forall fc Hc o c g sc k cf lex, coded_quad fc Hc o c g sc k cf lex ->
  exists A P l, arep o c A P /\ aff_to_bytes o c k cf lex A = Some l /\ aff_from_bytes o c k cf lex l <> SqRet (Some A).
Proof.
  intros fc Hc o c g sc k cf lex X. pose proof (coded_quad_facts _ _ _ _ _ _ _ _ _ X) as CF.
  pose proof (coded_curve_laws _ _ _ _ _ _ CF) as HC.
  destruct (twin_point _ _ _ _ _ _ _ _ _ X) as (x & y & On & S).
  assert (Nx : x <> f0 o) by (intros ->; exact (quad_no_x0 _ _ _ _ _ _ _ _ _ X y On)).
  destruct (cz_collision o c k cf lex HC (cd_laws _ _ _ _ _ _ CF) (cd_spare _ _ _ _ _ _ CF) x y Nx On S) as [E N].
  assert (HA : arep o c (mk_aff x y) (Some (x, y))) by (split; [exact On|split; reflexivity]).
  assert (On' : on_curve o (ca c) (cb c) (Some (x, fneg o y))) by (exact (neg_on o _ _ (cl_field _ _ HC) _ On)).
  assert (HA' : arep o c (mk_aff x (fneg o y)) (Some (x, fneg o y))) by (split; [exact On'|split; reflexivity]).
  pose proof (cz_encode_eq o c k cf lex (cd_laws _ _ _ _ _ _ CF) (cd_spare _ _ _ _ _ _ CF) _ (arep_on o c HC _ _ HA)) as E1.
  match type of E1 with _ = Some ?l => set (enc := l) in * end.
  destruct (aff_from_bytes o c k cf lex enc) as [| |[A|]] eqn:ED.
  - eexists _, _, enc. split; [exact HA|]. split; [exact E1|]. rewrite ED. discriminate.
  - eexists _, _, enc. split; [exact HA|]. split; [exact E1|]. rewrite ED. discriminate.
  - destruct (feqb_dec o (cl_field _ _ HC) (ay A) y) as [Ey|Ny].
    + exists (mk_aff x (fneg o y)), (Some (x, fneg o y)), enc. split; [exact HA'|]. split; [unfold aff_to_bytes; congruence|].
      rewrite ED. intros Q. injection Q as ->. cbn [ay] in Ey. apply N. symmetry. exact Ey.
    + exists (mk_aff x y), (Some (x, y)), enc. split; [exact HA|]. split; [exact E1|]. rewrite ED.
      intros Q. injection Q as ->. apply Ny. reflexivity.
  - eexists _, _, enc. split; [exact HA|]. split; [exact E1|]. rewrite ED. discriminate.
Qed.
Print Assumptions C29_quad_refuted.

(** ** C30: what the compressed decoder accepts *)
(** The eight curves over prime fields: every string of the encoding length gives
    an answer; what is accepted is a curve point that encodes back to the same
    string; and every encoding of the identity or of a point with x <> 0 is
    accepted. *)
Theorem C30_prime : forall F (o : fops F) c g sc k cf lex, coded_prime o c g sc k cf lex ->
  forall l, is_bytes l -> length l = csize k cf ->
  exists r, aff_from_bytes o c k cf lex l = SqRet r /\
    match r with
    | Some A => (exists P, arep o c A P) /\ aff_to_bytes o c k cf lex A = Some l
    | None => forall A P, arep o c A P -> (forall y, P <> Some (f0 o, y)) -> aff_to_bytes o c k cf lex A <> Some l
    end.
Proof.
  intros F o c g sc k cf lex X l Hl Hn. pose proof (coded_prime_facts _ _ _ _ _ _ _ X) as CF.
  pose proof (coded_curve_laws _ _ _ _ _ _ CF) as HC.
  pose proof (cz_decode_spec o c k cf lex HC (cd_laws _ _ _ _ _ _ CF) (cd_spare _ _ _ _ _ _ CF) l Hl Hn) as S.
  unfold aff_from_bytes, aff_to_bytes. destruct (cz_decode o c k cf lex l) as [| |r].
  - contradiction.
  - exfalso. apply S. exact (coded_prime_total _ _ _ _ _ _ _ X).
  - exists r. split; [reflexivity|]. destruct r as [A|].
    + destruct S as (P & HA & S). split; [eauto|]. destruct P as [[x y]|]; [|exact S].
      apply (proj2 S). exact (prime_sign_ok _ _ _ _ _ _ _ X x y (proj1 HA)).
    + intros A P HA N. apply (S A P HA). destruct P as [[x y]|]; [|exact I]. split.
      * intros ->. exact (N y eq_refl).
      * exact (prime_sign_ok _ _ _ _ _ _ _ X x y (proj1 HA)).
Qed.
Print Assumptions C30_prime.

(** The three quadratic curves: what is accepted is on the curve, and re-encodes
    to the same string if the sign bit tells y from -y. *)
Theorem C30_quad_partial : forall fc Hc o c g sc k cf lex, coded_quad fc Hc o c g sc k cf lex ->
  forall l, is_bytes l -> length l = csize k cf ->
    match aff_from_bytes o c k cf lex l with
    | SqRet (Some A) => exists P, arep o c A P
        /\ (match P with Some (_, y) => sign_clear (lf_ops fc Hc) lex y | None => True end ->
            aff_to_bytes o c k cf lex A = Some l)
    | SqRet None => forall A P, arep o c A P ->
        match P with Some (_, y) => sign_clear (lf_ops fc Hc) lex y | None => True end ->
        aff_to_bytes o c k cf lex A <> Some l
    | SqPanic => True
    | SqDiverge => False
    end.
Proof.
  intros fc Hc o c g sc k cf lex X l Hl Hn. pose proof (coded_quad_facts _ _ _ _ _ _ _ _ _ X) as CF.
  pose proof (coded_curve_laws _ _ _ _ _ _ CF) as HC.
  pose proof (cz_decode_spec o c k cf lex HC (cd_laws _ _ _ _ _ _ CF) (cd_spare _ _ _ _ _ _ CF) l Hl Hn) as S.
  unfold aff_from_bytes, aff_to_bytes. destruct (cz_decode o c k cf lex l) as [| |[A|]]; auto.
  - destruct S as (P & HA & S). exists P. split; [exact HA|]. destruct P as [[x y]|]; [|auto].
    intros Sc. apply (proj2 S). exact (coded_quad_sign _ _ _ _ _ _ _ _ _ X y Sc).
  - intros A P HA Sc. apply (S A P HA). destruct P as [[x y]|]; [|exact I]. split.
    + intros ->. exact (quad_no_x0 _ _ _ _ _ _ _ _ _ X y (proj1 HA)).
    + exact (coded_quad_sign _ _ _ _ _ _ _ _ _ X y Sc).
Qed.
Print Assumptions C30_quad_partial.

(** On all three a string with a coefficient that is not below the modulus makes
    the decoder panic ([unwrap] in [from_bytes] of the extension field)... *)
Lemma ff_rejected :
  from_bytes bn256_fq (repeat 255 (size bn256_fq)) = None
  /\ from_bytes bls12381_fq (repeat 255 (size bls12381_fq)) = None
  /\ from_bytes pluto_eris_fp (repeat 255 (size pluto_eris_fp)) = None.
Proof. vm_compute. repeat split. Qed.
Lemma t2_panic c Hc l : from_bytes c (firstn (size c) l) = None \/ from_bytes c (firstn (size c) (skipn (size c) l)) = None ->
  t2_from_bytes (fp_codec c Hc) l = SqPanic.
Proof.
  unfold t2_from_bytes. cbn [fp_codec k_from_bytes k_size]. intros [-> | ->]; cbn [option_map unwrap_pair]; [reflexivity|].
  destruct (option_map _ _); reflexivity.
Qed.
Lemma is_bytes_ff n : is_bytes (repeat 255 n).
Proof. induction n; cbn [repeat]; constructor; auto; lia. Qed.
Lemma firstn_ff n m : (n <= m)%nat -> firstn n (repeat 255 m) = repeat 255 n.
Proof.
  intros L. replace m with (n + (m - n))%nat by lia. rewrite repeat_app.
  rewrite firstn_app, repeat_length, Nat.sub_diag, firstn_O, app_nil_r.
  rewrite firstn_all2 by (rewrite repeat_length; lia). reflexivity.
Qed.
Lemma skipn_ff n m : (n <= m)%nat -> skipn n (repeat 255 m) = repeat 255 (m - n).
Proof.
  intros L. replace m with (n + (m - n))%nat at 1 by lia. rewrite repeat_app.
  rewrite skipn_app, repeat_length, Nat.sub_diag. rewrite skipn_all2 by (rewrite repeat_length; lia). reflexivity.
Qed.
Lemma coded_quad_codec fc Hc o c g sc k cf lex : coded_quad fc Hc o c g sc k cf lex ->
  cf <> Extra /\ (0 < size fc)%nat /\ k_size k = (2 * size fc)%nat /\ k_big k = big_endian fc
  /\ (forall l, k_from_bytes k l = t2_from_bytes (fp_codec fc Hc) l)
  /\ from_bytes fc (repeat 255 (size fc)) = None.
Proof.
  destruct ff_rejected as (A & B & C). intros [Hc' o2|Hc' o2|Hc' fuel Hf o2];
    (split; [discriminate|]; split; [vm_compute; lia|]; split; [reflexivity|]; split; [reflexivity|]; split; [reflexivity|]).
  - exact A. - exact B. - exact C.
Qed.
Theorem C30_quad_panic_refuted : forall fc Hc o c g sc k cf lex, coded_quad fc Hc o c g sc k cf lex ->
  exists l, is_bytes l /\ length l = csize k cf /\ aff_from_bytes o c k cf lex l = SqPanic.
Proof.
  intros fc Hc o c g sc k cf lex X. destruct (coded_quad_codec _ _ _ _ _ _ _ _ _ X) as (Nx & Sz & Ks & Kb & Kf & R).
  exists (repeat 255 (csize k cf)). split; [apply is_bytes_ff|]. split; [apply repeat_length|].
  unfold aff_from_bytes.
  pose proof (coded_quad_facts _ _ _ _ _ _ _ _ _ X) as CF.
  destruct (dec_flags cf (nth (flag_index k cf) (repeat 255 (csize k cf)) 0)) as [[[v id] sg] e] eqn:E.
  rewrite (cz_decode_eq o c k cf lex (cd_laws _ _ _ _ _ _ CF) (cd_spare _ _ _ _ _ _ CF) _ v id sg e (repeat_length _ _) E).
  assert (P : cz_payload k cf (upd_at (flag_index k cf) (fun _ => e) (repeat 255 (csize k cf))) = SqPanic).
  { assert (Pk : cz_payload k cf = k_from_bytes k) by (destruct cf; [contradiction|reflexivity|reflexivity]).
    rewrite Pk, Kf. apply t2_panic.
    assert (Cs : csize k cf = (2 * size fc)%nat) by (unfold csize; rewrite Ks; destruct cf; [contradiction|lia|lia]).
    assert (Ix : flag_index k cf = if big_endian fc then 0%nat else (2 * size fc - 1)%nat).
    { unfold flag_index. rewrite Kb, Cs. destruct cf; [contradiction|reflexivity|reflexivity]. }
    rewrite Ix, Cs. clear Ix Cs Pk E. unfold upd_at. destruct (big_endian fc).
    - right. cbn [firstn app]. rewrite (skipn_ff 1) by lia.
      destruct (size fc) as [|m] eqn:Em; [lia|]. cbn [skipn].
      rewrite (skipn_ff m) by lia. rewrite firstn_ff by lia. rewrite <- Em in *. rewrite R. reflexivity.
    - left. rewrite firstn_ff by lia. rewrite firstn_app, repeat_length.
      replace (size fc - (2 * size fc - 1))%nat with 0%nat by lia. rewrite firstn_O, app_nil_r, firstn_ff by lia. exact R. }
  rewrite P. reflexivity.
Qed.
Print Assumptions C30_quad_panic_refuted.
(** ... and some accepted strings are not the encoding of the point they decode to. *)
Theorem C30_quad_canonical_refuted : forall fc Hc o c g sc k cf lex, coded_quad fc Hc o c g sc k cf lex ->
  exists l A, is_bytes l /\ length l = csize k cf /\ aff_from_bytes o c k cf lex l = SqRet (Some A)
    /\ aff_to_bytes o c k cf lex A <> Some l.
Proof.
  intros fc Hc o c g sc k cf lex X. pose proof (coded_quad_facts _ _ _ _ _ _ _ _ _ X) as CF.
  destruct (twin_point _ _ _ _ _ _ _ _ _ X) as (x & y & On & S).
  assert (Nx : x <> f0 o) by (intros ->; exact (quad_no_x0 _ _ _ _ _ _ _ _ _ X y On)).
  destruct (cz_not_canonical o c k cf lex (coded_curve_laws _ _ _ _ _ _ CF) (cd_laws _ _ _ _ _ _ CF) (cd_spare _ _ _ _ _ _ CF) x y Nx On S)
    as (l & A & L & B & D & E).
  exists l, A. auto.
Qed.
Print Assumptions C30_quad_canonical_refuted.

(** ** C31: uncompressed encoding *)
Theorem C31_prime : forall F (o : fops F) c g sc k cf lex, coded_prime o c g sc k cf lex ->
  (forall A P, arep o c A P -> length (to_uncompressed o k A) = (2 * k_size k)%nat /\ is_bytes (to_uncompressed o k A)
     /\ from_uncompressed o c k (to_uncompressed o k A) = SqRet (Some A))
  /\ (forall l, is_bytes l -> length l = (2 * k_size k)%nat -> exists r, from_uncompressed o c k l = SqRet r /\
       match r with
       | Some A => (exists P, arep o c A P) /\ to_uncompressed o k A = l
       | None => forall A P, arep o c A P -> to_uncompressed o k A <> l
       end).
Proof.
  intros F o c g sc k cf lex X. pose proof (coded_prime_facts _ _ _ _ _ _ _ X) as CF.
  pose proof (coded_curve_laws _ _ _ _ _ _ CF) as HC. split.
  - exact (unc_roundtrip o c k HC (cd_laws _ _ _ _ _ _ CF)).
  - intros l Hl Hn. pose proof (unc_decode_spec o c k HC (cd_laws _ _ _ _ _ _ CF) l Hl Hn) as S.
    destruct (from_uncompressed o c k l) as [| |r].
    + contradiction.
    + exfalso. apply S. exact (coded_prime_total _ _ _ _ _ _ _ X).
    + exists r. auto.
Qed.
Print Assumptions C31_prime.
Theorem C31_quad_partial : forall fc Hc o c g sc k cf lex, coded_quad fc Hc o c g sc k cf lex ->
  (forall A P, arep o c A P -> length (to_uncompressed o k A) = (2 * k_size k)%nat /\ is_bytes (to_uncompressed o k A)
     /\ from_uncompressed o c k (to_uncompressed o k A) = SqRet (Some A))
  /\ (forall l, is_bytes l -> length l = (2 * k_size k)%nat ->
       match from_uncompressed o c k l with
       | SqRet (Some A) => (exists P, arep o c A P) /\ to_uncompressed o k A = l
       | SqRet None => forall A P, arep o c A P -> to_uncompressed o k A <> l
       | SqPanic => True
       | SqDiverge => False
       end).
Proof.
  intros fc Hc o c g sc k cf lex X. pose proof (coded_quad_facts _ _ _ _ _ _ _ _ _ X) as CF.
  pose proof (coded_curve_laws _ _ _ _ _ _ CF) as HC. split.
  - exact (unc_roundtrip o c k HC (cd_laws _ _ _ _ _ _ CF)).
  - intros l Hl Hn. pose proof (unc_decode_spec o c k HC (cd_laws _ _ _ _ _ _ CF) l Hl Hn) as S.
    destruct (from_uncompressed o c k l) as [| |[A|]]; auto.
Qed.
Print Assumptions C31_quad_partial.
Theorem C31_quad_panic_refuted : forall fc Hc o c g sc k cf lex, coded_quad fc Hc o c g sc k cf lex ->
  exists l, is_bytes l /\ length l = (2 * k_size k)%nat /\ from_uncompressed o c k l = SqPanic.
Proof.
  intros fc Hc o c g sc k cf lex X. destruct (coded_quad_codec _ _ _ _ _ _ _ _ _ X) as (Nx & Sz & Ks & Kb & Kf & R).
  exists (repeat 255 (2 * k_size k)). split; [apply is_bytes_ff|]. split; [apply repeat_length|].
  unfold from_uncompressed, from_uncompressed_unchecked. rewrite firstn_ff by lia.
  rewrite Kf, t2_panic; [reflexivity|]. left. rewrite firstn_ff by lia. exact R.
Qed.
Print Assumptions C31_quad_panic_refuted.

(** ** C32: raw encodings *)
(** All eleven curves: round trips; the affine checked reader is exact; the
    projective one accepts the curve points and, besides, every triple with z = 0;
    [read_raw] accepts any canonical coordinates. *)
Theorem C32_partial : forall F (o : fops F) c g sc k cf lex, coded o c g sc k cf lex ->
  (forall A P, arep o c A P -> aff_from_raw o c k (aff_to_raw k A) = Some A)
  /\ (forall l, is_bytes l -> match aff_from_raw o c k l with
       | Some A => (exists P, arep o c A P) /\ aff_to_raw k A = l
       | None => forall A P, arep o c A P -> aff_to_raw k A <> l
       end)
  /\ (forall p P, prep o c p P -> proj_from_raw o c k (proj_to_raw k p) = Some p)
  /\ (forall l, is_bytes l -> match proj_from_raw o c k l with
       | Some p => proj_to_raw k p = l /\ (pz p = f0 o \/ exists x y, prep o c p (Some (x, y)))
       | None => forall p P, prep o c p P -> proj_to_raw k p <> l
       end)
  /\ (forall A rest, is_bytes rest -> aff_read_raw k (aff_to_raw k A ++ rest) = Some (A, rest))
  /\ (forall p rest, is_bytes rest -> proj_read_raw k (proj_to_raw k p ++ rest) = Some (p, rest))
  /\ (forall r, is_bytes r -> match aff_read_raw k r with
       | Some (A, rest) => r = aff_to_raw k A ++ rest
       | None => forall A rest, r <> aff_to_raw k A ++ rest
       end)
  /\ (forall r, is_bytes r -> match proj_read_raw k r with
       | Some (p, rest) => r = proj_to_raw k p ++ rest
       | None => forall p rest, r <> proj_to_raw k p ++ rest
       end).
Proof.
  intros F o c g sc k cf lex X. pose proof (coded_all_facts _ _ _ _ _ _ _ X) as CF.
  pose proof (coded_curve_laws _ _ _ _ _ _ CF) as HC. pose proof (cd_laws _ _ _ _ _ _ CF) as HK.
  split; [exact (aff_raw_roundtrip o c k HC HK)|]. split; [exact (aff_raw_spec o c k HC HK)|].
  split; [exact (proj_raw_roundtrip o c k HC HK)|]. split; [exact (proj_raw_spec o c k HC HK)|].
  split; [exact (aff_read_roundtrip o k HK)|]. split; [exact (proj_read_roundtrip o k HK)|].
  split; [exact (aff_read_spec o k HK)|]. exact (proj_read_spec o k HK).
Qed.
Print Assumptions C32_partial.
(** [from_raw_bytes] of the projective type accepts (0, 0, 0), which is no point
    and turns every sum into (0, 0, 0). *)
Theorem C32_zero_refuted : forall F (o : fops F) c g sc k cf lex, coded o c g sc k cf lex ->
  exists l p, is_bytes l /\ proj_from_raw o c k l = Some p /\ (forall P, ~ prep o c p P)
    /\ forall q, let s := proj_add o c p q in px s = f0 o /\ py s = f0 o /\ pz s = f0 o.
Proof.
  intros F o c g sc k cf lex X. pose proof (coded_all_facts _ _ _ _ _ _ _ X) as CF.
  pose proof (coded_curve_laws _ _ _ _ _ _ CF) as HC. pose proof (cd_laws _ _ _ _ _ _ CF) as HK.
  eexists _, _. split; [|exact (proj_raw_bad o c k HC HK)].
  unfold proj_to_raw. repeat (apply is_bytes_app; split); apply (kl_to_raw _ _ HK).
Qed.
Print Assumptions C32_zero_refuted.
(** [read_raw] accepts coordinates of no point: (1, 0). *)
Theorem C32_read_refuted : forall F (o : fops F) c g sc k cf lex, coded o c g sc k cf lex ->
  exists l A, is_bytes l /\ aff_read_raw k l = Some (A, []) /\ forall P, ~ arep o c A P.
Proof.
  intros F o c g sc k cf lex X. pose proof (coded_all_facts _ _ _ _ _ _ _ X) as CF.
  pose proof (coded_curve_laws _ _ _ _ _ _ CF) as HC. pose proof (cd_laws _ _ _ _ _ _ CF) as HK.
  eexists _, _. split; [|exact (aff_read_bad o c k HC HK)].
  unfold aff_to_raw. repeat (apply is_bytes_app; split); apply (kl_to_raw _ _ HK).
Qed.
Print Assumptions C32_read_refuted.

(** ** C33: decoded points lie in the prime-order group *)
(** Over any representation of the base field: on these seven curves every point
    is a multiple of the generator, and the order of the scalar field kills it. *)
Theorem C33_whole : forall F (o : fops F) c g sc, whole_curve o c g sc ->
  forall P, on_curve o (ca c) (cb c) P ->
    (exists n, P = pt_mulz o (ca c) n (Some (ax g, ay g))) /\ pt_mulz o (ca c) (modulus sc) P = None.
Proof. intros F o c g sc X. exact (whole_curve_order o c g sc X). Qed.
Print Assumptions C33_whole.
Lemma six_whole {F} (o : fops F) c g sc k cf lex : coded_six o c g sc k cf lex -> whole_curve o c g sc.
Proof.
  intros [Hc|Hc|Hc|Hc|Hc|Hc].
  - apply wc_bn256_g1. apply lf_pf; in_fields.
  - apply wc_grumpkin. apply lf_pf; in_fields.
  - apply wc_secp256k1. apply lf_pf; in_fields.
  - apply wc_secq256k1. apply lf_pf; in_fields.
  - apply wc_pluto. apply lf_pf; in_fields.
  - apply wc_eris. apply lf_pf; in_fields.
Qed.
(** So the decoders of those curves give members of the group only. *)
Theorem C33_prime : forall F (o : fops F) c g sc k cf lex,
  coded_six o c g sc k cf lex \/ (coded_x0 o c g sc k cf lex /\ cf = Extra) ->
  forall l A, is_bytes l -> length l = csize k cf -> aff_from_bytes o c k cf lex l = SqRet (Some A) ->
  exists P, arep o c A P /\ (exists n, P = pt_mulz o (ca c) n (Some (ax g, ay g)))
    /\ pt_mulz o (ca c) (modulus sc) P = None.
Proof.
  intros F o c g sc k cf lex X l A Hl Hn E.
  assert (XP : coded_prime o c g sc k cf lex) by (destruct X as [X|[X _]]; [left|right]; exact X).
  destruct (C30_prime F o c g sc k cf lex XP l Hl Hn) as (r & E' & S). rewrite E in E'. injection E' as <-.
  destruct S as ((P & HA) & _). exists P. split; [exact HA|].
  apply (C33_whole F o c g sc); [|exact (proj1 HA)].
  destruct X as [X|[X N]]; [exact (six_whole _ _ _ _ _ _ _ X)|].
  destruct X as [Hc|Hc]; [|discriminate]. apply wc_secp256r1. apply lf_pf; in_fields.
Qed.
Print Assumptions C33_prime.

(** On the four curves with a cofactor the decoder accepts points outside the group. *)
Definition outside {F} (o : fops F) (c : cconf F) (sc : fconf) (k : codec F) cf lex : Prop :=
  exists l A P, is_bytes l /\ length l = csize k cf /\ aff_from_bytes o c k cf lex l = SqRet (Some A) /\ arep o c A P
    /\ pt_mulz o (ca c) (modulus sc) P <> None.
Lemma some_pair_fst {X} (x y z w : X) : Some (x, y) = Some (z, w) -> x = z.
Proof. congruence. Qed.
Theorem C33_bls_g1_refuted : forall Hc, let o := lf_ops bls12381_fq Hc in
  outside o (curve_of o (lf_inj bls12381_fq Hc) bls_g1_consts) bls12381_fr (fp_codec bls12381_fq Hc) ThreeSpare true.
Proof.
  intros Hc o. pose proof (lf_pf bls12381_fq ltac:(in_fields) Hc) as HP.
  destruct (bls_g1_small _ _ HP) as (On & _ & Hk).
  match type of On with on_curve _ _ _ (Some (?x, ?y)) => set (x0 := x) in *; set (y0 := y) in * end.
  destruct (proj1 (C29_x0_partial _ _ _ _ _ _ _ _ (cs_bls_g1 Hc)) (mk_aff x0 y0) (Some (x0, y0))) as (l & _ & L & B & E).
  - split; [exact On|split; reflexivity].
  - intros y X. apply some_pair_fst in X. unfold x0 in X. rewrite <- (zh_0 _ _ (pf_hom _ _ _ HP)) in X.
    apply (pf_eq _ _ _ HP) in X. revert X. vm_compute. discriminate.
  - exists l, (mk_aff x0 y0), (Some (x0, y0)). do 3 (split; [assumption|]).
    split; [split; [exact On|split; reflexivity]|exact Hk].
Qed.
Print Assumptions C33_bls_g1_refuted.
Theorem C33_quad_refuted : forall fc Hc o c g sc k cf lex, coded_quad fc Hc o c g sc k cf lex -> outside o c sc k cf lex.
Proof.
  intros fc Hc o c g sc k cf lex X. 
  assert (Q : exists x y, on_curve o (ca c) (cb c) (Some (x, y)) /\ pt_mulz o (ca c) (modulus sc) (Some (x, y)) <> None
    /\ sign_clear (lf_ops fc Hc) lex y).
  { destruct X as [Hc' o2|Hc' o2|Hc' fuel Hf o2].
    - pose proof (lf_pf bn256_fq ltac:(in_fields) Hc') as HP.
      destruct (proj1 (bn256_g2_small _ _ HP)) as (On & _ & Hk). eexists _, _. split; [exact On|]. split; [exact Hk|].
      unfold sign_clear. intros X. cbn [bn256_g2_pt10069 snd fst inj2 q0] in X. rewrite <- (zh_0 _ _ (pf_hom _ _ _ HP)) in X.
      apply (pf_eq _ _ _ HP) in X. revert X. vm_compute. discriminate.
    - assert (I : In bls12381_fq all_fields) by in_fields. pose proof (lf_pf bls12381_fq I Hc') as HP.
      destruct (proj1 (bls_g2_small _ _ HP)) as (On & _ & Hk). eexists _, _. split; [exact On|]. split; [exact Hk|].
      unfold sign_clear. left. cbn [bls_g2_pt13 snd fst inj2 q1]. split.
      + intros X. rewrite <- (zh_0 _ _ (pf_hom _ _ _ HP)) in X.
        apply (pf_eq _ _ _ HP) in X. revert X. vm_compute. discriminate.
      + pose proof (lf_zrep bls12381_fq Hc' (field_sized _ I) (field_prime _ I)) as Z.
        unfold half_free. rewrite !(zr_val_inj _ _ _ _ Z). split; vm_compute; discriminate.
    - pose proof (lf_pf pluto_eris_fp ltac:(in_fields) Hc') as HP.
      destruct (proj1 (triton_small _ _ HP)) as (On & _ & Hk). eexists _, _. split; [exact On|]. split; [exact Hk|].
      unfold sign_clear. intros X. cbn [triton_pt13 snd fst inj2 q0] in X. rewrite <- (zh_0 _ _ (pf_hom _ _ _ HP)) in X.
      apply (pf_eq _ _ _ HP) in X. revert X. vm_compute. discriminate. }
  destruct Q as (x & y & On & Hk & S).
  destruct (proj1 (C29_quad_partial _ _ _ _ _ _ _ _ _ X) (mk_aff x y) (Some (x, y))) as (l & _ & L & B & E).
  - split; [exact On|split; reflexivity].
  - exact S.
  - exists l, (mk_aff x y), (Some (x, y)). do 3 (split; [assumption|]). split; [split; [exact On|split; reflexivity]|exact Hk].
Qed.
Print Assumptions C33_quad_refuted.

(** ** C45: encodings of the quadratic extensions *)
(** Every element round-trips, and a string that decodes is the encoding of the result. *)
Theorem C45_partial : forall c, In c all_fields -> forall Hc,
  (forall a, length (t2_to_bytes (fp_codec c Hc) a) = (2 * size c)%nat /\ is_bytes (t2_to_bytes (fp_codec c Hc) a)
     /\ t2_from_bytes (fp_codec c Hc) (t2_to_bytes (fp_codec c Hc) a) = SqRet (Some a))
  /\ (forall l, is_bytes l -> length l = (2 * size c)%nat -> match t2_from_bytes (fp_codec c Hc) l with
       | SqRet (Some a) => t2_to_bytes (fp_codec c Hc) a = l
       | SqRet None => False
       | SqPanic => forall a, t2_to_bytes (fp_codec c Hc) a <> l
       | SqDiverge => False
       end)
  /\ (forall a, length (t2_to_repr (fp_codec c Hc) a) = (2 * size c)%nat /\ is_bytes (t2_to_repr (fp_codec c Hc) a)
     /\ t2_from_repr c Hc (t2_to_repr (fp_codec c Hc) a) = SqRet (Some a)).
Proof. exact t2_encodings. Qed.
Print Assumptions C45_partial.
(** [from_uniform_bytes] reduces the two halves; the second gives c0. *)
Theorem C45_uniform : forall c, In c all_fields -> forall Hc half l, is_bytes l -> length l = (2 * half)%nat ->
  (half <= 2 * size c)%nat ->
  let r := t2_from_uniform_bytes c Hc half l in
  lf_val c (q0 r) = le_int (skipn half l) mod modulus c /\ lf_val c (q1 r) = le_int (firstn half l) mod modulus c.
Proof. exact t2_uniform. Qed.
Print Assumptions C45_uniform.
(** A coefficient that is not below the modulus is not rejected: [unwrap] panics. *)
Theorem C45_refuted : forall c, In c all_fields -> forall Hc l, is_bytes l -> length l = (2 * size c)%nat ->
  (forall a, t2_to_bytes (fp_codec c Hc) a <> l) -> t2_from_bytes (fp_codec c Hc) l = SqPanic.
Proof.
  intros c I Hc l Hl Hn N. pose proof (proj1 (proj2 (C45_partial c I Hc)) l Hl Hn) as S.
  destruct (t2_from_bytes (fp_codec c Hc) l) as [| |[a|]]; auto; [contradiction|exfalso; exact (N a S)|contradiction].
Qed.
Print Assumptions C45_refuted.

(** ** The hypotheses are met *)
Lemma bn256_fq_odd : odd_conf bn256_fq. Proof. apply field_odd. in_fields. Qed.
Example C29_instance : let Hc := bn256_fq_odd in let o := lf_ops bn256_fq Hc in
  let c := curve_of_bn256_g1 o (lf_inj bn256_fq Hc) bn256_g1_consts in
  let g := gen_aff (lf_inj bn256_fq Hc) bn256_g1_consts in
  coded_six o c g bn256_fr (fp_codec bn256_fq Hc) TwoSpare false
  /\ arep o c g (Some (ax g, ay g)) /\ arep o c (aff_identity o) None
  /\ c29_for o c (fp_codec bn256_fq Hc) TwoSpare false g.
Proof.
  intros Hc o c g. pose proof (cs_bn256_g1 Hc) as X. pose proof (coded_six_facts _ _ _ _ _ _ _ X) as CF.
  pose proof (cf_gen _ _ _ _ (crate_curve_facts _ _ _ _ (cd_crate _ _ _ _ _ _ CF))) as G.
  split; [exact X|]. split; [exact G|]. split; [exact (conj I (conj eq_refl eq_refl))|].
  exact (proj1 (C29_six _ _ _ _ _ _ _ _ X) g _ G).
Qed.
(** The bytes of the generator (1, 2), of its negative and of the identity. *)
Example C29_bytes : let Hc := bn256_fq_odd in let o := lf_ops bn256_fq Hc in
  let c := curve_of_bn256_g1 o (lf_inj bn256_fq Hc) bn256_g1_consts in
  let g := gen_aff (lf_inj bn256_fq Hc) bn256_g1_consts in
  aff_to_bytes o c (fp_codec bn256_fq Hc) TwoSpare false g = Some (1 :: repeat 0 31)
  /\ aff_to_bytes o c (fp_codec bn256_fq Hc) TwoSpare false (aff_neg o g) = Some (1 :: repeat 0 30 ++ [128])
  /\ aff_to_bytes o c (fp_codec bn256_fq Hc) TwoSpare false (aff_identity o) = Some (repeat 0 31 ++ [64]).
Proof. vm_compute. repeat split. Qed.
Example C29_quad_instance : let Hc := field_odd bls12381_fq ltac:(in_fields) in
  coded_quad bls12381_fq Hc (bls_fq2 (lf_ops bls12381_fq Hc))
    (curve_of (bls_fq2 (lf_ops bls12381_fq Hc)) (inj2 (lf_inj bls12381_fq Hc)) bls_g2_consts)
    (gen_aff (inj2 (lf_inj bls12381_fq Hc)) bls_g2_consts) bls12381_fr (bls_fq2_codec Hc) ThreeSpare true
  /\ sign_clear (lf_ops bls12381_fq Hc) true (inj2 (lf_inj bls12381_fq Hc) (7, 5)).
Proof.
  intros Hc. split; [exact (cs_bls_g2 Hc)|].
  assert (I : In bls12381_fq all_fields) by in_fields. pose proof (lf_pf bls12381_fq I Hc) as HP.
  pose proof (lf_zrep bls12381_fq Hc (field_sized _ I) (field_prime _ I)) as Z.
  unfold sign_clear. left. cbn [inj2 q1 fst snd]. split.
  - intros X. rewrite <- (zh_0 _ _ (pf_hom _ _ _ HP)) in X. apply (pf_eq _ _ _ HP) in X. revert X. vm_compute. discriminate.
  - unfold half_free. rewrite !(zr_val_inj _ _ _ _ Z). split; vm_compute; discriminate.
Qed.
