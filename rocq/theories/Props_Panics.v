(** What the point decoders of the three quadratic curves (bn256 G2, bls12381 G2, triton) do
    where C29 - C31 fail: exactly which strings make them panic, and what comes back for a
    point whose sign bit does not tell y from -y. *)
From Verif Require Import Base Word Limbs Bytes Field SpecField LimbsFacts FieldFacts BytesFacts FieldSerdeFacts Params
  Algebra Pow Tower TowerFacts FiniteField PrimeField TowerInst SpecCurve SpecCurveFacts
  Curve CurveFacts CurveGroup Inverse LimbField Sqrt Sqrt2 Serde SerdeFacts SerdeInst Props_Field2 Props_Serde.

(** [from_bytes] of the extension field panics exactly on the strings that encode no element. *)
Lemma quad_codec_panic fc Hc o c g sc k cf lex : coded_quad fc Hc o c g sc k cf lex ->
  forall l, is_bytes l -> length l = k_size k ->
  (exists x, k_from_bytes k l = SqRet (Some x) /\ k_to_bytes k x = l)
  \/ (k_from_bytes k l = SqPanic /\ forall x, k_to_bytes k x <> l).
Proof.
  intros X l Hl Hn. destruct (coded_quad_codec _ _ _ _ _ _ _ _ _ X) as (_ & _ & Ks & _ & Kf & _).
  pose proof (kl_from _ _ (cd_laws _ _ _ _ _ _ (coded_quad_facts _ _ _ _ _ _ _ _ _ X)) l Hl Hn) as S.
  assert (I : In fc all_fields) by (destruct X; in_fields).
  pose proof (proj1 (proj2 (C45_partial fc I Hc)) l Hl ltac:(lia)) as S45. rewrite <- (Kf l) in S45.
  destruct (k_from_bytes k l) as [| |[x|]]; [contradiction| |left; eauto|contradiction]. right. split; [reflexivity|exact S].
Qed.

(** The string with the flag bits cleared: two bits, three on bls12381. *)
Definition without_flags {F} (k : codec F) (cf : flag_conf) (l : list Z) : list Z :=
  upd_at (flag_index k cf) (fun b => b mod match cf with ThreeSpare => 32 | _ => 64 end) l.
Lemma dec_flags_low cf b : cf <> Extra -> 0 <= b < 256 ->
  snd (dec_flags cf b) = b mod match cf with ThreeSpare => 32 | _ => 64 end.
Proof.
  intros N Hb.
  assert (C : forallb (fun cf => forallb (fun b => snd (dec_flags cf b) =? b mod match cf with ThreeSpare => 32 | _ => 64 end) bytes256)
                [TwoSpare; ThreeSpare] = true) by (vm_compute; reflexivity).
  assert (I : In cf [TwoSpare; ThreeSpare]) by (destruct cf; cbn; auto; contradiction).
  pose proof (proj1 (forallb_forall _ _) C cf I) as C1. cbv beta in C1.
  apply Z.eqb_eq. exact (proj1 (forallb_forall _ _) C1 b (in_bytes256 b Hb)).
Qed.
Lemma finish_total fc Hc o c g sc k cf lex : coded_quad fc Hc o c g sc k cf lex ->
  forall v0 v1 id sg x, exists r, cz_finish o c k lex v0 v1 id sg x = SqRet r.
Proof.
  intros X v0 v1 id sg x. pose proof (coded_quad_facts _ _ _ _ _ _ _ _ _ X) as CF.
  pose proof (coded_curve_laws _ _ _ _ _ _ CF) as HC. unfold cz_finish. cbv zeta. unfold ct_new.
  destruct (cz_resolve_cases o c k lex HC (cd_laws _ _ _ _ _ _ CF) x sg) as [(y & -> & _)|[-> _]]; cbn [ct_and_then ct_or_else]; eauto.
Qed.

(** ** C30: the compressed decoder panics exactly when the string without its flags encodes no
    element of the extension field, and no point has such an encoding. *)
Theorem C30_quad_panic_exact : forall fc Hc o c g sc k cf lex, coded_quad fc Hc o c g sc k cf lex ->
  forall l, is_bytes l -> length l = csize k cf ->
  (aff_from_bytes o c k cf lex l = SqPanic <-> forall x, k_to_bytes k x <> without_flags k cf l) /\
  (aff_from_bytes o c k cf lex l = SqPanic -> forall A, aff_to_bytes o c k cf lex A <> Some l).
Proof.
  intros fc Hc o c g sc k cf lex X l Hl Hn. pose proof (coded_quad_facts _ _ _ _ _ _ _ _ _ X) as CF.
  pose proof (coded_curve_laws _ _ _ _ _ _ CF) as HC. pose proof (cd_laws _ _ _ _ _ _ CF) as HK. pose proof (cd_spare _ _ _ _ _ _ CF) as Hs.
  destruct (coded_quad_codec _ _ _ _ _ _ _ _ _ X) as (Nx & _ & Ks & _ & _ & _).
  assert (Cs : csize k cf = k_size k) by (unfold csize; destruct cf; [contradiction|lia|lia]).
  pose proof (idx_lt o k cf HK Hs) as I.
  assert (Wl : length (without_flags k cf l) = k_size k) by (unfold without_flags; rewrite upd_at_length by lia; lia).
  assert (Wb : is_bytes (without_flags k cf l)).
  { unfold without_flags. apply upd_at_bytes; [exact Hl|]. destruct cf;
      match goal with |- context [?a mod ?b] => pose proof (Z.mod_pos_bound a b eq_refl); lia end. }
  assert (Main : aff_from_bytes o c k cf lex l = SqPanic <-> forall x, k_to_bytes k x <> without_flags k cf l).
  { destruct (dec_flags cf (nth (flag_index k cf) l 0)) as [[[v id] sg] e] eqn:E. unfold aff_from_bytes.
    rewrite (cz_decode_eq o c k cf lex HK Hs l v id sg e Hn E).
    assert (Ee : upd_at (flag_index k cf) (fun _ => e) l = without_flags k cf l).
    { unfold without_flags. apply upd_at_ext. pose proof (dec_flags_low cf _ Nx (nth_byte (flag_index k cf) l Hl)) as D.
      rewrite E in D. exact D. }
    rewrite Ee. assert (Pk : cz_payload k cf (without_flags k cf l) = k_from_bytes k (without_flags k cf l)) by (destruct cf; [contradiction|reflexivity|reflexivity]).
    rewrite Pk. destruct (quad_codec_panic _ _ _ _ _ _ _ _ _ X _ Wb Wl) as [(x & -> & T)|[-> T]]; cbn [ct_and_then].
    - destruct (finish_total _ _ _ _ _ _ _ _ _ X v (match cf with Extra => e =? 0 | _ => true end) id sg x) as (r & ->).
      split; [discriminate|]. intros N. destruct (N x T).
    - split; [intros _; exact T|reflexivity]. }
  split; [exact Main|]. intros EP A EA. apply Main with (x := ax A) in EP. apply EP. clear EP Main.
  unfold aff_to_bytes in EA. destruct (aff_is_on_curve o c A) eqn:On; [|rewrite (cz_encode_off o c k cf lex A On) in EA; discriminate].
  rewrite (cz_encode_eq o c k cf lex HK Hs A On) in EA. injection EA as <-.
  pose proof (cz_base_len o k cf HK Hs (ax A)) as Lb. unfold without_flags. rewrite upd_at_comp by lia.
  assert (Eb : cz_base k cf (ax A) = k_to_bytes k (ax A)) by (destruct cf; [contradiction|reflexivity|reflexivity]).
  rewrite <- Eb at 1. symmetry. etransitivity; [|apply (upd_at_id (flag_index k cf)); lia].
  apply upd_at_ext.
  destruct (dec_enc_flags cf (aff_is_identity o A) (cz_sign o k lex A) _ (cz_base_flag o k cf HK Hs (ax A))) as [D B].
  rewrite <- (dec_flags_low cf _ Nx B), D. reflexivity.
Qed.
Print Assumptions C30_quad_panic_exact.

(** ** C31: the same for the uncompressed decoder. *)
Theorem C31_quad_panic_exact : forall fc Hc o c g sc k cf lex, coded_quad fc Hc o c g sc k cf lex ->
  forall l, is_bytes l -> length l = (2 * k_size k)%nat ->
  (from_uncompressed o c k l = SqPanic <-> forall x y, k_to_bytes k x ++ k_to_bytes k y <> l) /\
  (from_uncompressed o c k l = SqPanic -> forall A, to_uncompressed o k A <> l).
Proof.
  intros fc Hc o c g sc k cf lex X l Hl Hn. pose proof (coded_quad_facts _ _ _ _ _ _ _ _ _ X) as CF.
  pose proof (cd_laws _ _ _ _ _ _ CF) as HK.
  assert (Main : from_uncompressed o c k l = SqPanic <-> forall x y, k_to_bytes k x ++ k_to_bytes k y <> l).
  { assert (Sp : l = firstn (k_size k) l ++ firstn (k_size k) (skipn (k_size k) l)).
    { rewrite (firstn_all2 (skipn (k_size k) l)) by (rewrite skipn_length; lia). symmetry. apply firstn_skipn. }
    assert (L1 : length (firstn (k_size k) l) = k_size k) by (rewrite firstn_length; lia).
    assert (L2 : length (firstn (k_size k) (skipn (k_size k) l)) = k_size k) by (rewrite firstn_length, skipn_length; lia).
    assert (B1 : is_bytes (firstn (k_size k) l)) by (apply is_bytes_firstn; exact Hl).
    assert (B2 : is_bytes (firstn (k_size k) (skipn (k_size k) l))) by (apply is_bytes_firstn, is_bytes_skipn; exact Hl).
    assert (Inj : forall x y, k_to_bytes k x ++ k_to_bytes k y = l ->
              k_to_bytes k x = firstn (k_size k) l /\ k_to_bytes k y = firstn (k_size k) (skipn (k_size k) l)).
    { intros x y E. pose proof (proj1 (kl_to _ _ HK x)) as Lx. pose proof (proj1 (kl_to _ _ HK y)) as Ly. rewrite <- E.
      rewrite <- Lx at 1. rewrite firstn_app, Nat.sub_diag, firstn_all, firstn_O, app_nil_r. split; [reflexivity|].
      rewrite <- Lx at 2. rewrite skipn_app, Nat.sub_diag, skipn_all, skipn_O. cbn [app]. rewrite <- Ly. symmetry. apply firstn_all. }
    unfold from_uncompressed, from_uncompressed_unchecked.
    destruct (quad_codec_panic _ _ _ _ _ _ _ _ _ X _ B1 L1) as [(x & -> & T1)|[-> T1]]; cbn [ct_and_then].
    - destruct (quad_codec_panic _ _ _ _ _ _ _ _ _ X _ B2 L2) as [(y & -> & T2)|[-> T2]]; cbn [ct_and_then].
      + unfold ct_new. split.
        * destruct (fis0 o x && fis0 o y); cbn [ct_or_else ct_and_then]; discriminate.
        * intros N. exfalso. apply (N x y). rewrite T1, T2. symmetry. exact Sp.
      + split; [|reflexivity]. intros _ x' y' E. exact (T2 y' (proj2 (Inj _ _ E))).
    - split; [|reflexivity]. intros _ x' y' E. exact (T1 x' (proj1 (Inj _ _ E))). }
  split; [exact Main|]. intros EP A. unfold to_uncompressed. exact (proj1 Main EP _ _).
Qed.
Print Assumptions C31_quad_panic_exact.

(** ** C29: for every point, whether or not the sign bit tells y from -y, the decoder returns the
    point or its negative, and the negative only if both have the same encoding. *)
Theorem C29_quad_exact : forall fc Hc o c g sc k cf lex, coded_quad fc Hc o c g sc k cf lex ->
  forall x y, on_curve o (ca c) (cb c) (Some (x, y)) ->
  exists l, aff_to_bytes o c k cf lex (mk_aff x y) = Some l /\
    (aff_from_bytes o c k cf lex l = SqRet (Some (mk_aff x y))
     \/ (aff_from_bytes o c k cf lex l = SqRet (Some (mk_aff x (fneg o y)))
         /\ aff_to_bytes o c k cf lex (mk_aff x (fneg o y)) = Some l)).
Proof.
  intros fc Hc o c g sc k cf lex X x y On. pose proof (coded_quad_facts _ _ _ _ _ _ _ _ _ X) as CF.
  pose proof (coded_curve_laws _ _ _ _ _ _ CF) as HC. pose proof (cd_laws _ _ _ _ _ _ CF) as HK. pose proof (cd_spare _ _ _ _ _ _ CF) as Hs.
  destruct (coded_quad_codec _ _ _ _ _ _ _ _ _ X) as (Nx & _).
  assert (HA : arep o c (mk_aff x y) (Some (x, y))) by (split; [exact On|split; reflexivity]).
  assert (X0 : x <> f0 o) by (intros ->; exact (quad_no_x0 _ _ _ _ _ _ _ _ _ X y On)).
  unfold aff_to_bytes, aff_from_bytes.
  destruct (Bool.bool_dec (y_sign k lex (fneg o y)) (y_sign k lex y)) as [E|N].
  - destruct (cz_collision o c k cf lex HC HK Hs x y X0 On E) as [EC _].
    rewrite <- EC. rewrite (cz_encode_eq o c k cf lex HK Hs _ (arep_on o c HC _ _ HA)). eexists. split; [reflexivity|].
    pose proof (idx_lt o k cf HK Hs) as I. cbn [ax]. pose proof (cz_base_len o k cf HK Hs x) as L. pose proof (cz_base_flag o k cf HK Hs x) as Fl.
    destruct (dec_enc_flags cf (aff_is_identity o (mk_aff x y)) (cz_sign o k lex (mk_aff x y)) _ Fl) as [D B].
    set (f := enc_flags cf _ _) in *.
    assert (Lu : length (upd_at (flag_index k cf) f (cz_base k cf x)) = csize k cf) by (rewrite upd_at_length by lia; exact L).
    assert (Du : dec_flags cf (nth (flag_index k cf) (upd_at (flag_index k cf) f (cz_base k cf x)) 0)
                 = (true, aff_is_identity o (mk_aff x y), cz_sign o k lex (mk_aff x y), nth (flag_index k cf) (cz_base k cf x) 0))
      by (rewrite upd_at_nth by lia; exact D).
    rewrite (cz_decode_eq o c k cf lex HK Hs _ _ _ _ _ Lu Du).
    rewrite upd_at_comp by lia. rewrite upd_at_id by lia. rewrite (cz_payload_base o k cf HK Hs). cbn [ct_and_then].
    assert (Id : aff_is_identity o (mk_aff x y) = false) by (unfold aff_is_identity; cbn [ax]; rewrite (is0_n o c HC x X0); reflexivity).
    rewrite Id. unfold cz_finish. cbv zeta. rewrite (is0_n o c HC x X0). unfold ct_new.
    assert (V1 : match cf with Extra => nth (flag_index k cf) (cz_base k cf x) 0 =? 0 | _ => true end = true) by (destruct cf; [contradiction|reflexivity|reflexivity]).
    rewrite V1. cbn [andb negb xorb].
    destruct (cz_resolve_cases o c k lex HC HK x (cz_sign o k lex (mk_aff x y))) as [(y' & -> & On' & _)|[_ No]]; [|destruct (No y On)].
    cbn [ct_and_then ct_or_else].
    assert (Sq : fmul o y' y' = fmul o y y).
    { transitivity (curve_y2 o c x); [|symmetry]; apply (y2_on o c HC); assumption. }
    destruct (sq_eq_cases o c HC y' y Sq) as [-> | ->]; [left; reflexivity|right; split; reflexivity].
  - destruct (cz_roundtrip o c k cf lex HC HK Hs _ _ HA) as (l & E1 & _ & _ & E2).
    + split; [exact X0|]. destruct (y_sign k lex (fneg o y)), (y_sign k lex y); try reflexivity; contradiction N; reflexivity.
    + exists l. split; [exact E1|]. left. exact E2.
Qed.
Print Assumptions C29_quad_exact.
(** bls12381 G2: with the flag byte 0xa0 and the modulus in the last coefficient the field decoder panics. *)
Example ex_C30_quad_panic : let Hc := field_odd bls12381_fq ltac:(in_fields) in let k := bls_fq2_codec Hc in
  let l := 160 :: repeat 0 47 ++ be_bytes 48 (modulus bls12381_fq) in
  without_flags k ThreeSpare l = repeat 0 48 ++ be_bytes 48 (modulus bls12381_fq) /\ k_from_bytes k (without_flags k ThreeSpare l) = SqPanic.
Proof.
  intros Hc k l. assert (E : without_flags k ThreeSpare l = repeat 0 48 ++ be_bytes 48 (modulus bls12381_fq)) by reflexivity.
  rewrite E. split; [reflexivity|]. apply (t2_panic bls12381_fq Hc). right. vm_compute. reflexivity.
Qed.
