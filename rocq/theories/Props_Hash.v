(** Property theorem C37: expand_message and hash_to_field follow RFC 9380.
    SpecHash.v is the text of the RFC over an arbitrary hash function. *)
From Verif Require Import Base Word Field SpecField Params FieldFacts FieldSerdeFacts BytesFacts.
From Verif Require Import Algebra Tower PrimeField LimbField Props_Field Props_Field2 Sqrt2 Serde SerdeInst.
From Verif Require Import Hash SpecHash HashFacts.

(** A hash function with the given sizes. *)
Definition digest_ok (D : digest) : Prop :=
  (0 < output_size D)%nat /\ forall m, length (hash D m) = output_size D /\ is_bytes (hash D m).

(** C37.  [xmd_supported]: what step 2 of the RFC does not abort on. *)
Theorem C37_expand : forall D, digest_ok D -> forall prefix domain msg len,
  (0 < len)%nat -> xmd_supported (output_size D) (prefix ++ domain) len ->
  let out := expand_message_xmd (hash D) (output_size D) (block_size D) msg (prefix ++ domain) len in
  expand_message D prefix domain msg len = Some out /\ length out = len /\ is_bytes out.
Proof.
  intros D (HP & HD) prefix domain msg len Hl Hs out. split; [|split].
  - apply expand_message_spec; auto. intros m. apply HD.
  - apply xmd_length; auto. intros m. apply HD.
  - apply xmd_bytes. intros m. apply HD.
Qed.
Print Assumptions C37_expand.
(** Everything the RFC aborts on (and the empty output) panics; nothing is
    silently truncated. *)
Theorem C37_panics : forall D prefix domain msg len, (0 < output_size D)%nat -> Z.of_nat len <= 65535 ->
  ~ xmd_supported (output_size D) (prefix ++ domain) len \/ len = 0%nat ->
  expand_message D prefix domain msg len = None.
Proof.
  intros D prefix domain msg len HP HL H. apply expand_message_panics.
  destruct (Nat.eq_dec len 0) as [->|N]; [auto|]. destruct H as [H|H]; [|auto].
  destruct (le_lt_dec (length prefix + length domain) 255) as [A|A]; [|left; lia].
  do 3 right. rewrite (proj1 (ell_eq D HP len ltac:(lia))).
  destruct (le_lt_dec (xmd_ell (output_size D) len) 255) as [B|B]; [|exact B].
  exfalso. apply H. split; [exact B|]. split; [exact HL|]. rewrite app_length. exact A.
Qed.
Print Assumptions C37_panics.

(** hash_to_field over a prime field: [count = 2], [m = 1]. *)
Theorem C37_field : forall D, digest_ok D -> forall c, odd_conf c -> forall prefix domain msg L,
  (0 < L <= 2 * size c)%nat -> xmd_supported (output_size D) (prefix ++ domain) (2 * L) ->
  exists u0 u1, hash_to_field D prefix domain (from_uniform_bytes c) L msg = Some (u0, u1) /\
  let coeff i := field_coeff (hash D) (output_size D) (block_size D) (modulus c) 1 L msg (prefix ++ domain) 2 i 0 in
  represents (num_limbs c) (modulus c) u0 (coeff 0%nat) /\ represents (num_limbs c) (modulus c) u1 (coeff 1%nat).
Proof.
  intros D HD c Hc prefix domain msg L HL Hs.
  destruct (C37_expand D HD prefix domain msg (2 * L) ltac:(lia) Hs) as (_ & Len & By).
  destruct HD as (HP & HD).
  pose proof (hash_to_field_spec D (fun m => proj1 (HD m)) HP prefix domain (fun m => proj2 (HD m)) _ (from_uniform_bytes c) L msg) as E.
  replace (L * 2)%nat with (2 * L)%nat in E by lia. specialize (E ltac:(lia) Hs).
  unfold field_coeff. replace (2 * 1 * L)%nat with (2 * L)%nat by lia.
  set (u := expand_message_xmd _ _ _ _ _ _) in *.
  eexists _, _. split; [exact E|]. cbv zeta. split.
  - replace (L * (0 + 0 * 1))%nat with 0%nat by lia. cbn [skipn].
    apply from_uniform_bytes_repr; auto.
    + now apply is_bytes_rev, is_bytes_firstn.
    + rewrite rev_length, firstn_length. lia.
  - replace (L * (0 + 1 * 1))%nat with L by lia.
    rewrite (firstn_all2 (skipn L u)) by (rewrite skipn_length; lia).
    apply from_uniform_bytes_repr; auto.
    + now apply is_bytes_rev, is_bytes_skipn.
    + rewrite rev_length, skipn_length. lia.
Qed.
Print Assumptions C37_field.
(** The quadratic extensions ([m = 2]), [half] bytes per coefficient. *)
Theorem C37_quad : forall D, digest_ok D -> forall c, In c all_fields -> forall Hc prefix domain msg half,
  (0 < half <= 2 * size c)%nat -> xmd_supported (output_size D) (prefix ++ domain) (4 * half) ->
  exists u0 u1, hash_to_field D prefix domain (t2_from_uniform_bytes c Hc half) (2 * half) msg = Some (u0, u1) /\
  let coeff i j := field_coeff (hash D) (output_size D) (block_size D) (modulus c) 2 half msg (prefix ++ domain) 2 i j in
  lf_val c (q0 u0) = coeff 0%nat 0%nat /\ lf_val c (q1 u0) = coeff 0%nat 1%nat /\
  lf_val c (q0 u1) = coeff 1%nat 0%nat /\ lf_val c (q1 u1) = coeff 1%nat 1%nat.
Proof.
  intros D HD c Hi Hc prefix domain msg h HL Hs.
  destruct (C37_expand D HD prefix domain msg (4 * h) ltac:(lia) Hs) as (_ & Len & By).
  destruct HD as (HP & HD).
  pose proof (hash_to_field_spec D (fun m => proj1 (HD m)) HP prefix domain (fun m => proj2 (HD m)) _ (t2_from_uniform_bytes c Hc h) (2 * h) msg) as E.
  replace (2 * h * 2)%nat with (4 * h)%nat in E by lia. specialize (E ltac:(lia) Hs).
  unfold field_coeff. replace (2 * 2 * h)%nat with (4 * h)%nat by lia.
  set (u := expand_message_xmd _ _ _ _ _ _) in *.
  eexists _, _. split; [exact E|]. cbv zeta.
  assert (Q : forall v, is_bytes v -> length v = (2 * h)%nat ->
    let r := t2_from_uniform_bytes c Hc h (rev v) in
    lf_val c (q0 r) = be_int (firstn h v) mod modulus c /\ lf_val c (q1 r) = be_int (skipn h v) mod modulus c).
  { intros v Bv Lv. destruct (t2_uniform c Hi Hc h (rev v)) as (R0 & R1).
    - now apply is_bytes_rev.
    - now rewrite rev_length.
    - lia.
    - cbv zeta. rewrite R0, R1. unfold be_int. rewrite skipn_rev, firstn_rev, Lv.
      replace (2 * h - h)%nat with h by lia. auto. }
  destruct (Q (firstn (2 * h) u)) as (A0 & A1).
  { now apply is_bytes_firstn. } { rewrite firstn_length. lia. }
  destruct (Q (skipn (2 * h) u)) as (B0 & B1).
  { now apply is_bytes_skipn. } { rewrite skipn_length. lia. }
  rewrite A0, A1, B0, B1.
  replace (h * (0 + 0 * 2))%nat with 0%nat by lia. replace (h * (1 + 0 * 2))%nat with h by lia.
  replace (h * (0 + 1 * 2))%nat with (2 * h)%nat by lia. replace (h * (1 + 1 * 2))%nat with (h + 2 * h)%nat by lia.
  cbn [skipn]. rewrite firstn_firstn, Nat.min_l by lia.
  rewrite skipn_firstn_comm. replace (2 * h - h)%nat with h by lia.
  replace (skipn (h + 2 * h) u) with (skipn h (skipn (2 * h) u)) by (rewrite skipn_skipn_add; f_equal; lia).
  rewrite (firstn_all2 (skipn h (skipn (2 * h) u))) by (rewrite !skipn_length; lia). auto.
Qed.
Print Assumptions C37_quad.

(** The suites of the crate: base field, extension degree and [L] of every call of
    [Suite::new] (bn256/curve.rs:245 and 257, grumpkin/curve.rs:88,
    secp256k1/curve.rs:96, secq256k1/curve.rs:70, secp256r1/curve.rs:95,
    bls12381/g1.rs:121 and g2.rs:284, pluto_eris/curve.rs:155 and 237). *)
Definition hash_suites : list (fconf * nat * nat) :=
  [ (bn256_fq, 1, 48); (bn256_fq, 2, 96); (bn256_fr, 1, 48); (secp256k1_fp, 1, 48); (secp256k1_fq, 1, 48);
    (secp256r1_fp, 1, 48); (bls12381_fq, 1, 64); (bls12381_fq, 2, 128); (pluto_eris_fp, 1, 72);
    (pluto_eris_fq, 1, 72) ]%nat.
(** Every suite passes the [assert!] of [Suite::new], reads at most twice the size
    of the field, and with SHA-256 ([output_size] 32) stays within the RFC limits
    for every DST of at most 255 bytes. *)
Theorem C37_suites : forall c m L, In (c, m, L) hash_suites ->
  (num_bits c + 128) / 8 <= Z.of_nat L /\ In c all_fields /\ (0 < L)%nat /\ (L <= m * (2 * size c))%nat /\
  forall DST, (length DST <= 255)%nat -> xmd_supported 32 DST (2 * L).
Proof.
  assert (G : Forall (fun s => let '(c, m, L) := s in
    (num_bits c + 128) / 8 <= Z.of_nat L /\ In c all_fields /\ (0 < L)%nat /\ (L <= m * (2 * size c))%nat /\
    forall DST, (length DST <= 255)%nat -> xmd_supported 32 DST (2 * L)) hash_suites).
  { unfold hash_suites. repeat (apply Forall_cons || apply Forall_nil);
    (split; [vm_compute; discriminate|split; [in_fields|split; [lia|split;
      [apply Nat.leb_le; vm_compute; reflexivity
      |intros DST HD; split; [apply Nat.leb_le; vm_compute; reflexivity|split; [lia|exact HD]]]]]]). }
  intros c m L H. rewrite Forall_forall in G. exact (G _ H).
Qed.
Print Assumptions C37_suites.

(** A digest (32 copies of a byte sum) showing that the hypotheses can be met. *)
Definition toy_digest : digest :=
  {| hash := fun m => repeat (fold_right Z.add 0 m mod 256) 32; block_size := 64; output_size := 32 |}.
Example C37_example : digest_ok toy_digest /\
  expand_message toy_digest [1; 2] [3] [10; 20] 40 = Some (repeat 234 32 ++ repeat 171 8).
Proof.
  split; [|vm_compute; reflexivity]. split; [cbn; lia|]. intros m. cbn [hash toy_digest output_size]. split.
  - apply repeat_length.
  - apply Forall_forall. intros x Hx. apply repeat_spec in Hx. subst x. apply Z.mod_pos_bound. lia.
Qed.
