(** Property theorem C51: the inline assembly of feature [asm].

    [s] is the content of all registers and flags when the block is entered;
    nothing is assumed about it.  [Some] as the result says that no instruction
    read outside the arrays or used an undefined flag. *)
From Verif Require Import Base Word Limbs Bytes Field SpecField Params LimbsFacts FieldFacts.
From Verif Require Import Asm AsmFacts Props_Field.

(** The fields of the crate that take the assembly: bn256 Fq and Fr and
    bls12381 Fr. *)
Example C51_fields : filter uses_asm all_fields = [bn256_fq; bn256_fr; bls12381_fr].
Proof. vm_compute. reflexivity. Qed.

(** C51, against the integers mod p *)
Theorem C51_arith : forall c s a b x y, odd_conf c -> uses_asm c = true ->
  represents (num_limbs c) (modulus c) a x -> represents (num_limbs c) (modulus c) b y ->
  let computes o v := exists r, o = Some r /\ represents (num_limbs c) (modulus c) r v in
  computes (asm_add c s a b) ((x + y) mod modulus c) /\
  computes (asm_sub c s a b) ((x - y) mod modulus c) /\
  computes (asm_mul c s a b) ((x * y) mod modulus c) /\
  computes (asm_double c s a) ((2 * x) mod modulus c) /\
  computes (asm_neg c s a) ((- x) mod modulus c) /\
  computes (asm_square c s a) ((x * x) mod modulus c) /\
  (exists r, asm_from_mont c s a = Some r /\ length r = 4%nat /\ words r /\ eval r = x).
Proof.
  intros c s a b x y Hc Hu Ha Hb computes.
  pose proof (proj1 Ha) as Ca. pose proof (proj1 Hb) as Cb.
  repeat split.
  - eexists; split; [exact (asm_add_eq c Hc Hu s a b Ca Cb)|exact (C01_add c a b x y Hc Ha Hb)].
  - eexists; split; [exact (asm_sub_eq c Hc Hu s a b Ca Cb)|exact (C01_sub c a b x y Hc Ha Hb)].
  - eexists; split; [exact (asm_mul_eq c Hc Hu s a b Ca (proj1 Cb) (proj1 (proj2 Cb)))
                    |exact (C02_mul c a b x y Hc Ha Hb)].
  - eexists; split; [exact (asm_double_eq c Hc Hu s a Ca)|exact (C01_double c a x Hc Ha)].
  - eexists; split; [exact (asm_neg_eq c Hc Hu s a Ca)|exact (C01_neg c a x Hc Ha)].
  - eexists; split; [exact (asm_square_eq c Hc Hu s a Ca)|exact (C02_square c a x Hc Ha)].
  - eexists; split; [exact (asm_from_mont_eq c Hc Hu s a Ca)|].
    rewrite <- (asm_limbs c Hu). exact (fe_from_mont_spec c Hc a x Ha).
Qed.
Print Assumptions C51_arith.

(** C51, limb for limb against the portable code, so everything proved about
    the portable functions holds for an [asm] build.  The second factor of the
    product may be any four words. *)
Theorem C51_agree : forall c s a b, odd_conf c -> uses_asm c = true ->
  canonical (num_limbs c) (modulus c) a -> canonical (num_limbs c) (modulus c) b ->
  asm_add c s a b = Some (fe_add c a b) /\ asm_sub c s a b = Some (fe_sub c a b) /\
  asm_double c s a = Some (fe_double c a) /\ asm_neg c s a = Some (fe_neg c a) /\
  asm_square c s a = Some (fe_square c a) /\ asm_from_mont c s a = Some (fe_from_mont c a) /\
  asm_to_bytes c s a = Some (to_bytes c a) /\ asm_to_repr c s a = Some (to_repr c a).
Proof.
  exact (fun c s a b Hc Hu Ha Hb =>
    conj (asm_add_eq c Hc Hu s a b Ha Hb) (conj (asm_sub_eq c Hc Hu s a b Ha Hb)
    (conj (asm_double_eq c Hc Hu s a Ha) (conj (asm_neg_eq c Hc Hu s a Ha)
    (conj (asm_square_eq c Hc Hu s a Ha) (conj (asm_from_mont_eq c Hc Hu s a Ha)
    (conj (asm_to_bytes_eq c Hc Hu s a Ha) (asm_to_repr_eq c Hc Hu s a Ha)))))))).
Qed.
Print Assumptions C51_agree.
Theorem C51_mul : forall c s a b, odd_conf c -> uses_asm c = true ->
  canonical (num_limbs c) (modulus c) a -> length b = num_limbs c -> words b ->
  asm_mul c s a b = Some (fe_mul c a b).
Proof. exact (fun c s a b Hc Hu => asm_mul_eq c Hc Hu s a b). Qed.
Print Assumptions C51_mul.

(** The conversions that multiply before they check the range or take integers
    agree on every input. *)
Theorem C51_decode : forall c s l, odd_conf c -> uses_asm c = true ->
  is_bytes l -> length l = size c ->
  asm_from_bytes c s l = Some (from_bytes c l) /\ asm_from_repr c s l = Some (from_repr c l).
Proof.
  exact (fun c s l Hc Hu Hl HL =>
    conj (asm_from_bytes_eq c Hc Hu s l Hl HL) (asm_from_repr_eq c Hc Hu s l Hl HL)).
Qed.
Print Assumptions C51_decode.
Theorem C51_integers : forall c s, odd_conf c -> uses_asm c = true ->
  (forall v, 0 <= v < 2 ^ 64 -> asm_from_u64 c s v = Some (from_u64 c v)) /\
  (forall v, 0 <= v < 2 ^ 128 -> asm_from_u128 c s v = Some (from_u128 c v)) /\
  (forall l, is_bytes l -> (length l <= 2 * size c)%nat ->
     asm_from_uniform_bytes c s l = Some (from_uniform_bytes c l)).
Proof.
  exact (fun c s Hc Hu => conj (asm_from_u64_eq c Hc Hu s)
    (conj (asm_from_u128_eq c Hc Hu s) (asm_from_uniform_bytes_eq c Hc Hu s))).
Qed.
Print Assumptions C51_integers.

(** Non-vacuity: the largest elements of bls12381 Fr, registers and flags
    filled with rubbish. *)
Definition rubbish : cpu := mkcpu (W - 1) 7 (W - 3) 5 (W - 1) 1 2 3 (W - 1) 4 9 None (Some 1) None.
Example C51_example :
  let c := bls12381_fr in
  let a := big_to_limbs (modulus c - 1) 4 in
  let b := big_to_limbs (modulus c - 2) 4 in
  uses_asm c = true /\ asm_mul c rubbish a b = Some (fe_mul c a b) /\
  asm_add c rubbish a b = Some (big_to_limbs (modulus c - 3) 4) /\
  asm_sub c rubbish b a = Some (big_to_limbs (modulus c - 1) 4) /\
  asm_neg c rubbish a = Some [1; 0; 0; 0] /\
  asm_from_mont c rubbish (fe_one c) = Some [1; 0; 0; 0].
Proof. vm_compute. repeat split. Qed.

(** Without the hypothesis that the element is reduced the two builds differ.
    [from_raw_bytes_unchecked] hands out such elements.  The product
    loses a carry when the first factor is not reduced; [from_mont] returns p
    for p where the portable code returns 0. *)
Theorem C51_mul_unreduced_refuted : let c := bls12381_fr in
  exists a b, words a /\ length a = 4%nat /\ canonical (num_limbs c) (modulus c) b /\
    asm_mul c rubbish a b <> Some (fe_mul c a b).
Proof.
  exists [W - 1; W - 1; W - 1; W - 1], (big_to_limbs (modulus bls12381_fr - 12345) 4).
  split; [repeat constructor; vm_compute; congruence|]. split; [reflexivity|]. split.
  - split; [vm_compute; reflexivity|]. split; [repeat constructor; vm_compute; congruence|].
    vm_compute. reflexivity.
  - vm_compute. congruence.
Qed.
Print Assumptions C51_mul_unreduced_refuted.
Theorem C51_from_mont_unreduced_refuted : let c := bls12381_fr in
  asm_from_mont c rubbish (modulus_limbs c) = Some (modulus_limbs c) /\
  fe_from_mont c (modulus_limbs c) = [0; 0; 0; 0].
Proof. split; vm_compute; reflexivity. Qed.
Print Assumptions C51_from_mont_unreduced_refuted.
