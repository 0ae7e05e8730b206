(** Property theorems C58: the build with overflow checks and debug assertions.

    [x_d] (Debug.v) is the function [x] as the [dev] profile compiles it; a result
    [None] (or [JPanic]) is a panic. *)
From Verif Require Import Msm Base Word Limbs Bytes SpecField BytesFacts LimbsFacts Field FieldFacts Params Inverse.
From Verif Require Import InvertFacts LimbField SpecJacobi Jacobi JacobiFacts JacobiLint JacobiLoop JacobiField Debug DebugFacts DebugJacobi.
From Verif Require Import InverseFacts Props_Field Props_Field2 Props_Jacobi.

(** ** src/arithmetic.rs *)
Theorem C58_words : forall a b c k, 0 <= a < 2 ^ 64 -> 0 <= b < 2 ^ 64 -> 0 <= c < 2 ^ 64 -> 0 <= k < 2 ^ 64 ->
  adc_d a b c = Some (adc a b c) /\ sbb_d a b c = Some (sbb a b c) /\
  mac_d a b c k = Some (mac a b c k) /\ macx_d a b c = Some (macx a b c).
Proof.
  rewrite <- W_pow. intros a b c k Ha Hb Hc Hk.
  split; [now apply adc_d_ok|]. split; [now apply sbb_d_ok|]. split; [now apply mac_d_ok|now apply macx_d_ok].
Qed.
Print Assumptions C58_words.

(** ** src/ff_ext/inverse.rs *)
Theorem C58_inverter : forall L S m adj value,
  (1 <= L)%nat -> words m -> words adj -> words value ->
  1 < eval m -> Z.odd (eval m) = true -> eval m < 2 ^ (62 * Z.of_nat L - 64) ->
  eval value < 2 ^ (62 * Z.of_nat L - 64) -> eval adj < eval m ->
  62 * Z.of_nat L + 64 <= 2 ^ 62 ->
  by_new_d L m adj = Some (by_new L m adj) /\
  by_invert_d L S (by_new L m adj) value = Some (by_invert L S (by_new L m adj) value).
Proof. exact by_invert_d_ok. Qed.
Print Assumptions C58_inverter.
Lemma fe_invert_d_ok c a x : odd_conf c -> sized c -> represents (num_limbs c) (modulus c) a x ->
  fe_invert_d c a = Some (fe_invert c a).
Proof.
  intros Hc Hs Ha. unfold fe_invert_d, fe_invert.
  destruct (by_constant_spec c Hc) as (L & -> & HL & HB).
  destruct (modulus_limbs_spec c Hc) as (M1 & M2 & M3).
  pose proof (p_gt1 c Hc) as P1.
  assert (Hr2 : 0 <= r2 c < modulus c) by (apply Z.mod_pos_bound; lia).
  destruct (token_canon c Hc (r2 c) Hr2) as [(R1 & R2' & R3) R4]. fold (R2 c) in *.
  destruct Ha as ((A1 & A2 & A3) & _).
  pose proof (by_invert_d_ok (Z.to_nat L) (num_limbs c) (modulus_limbs c) (R2 c) a ltac:(lia) M2 R2' A2) as HI.
  rewrite M3, R4, Z2Nat.id in HI by lia.
  unfold sized in Hs.
  destruct (HI P1 (proj2 Hc) HB ltac:(lia) (proj2 Hr2) (sized_bound L (Z.of_nat (num_limbs c)) HL ltac:(lia))) as [-> E].
  exact E.
Qed.
(** Field inversion, for each field of the crate: it does not panic, and C06 holds. *)
Theorem C58_invert : forall c a x, In c all_fields -> represents (num_limbs c) (modulus c) a x ->
  (x = 0 -> fe_invert_d c a = Some (Done None)) /\
  (x <> 0 -> exists i y, fe_invert_d c a = Some (Done (Some i)) /\
     represents (num_limbs c) (modulus c) i y /\ (x * y) mod modulus c = 1).
Proof.
  intros c a x H R. rewrite (fe_invert_d_ok c a x (field_odd c H) (field_sized c H) R).
  destruct (C06_crate c a x H R) as [A B]. split.
  - intros E. now rewrite (A E).
  - intros E. destruct (B E) as (i & y & E1 & B1). exists i, y. split; [now rewrite E1|exact B1].
Qed.
Print Assumptions C58_invert.
(** [Sub] and [Mul] of [CInt], which nothing in the crate calls: they do not panic and
    compute modulo [2^(62 L)]. *)
Theorem C58_cint : forall L a b, length a = L -> length b = L ->
  Forall (fun x => 0 <= x < 2 ^ 62) a -> Forall (fun x => 0 <= x < 2 ^ 62) b ->
  (exists r, cint_sub_d a b = Some r /\ length r = L /\ Forall (fun x => 0 <= x < 2 ^ 62) r /\
     ceval r = (ceval a - ceval b) mod 2 ^ (62 * Z.of_nat L)) /\
  (exists r, cint_mul_d a b = Some r /\ length r = L /\ Forall (fun x => 0 <= x < 2 ^ 62) r /\
     ceval r = (ceval a * ceval b) mod 2 ^ (62 * Z.of_nat L)).
Proof.
  intros L a b La Lb Ha Hb.
  assert (ET : T L = 2 ^ (62 * Z.of_nat L)) by apply T_pow.
  assert (CIN : forall z, length z = L -> Forall (fun x => 0 <= x < 2 ^ 62) z -> cin L z (ceval z)).
  { intros z Lz Hz. split; [exact Lz|]. split; [exact Hz|]. symmetry. apply Z.mod_small. rewrite <- Lz. now apply ceval_bound. }
  split.
  - destruct (cint_sub_d_spec L a b _ _ (CIN a La Ha) (CIN b Lb Hb)) as (r & E & R1 & R2 & R3).
    exists r. rewrite <- ET. auto.
  - destruct (cint_mul_d_spec L a b _ _ (CIN a La Ha) (CIN b Lb Hb)) as (r & E & R1 & R2 & R3).
    exists r. rewrite <- ET. auto.
Qed.
Print Assumptions C58_cint.

(** ** src/ff_ext/jacobi.rs *)
Theorem C58_jacobi : forall L n d, (1 <= L)%nat -> words n -> words d -> (length n <= L)%nat -> (length d <= L)%nat ->
  eval n < 2 ^ (64 * Z.of_nat L - 31) -> eval d < 2 ^ (64 * Z.of_nat L - 31) -> Z.odd (eval d) = true ->
  jacobi_d L n d = JVal (jacobi_symbol (eval n) (eval d)).
Proof.
  intros L n d HL Wn' Wd Ln Ld Bn Bd Od. rewrite <- (C07_jacobi L n d HL Wn' Wd Ln Ld Bn Bd Od).
  assert (EJ : jo_lim L = 2 ^ (64 * Z.of_nat L - 31)).
  { unfold jo_lim. rewrite Wn_pow2, <- Z.pow_sub_r by lia. reflexivity. }
  rewrite <- EJ in Bn, Bd. exact (jacobi_d_ok L n d HL Wn' Wd Ln Ld Bn Bd Od).
Qed.
Print Assumptions C58_jacobi.
Theorem C58_legendre : forall c a x, In c all_fields -> represents (num_limbs c) (modulus c) a x ->
  (x = 0 -> fe_legendre_d c a = JVal 0) /\
  (x <> 0 -> (exists y, (y * y) mod modulus c = x) -> fe_legendre_d c a = JVal 1) /\
  (x <> 0 -> (forall y, (y * y) mod modulus c <> x) -> fe_legendre_d c a = JVal (-1)).
Proof.
  intros c a x H R. pose proof (C07_crate c a x H R) as C.
  replace (fe_legendre_d c a) with (fe_legendre c a); [exact C|]. clear C.
  pose proof (field_odd c H) as Hc. destruct R as ((A1 & A2 & A3) & _).
  unfold fe_legendre, fe_legendre_d. destruct (jacobi_constant_spec c Hc) as (L & -> & HL & HB).
  destruct (modulus_limbs_spec c Hc) as (M1 & M2 & M3). pose proof (num_limbs_pos c Hc) as Hn.
  assert (EJ : jo_lim (Z.to_nat L) = 2 ^ (64 * L - 31)).
  { unfold jo_lim. rewrite Wn_pow2, Z2Nat.id by lia. rewrite <- Z.pow_sub_r by lia. reflexivity. }
  symmetry. apply jacobi_d_ok; rewrite ?M3; try assumption; try lia. apply Hc.
Qed.
Print Assumptions C58_legendre.
(** The two requirements that the debug assertions of [jacobi] state are needed: with an
    even second argument, or with a value that uses the top 31 bits, the debug build
    panics while the release build returns a value. *)
Theorem C58_jacobi_preconditions :
  jacobi_d 4 [3; 0; 0; 0] [4; 0; 0; 0] = JPanic /\ jacobi 4 [3; 0; 0; 0] [4; 0; 0; 0] = JVal 0 /\
  jacobi_d 1 [2 ^ 40] [3] = JPanic /\ jacobi 1 [2 ^ 40] [3] = JVal 1.
Proof. repeat (split; [vm_compute; reflexivity|]). vm_compute; reflexivity. Qed.
Print Assumptions C58_jacobi_preconditions.

(** [approximate]: the assertions hold for exactly the arguments that its documentation allows,
    non-negative and not both zero. *)
Lemma lin_signed L a : length a = L -> words a ->
  exists v, lin L a v /\ lrange L v /\ ((v < 0) <-> 2 ^ (64 * Z.of_nat L) <= 2 * eval a) /\ (v = 0 <-> eval a = 0).
Proof.
  intros La Wa. pose proof (eval_bound a Wa) as B. rewrite La in B. rewrite <- Wn_pow2. pose proof (Wn_pos L) as P.
  destruct (Z.lt_ge_cases (2 * eval a) (Wn L)) as [C|C].
  - exists (eval a). split; [split; [exact La|]; split; [exact Wa|]; now rewrite Z.mod_small|]. unfold lrange. lia.
  - exists (eval a - Wn L). split.
    + split; [exact La|]. split; [exact Wa|]. apply (Z.mod_unique_pos _ _ (-1)); lia.
    + unfold lrange. lia.
Qed.
Theorem C58_approximate : forall L x y, (1 <= L)%nat -> length x = L -> length y = L -> words x -> words y ->
  let low v := 2 * v < 2 ^ (64 * Z.of_nat L) in
  (low (eval x) -> low (eval y) -> eval x <> 0 \/ eval y <> 0 ->
     approximate_d L x y = approximate L x y /\ approximate_d L x y <> None) /\
  (~ low (eval x) \/ ~ low (eval y) \/ (eval x = 0 /\ eval y = 0) -> approximate_d L x y = None).
Proof.
  intros L x y HL Lx Ly Wx Wy low. unfold low.
  destruct (lin_signed L x Lx Wx) as (n & Nx & Rn & Sn & Zn). destruct (lin_signed L y Ly Wy) as (d & Dy & Rd & Sd & Zd).
  assert (R0 : lrange L 0) by (unfold lrange; pose proof (Wn_pos L); lia).
  unfold approximate_d. rewrite (lin_is_negative L x n HL Nx Rn), (lin_is_negative L y d HL Dy Rd).
  rewrite (lin_eqb L x _ n 0 Nx (lin_zero L) Rn R0), (lin_eqb L y _ d 0 Dy (lin_zero L) Rd R0). split.
  - intros Bx By NZ. rewrite (proj2 (Z.ltb_ge n 0)) by lia. rewrite (proj2 (Z.ltb_ge d 0)) by lia.
    assert (E : negb (n =? 0) || negb (d =? 0) = true).
    { destruct (Z.eqb_spec n 0), (Z.eqb_spec d 0); try reflexivity. lia. }
    cbn [orb negb assertd obind]. rewrite E. cbn [assertd obind].
    pose proof (approximate_spec L x y HL Lx Ly Wx Wy) as A. unfold approximate in *. pose proof (approx_top_spec x y (L - 1)) as T.
    destruct (approx_top x y (L - 1)) as [[|i]|]; [split; [reflexivity|discriminate]| |destruct A; lia]. cbn [obind]. clear A.
    destruct T as (_ & T & _).
    destruct (clz64_spec _ (nth_word x (S i) Wx)) as (X0 & _ & X2). destruct (clz64_spec _ (nth_word y (S i) Wy)) as (Y0 & _ & Y2).
    rewrite shc_ok; [split; [reflexivity|discriminate]|].
    destruct T as [T|T]; [destruct (X2 T)|destruct (Y2 T)]; lia.
  - intros C. destruct (Z.ltb_spec n 0) as [N1|N1]; [reflexivity|]. destruct (Z.ltb_spec d 0) as [D1|D1]; [reflexivity|].
    assert (n = 0) as -> by lia. assert (d = 0) as -> by lia. reflexivity.
Qed.
Print Assumptions C58_approximate.
Example ex_C58_approximate : approximate_d 2 [5; 0] [0; 0] = Some (5, 0, true) /\ approximate_d 2 [0; 0] [0; 0] = None /\ approximate_d 2 [0; W - 1] [1; 0] = None.
Proof. repeat split; vm_compute; reflexivity. Qed.

(** The right shift of the long integers: the assertion holds for exactly the documented amounts, and then
    nothing overflows. *)
Theorem C58_shr : forall a bits, lint_shr_d a bits = if (0 <? bits) && (bits <? 64) then Some (lint_shr a bits) else None.
Proof.
  intros a bits. unfold lint_shr_d. destruct (Z.ltb_spec 0 bits) as [P|P]; [|reflexivity].
  destruct (Z.ltb_spec bits 64) as [Q|Q]; [|reflexivity]. cbn [andb assertd obind].
  assert (E1 : u32c (64 - bits) = Some (64 - bits)) by (apply ck_ok; lia).
  rewrite E1. cbn [obind]. rewrite !shc_ok by lia. reflexivity.
Qed.
Print Assumptions C58_shr.
Example ex_C58_shr : lint_shr_d [5; W - 1] 1 = Some [2 + 2 ^ 63; W - 1] /\ lint_shr_d [5] 0 = None /\ lint_shr_d [5] 64 = None.
Proof. repeat split; vm_compute; reflexivity. Qed.

(** ** [get_booth_index] of src/msm.rs *)
Theorem C58_booth : forall i ws el, 0 <= i -> 1 <= ws <= 30 -> is_bytes el ->
  get_booth_index_d i ws el = Some (get_booth_index i ws el).
Proof. exact booth_d_ok. Qed.
Print Assumptions C58_booth.
(** With a window of 31 bits the mask [1 << 32] panics. *)
Theorem C58_booth_31 : forall i el, 0 <= i -> get_booth_index_d i 31 el = None.
Proof.
  intros i el Hi. unfold get_booth_index_d. set (skip := Z.max 0 (i * 31 - 1)).
  destruct (u64c _) as [sh|]; [|reflexivity]. cbn [obind]. destruct (shc 32 sh); reflexivity.
Qed.
Print Assumptions C58_booth_31.

(** ** Examples *)
Example C58_example_words : mac_d (W - 1) (W - 1) (W - 1) (W - 1) = Some (W - 1, W - 1) /\
  adc_d (W - 1) (W - 1) 1 = Some (W - 1, 1) /\ sbb_d 0 (W - 1) (W - 1) = Some (0, W - 1).
Proof. repeat (split; [vm_compute; reflexivity|]). vm_compute; reflexivity. Qed.
Example C58_example_invert :
  fe_invert_d bn256_fq (mont_of bn256_fq 2) = Some (Done (Some (TWO_INV bn256_fq))) /\
  fe_invert_d secp256k1_fp (mont_of secp256k1_fp (-1)) = Some (Done (Some (mont_of secp256k1_fp (-1)))) /\
  fe_invert_d pluto_eris_fp (fe_zero pluto_eris_fp) = Some (Done None).
Proof. repeat (split; [vm_compute; reflexivity|]). vm_compute; reflexivity. Qed.
Example C58_example_legendre :
  fe_legendre_d secp256r1_fq (mont_of secp256r1_fq 4) = JVal 1 /\
  fe_legendre_d bn256_fq (mont_of bn256_fq 3) = JVal (-1) /\ jacobi_d 4 [5; 6; 7; 8] [9; 10; 11; 12] = jacobi 4 [5; 6; 7; 8] [9; 10; 11; 12].
Proof. repeat (split; [vm_compute; reflexivity|]). vm_compute; reflexivity. Qed.
Example C58_example_booth : get_booth_index_d 3 7 [255; 254; 253; 252; 251] = Some (-24) /\
  get_booth_index_d 0 30 [255; 255; 255; 63] = Some (-1).
Proof. split; vm_compute; reflexivity. Qed.
