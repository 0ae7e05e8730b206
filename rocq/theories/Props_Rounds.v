(** C67: how long the inverter runs.  The loop of ff_ext/inverse.rs:410-415 has no counter, it ends when [g] becomes
    zero; [by_invert] of Inverse.v grants it more rounds than any machine can make.  Here is how many it makes. *)
From Verif Require Import Base Word Limbs SpecField LimbsFacts Field FieldFacts Inverse InverseFacts ConvertFacts Divstep InvertFacts DivstepBound InvertRounds
  Params PrimeField LimbField Props_Field Props_Field2.
Local Open Scope Z_scope.

(** The division steps themselves: from odd [f] and any [g], both up to [M], they reach [g = 0] within [n] steps
    as soon as (3/2)^n exceeds 4M^2. *)
Theorem C67_divsteps : forall n f g M, Z.odd f = true -> 0 <= f <= M -> 0 <= g <= M ->
  2 ^ Z.of_nat n * (4 * (M * M)) < 3 ^ Z.of_nat n ->
  dg (divsteps n (mk_dst 1 f g)) = 0.
Proof. exact divsteps_done. Qed.
Print Assumptions C67_divsteps.

(** An odd number of 256 bits and one below it: still at work after 500 steps, done after 741 by the analysis of
    Bernstein and Yang, after 879 by the theorem. *)
Example C67_divsteps_ex :
  let f := 2 ^ 256 - 189 in let g := 2 ^ 255 + 12345 in
  (Z.odd f = true /\ 0 <= f <= 2 ^ 256 /\ 0 <= g <= 2 ^ 256) /\
  2 ^ Z.of_nat 879 * (4 * (2 ^ 256 * 2 ^ 256)) < 3 ^ Z.of_nat 879 /\
  dg (divsteps 500 (mk_dst 1 f g)) <> 0 /\ dg (divsteps 879 (mk_dst 1 f g)) = 0.
Proof. vm_compute. intuition discriminate. Qed.

(** The inverter for any odd modulus: [by_invert_in k] is [by_invert] with the loop cut off after [k] tests of
    its condition, and loses nothing. *)
Theorem C67_inverter : forall k L S m adj value,
  (1 <= L)%nat -> words m -> words adj -> words value ->
  1 < eval m -> Z.odd (eval m) = true -> eval m < 2 ^ (62 * Z.of_nat L - 64) ->
  eval value < 2 ^ (62 * Z.of_nat L - 64) -> eval adj < eval m -> eval m <= W ^ Z.of_nat S ->
  62 * Z.of_nat L + 64 <= 2 ^ 62 ->
  2 ^ Z.of_nat (62 * k) * (4 * (Z.max (eval m) (eval value) * Z.max (eval m) (eval value))) < 3 ^ Z.of_nat (62 * k) ->
  by_invert_in (k + 1) L S (by_new L m adj) value = by_invert L S (by_new L m adj) value.
Proof.
  intros k L S m adj value H1 H2 H3 H4 H5 H6 H7 H8 H9 H10 H11. rewrite <- B62_pow in H11.
  exact (by_invert_rounds k L S m adj value H1 H2 H3 H4 H5 H6 H7 H8 H9 H10 H11).
Qed.
Print Assumptions C67_inverter.

(** The inverse of the fields, with the calls of [jump] counted. *)
Definition fe_invert_in (k : nat) (c : fconf) (a : list Z) : run (option (list Z)) :=
  match by_inverter_constant c with
  | Some L => by_invert_in (k + 1) (Z.to_nat L) (num_limbs c) (by_new (Z.to_nat L) (modulus_limbs c) (R2 c)) a
  | None => Diverged
  end.
Definition jumps (c : fconf) : nat :=
  if modulus c <? 2 ^ 256 then 15%nat else if modulus c <? 2 ^ 381 then 22%nat else 25%nat.

Lemma jumps_enough : forall c, In c all_fields ->
  2 ^ Z.of_nat (62 * jumps c) * (4 * (modulus c * modulus c)) < 3 ^ Z.of_nat (62 * jumps c).
Proof.
  assert (A : forallb (fun c => 2 ^ Z.of_nat (62 * jumps c) * (4 * (modulus c * modulus c)) <? 3 ^ Z.of_nat (62 * jumps c)) all_fields = true)
    by (vm_compute; reflexivity).
  intros c Hc. rewrite forallb_forall in A. apply Z.ltb_lt, A, Hc.
Qed.
Theorem C67_crate : forall c a x, In c all_fields -> represents (num_limbs c) (modulus c) a x ->
  fe_invert_in (jumps c) c a = fe_invert c a /\ fe_invert_in (jumps c) c a <> Diverged.
Proof.
  intros c a x H Ha. pose proof (field_odd c H) as Hc. pose proof (field_sized c H) as Hs.
  pose proof (jumps_enough c H) as J. set (k := jumps c) in *.
  assert (E : fe_invert_in k c a = fe_invert c a).
  { unfold fe_invert_in, fe_invert. destruct (by_constant_spec c Hc) as (L & -> & HL & HB).
    destruct (modulus_limbs_spec c Hc) as (M1 & M2 & M3).
    pose proof (p_gt1 c Hc) as P1. pose proof (p_lt_R c Hc) as PR.
    assert (Hr2 : 0 <= r2 c < modulus c) by (apply Z.mod_pos_bound; lia).
    destruct (token_canon c Hc (r2 c) Hr2) as [(R1 & R2' & R3) R4]. fold (R2 c) in *.
    destruct Ha as ((A1 & A2 & A3) & A4 & A5).
    pose proof (by_invert_rounds k (Z.to_nat L) (num_limbs c) (modulus_limbs c) (R2 c) a ltac:(lia) M2 R2' A2) as HI.
    rewrite M3, R4, Z2Nat.id in HI by lia.
    unfold sized in Hs.
    apply HI; [exact P1|exact (proj2 Hc)|exact HB|lia|exact (proj2 Hr2)|lia|exact (sized_bound L _ HL ltac:(lia))|].
    rewrite Z.max_l by lia. exact J. }
  split; [exact E|]. rewrite E. pose proof (fe_invert_spec c Hc Hs a x Ha) as SP. intros D. now rewrite D in SP.
Qed.
Print Assumptions C67_crate.

(** Nine calls are needed for 5 in a field of 254 bits and fifteen for 7 in one of 446 bits, so bounds below that
    would be wrong. *)
Example C67_crate_ex :
  fe_invert_in 8 bn256_fq (mont_of bn256_fq 5) = Diverged /\
  fe_invert_in 14 pluto_eris_fp (mont_of pluto_eris_fp 7) = Diverged /\
  jumps bn256_fq = 15%nat /\ jumps secp256k1_fp = 15%nat /\ jumps bls12381_fq = 22%nat /\ jumps pluto_eris_fp = 25%nat /\
  (forall c, In c all_fields -> (jumps c <= 25)%nat).
Proof.
  split; [vm_compute; reflexivity|]. split; [vm_compute; reflexivity|].
  split; [reflexivity|]. split; [reflexivity|]. split; [reflexivity|]. split; [reflexivity|].
  intros c _. unfold jumps. destruct (_ <? _); [lia|]. destruct (_ <? _); lia.
Qed.
