(** C68: how long the Legendre symbol takes.  The outer loop of ff_ext/jacobi.rs:343-416 has no counter; [jacobi]
    of Jacobi.v grants it 2^(2L+16) rounds.  Here is a bound linear in the number of bits.  The approximations
    of the arguments may be as coarse as one bit (C07_approximate_doc_refuted), so a round is sure of one bit
    only; still the product of the arguments grows by at most five bits in a round, and loses 29 when the larger
    one does not lose any. *)
From Verif Require Import Base Word Limbs SpecField LimbsFacts Field FieldFacts Inverse InverseFacts ConvertFacts InvertRounds
  SpecJacobi JacSymFacts Jacobi JacobiLint JacobiInner JacobiProg JacobiFacts JacobiLoop JacobiField Params PrimeField LimbField Props_Field Props_Field2.
Local Open Scope Z_scope.

(** [jacobi] with the loop cut off after [k] rounds. *)
Definition jacobi_in (k L : nat) (n d : list Z) : jac_out :=
  match lint_new L n, lint_new L d with
  | Some n, Some d => match rounds k (jac_step L) (n, d, 0) with inr r => r | inl _ => JDiverged end
  | _, _ => JPanic
  end.

Lemma rounds_measure {S R} (step : S -> S + R) (Inv : S -> Prop) (mu : S -> Z) lo c :
  (forall s, Inv s -> (exists r, step s = inr r) \/ (exists s', step s = inl s' /\ Inv s' /\ mu s' + c <= mu s /\ lo <= mu s)) ->
  forall k s, Inv s -> mu s < lo + c * Z.of_nat k -> exists r, rounds (k + 1) step s = inr r.
Proof.
  intros H. induction k as [|k IH]; intros s I M.
  - cbn [Nat.add rounds]. destruct (H s I) as [(r & ->)|(s' & _ & _ & _ & L)]; [eauto|lia].
  - cbn [Nat.add rounds]. destruct (H s I) as [(r & ->)|(s' & -> & I' & D & _)]; [eauto|]. apply IH; [exact I'|lia].
Qed.

(** Any two arguments of [b] bits that the function accepts. *)
Theorem C68_jacobi : forall b k L n d, (1 <= L)%nat -> words n -> words d -> (length n <= L)%nat -> (length d <= L)%nat ->
  eval n < 2 ^ (64 * Z.of_nat L - 31) -> eval d < 2 ^ (64 * Z.of_nat L - 31) -> Z.odd (eval d) = true ->
  (1 <= b)%nat -> eval n < 2 ^ Z.of_nat b -> eval d < 2 ^ Z.of_nat b ->
  36 * Z.of_nat b < 2211 + 29 * Z.of_nat k ->
  jacobi_in (k + 1) L n d = jacobi L n d.
Proof.
  intros b k L n d HL Wn' Wd' Ln Ld Bn Bd Od Hb Nb Db HK.
  assert (EJ : jo_lim L = 2 ^ (64 * Z.of_nat L - 31)).
  { unfold jo_lim. rewrite Wn_pow2, <- Z.pow_sub_r by lia. reflexivity. }
  rewrite <- EJ in Bn, Bd.
  pose proof (jacobi_spec L n d HL Wn' Wd' Ln Ld Bn Bd Od) as SP. unfold jacobi_in, jacobi in *.
  pose proof (lint_new_spec L n Wn') as X. pose proof (lint_new_spec L d Wd') as Y.
  destruct (lint_new L n) as [x|]; [destruct X as (_ & Lx & Ex)|lia].
  destruct (lint_new L d) as [y|]; [destruct Y as (_ & Ly & Ey)|lia].
  destruct (jo_lim_spec L HL) as [EL PL].
  pose proof (eval_bound n Wn') as [N0 _]. pose proof (eval_bound d Wd') as [D0 _].
  assert (ND : eval d <> 0) by (intros E; rewrite E in Od; discriminate).
  destruct (rounds_measure (jac_step L) (jo_inv L (jacobi_symbol (eval n) (eval d))) jo_mu 2176 29) with (k := k) (s := (x, y, 0))
    as (r & R).
  - intros s I. destruct (jac_step_spec L _ s HL I) as [(r & E & _)|(s' & E & I' & _ & P2 & P3)]; [left; eauto|right; eauto 6].
  - exists (eval n), (eval d). split; [exact Lx|]. split; [exact Ly|].
    split; [lia|]. split; [lia|]. split; [exact Od|]. unfold jm. rewrite Z.abs_eq by exact D0.
    change (sgn_of (Z.testbit 0 1)) with 1. ring.
  - pose proof (jo_mu_bits b x y 0 Hb) as MU. rewrite Ex, Ey in MU. specialize (MU (conj N0 Nb) (conj D0 Db)). lia.
  - rewrite R. rewrite run_until_rounds in SP |- *.
    destruct (rounds (2 ^ (2 * L + 16)) (jac_step L) (x, y, 0)) as [s2|r2] eqn:R2; [discriminate|].
    exact (rounds_same _ _ _ _ _ _ R R2).
Qed.
Print Assumptions C68_jacobi.

(** [legendre] of the fields. *)
Definition fe_legendre_in (k : nat) (c : fconf) (a : list Z) : jac_out :=
  match jacobi_constant c with
  | None => JDiverged
  | Some L => jacobi_in k (Z.to_nat L) a (modulus_limbs c)
  end.
Definition legendre_rounds (c : fconf) : nat :=
  if modulus c <? 2 ^ 256 then 243%nat else if modulus c <? 2 ^ 381 then 398%nat else 479%nat.
Lemma legendre_bits : forall c, In c all_fields ->
  exists b k, (1 <= b)%nat /\ modulus c < 2 ^ Z.of_nat b /\ 36 * Z.of_nat b < 2211 + 29 * Z.of_nat k /\ legendre_rounds c = (k + 1)%nat.
Proof.
  assert (A : forallb (fun c => existsb (fun '(b, k) => (modulus c <? 2 ^ Z.of_nat b) && (36 * Z.of_nat b <? 2211 + 29 * Z.of_nat k)
      && Nat.leb 1 b && Nat.eqb (legendre_rounds c) (k + 1)) [(256, 242); (381, 397); (446, 478)]%nat) all_fields = true)
    by (vm_compute; reflexivity).
  intros c Hc. rewrite forallb_forall in A. specialize (A c Hc). apply existsb_exists in A as ([b k] & _ & E).
  apply andb_prop in E as [E E4]. apply andb_prop in E as [E E3]. apply andb_prop in E as [E1 E2]. exists b, k.
  split; [now apply Nat.leb_le|]. split; [now apply Z.ltb_lt|]. split; [now apply Z.ltb_lt|now apply Nat.eqb_eq].
Qed.
Theorem C68_crate : forall c a x, In c all_fields -> represents (num_limbs c) (modulus c) a x ->
  fe_legendre_in (legendre_rounds c) c a = fe_legendre c a /\ fe_legendre_in (legendre_rounds c) c a <> JDiverged.
Proof.
  intros c a x H Ha. pose proof (field_odd c H) as Hc. pose proof Ha as ((A1 & A2 & A3) & _).
  destruct (legendre_bits c H) as (b & k & B1 & B2 & B3 & ->).
  assert (E : fe_legendre_in (k + 1) c a = fe_legendre c a).
  { unfold fe_legendre_in, fe_legendre. destruct (jacobi_constant_spec c Hc) as (L & -> & HL & HB).
    destruct (modulus_limbs_spec c Hc) as (M1 & M2 & M3). pose proof (num_limbs_pos c Hc) as Hn.
    apply (C68_jacobi b); rewrite ?M3, ?Z2Nat.id by lia; try assumption; try lia. apply Hc. }
  split; [exact E|]. rewrite E, (fe_legendre_symbol c a x Hc Ha). discriminate.
Qed.
Print Assumptions C68_crate.

(** Thirteen rounds do not suffice for 5 in a field of 254 bits, nor 26 for 7 in one of 446 bits. *)
Example C68_crate_ex :
  fe_legendre_in 13 bn256_fq (mont_of bn256_fq 5) = JDiverged /\ fe_legendre_in 15 bn256_fq (mont_of bn256_fq 5) = JVal (-1) /\
  fe_legendre_in 26 pluto_eris_fp (mont_of pluto_eris_fp 7) = JDiverged /\
  legendre_rounds bn256_fq = 243%nat /\ legendre_rounds bls12381_fq = 398%nat /\ legendre_rounds pluto_eris_fp = 479%nat /\
  (forall c, In c all_fields -> (legendre_rounds c <= 479)%nat).
Proof.
  split; [vm_compute; reflexivity|]. split; [vm_compute; reflexivity|]. split; [vm_compute; reflexivity|].
  split; [vm_compute; reflexivity|]. split; [vm_compute; reflexivity|]. split; [vm_compute; reflexivity|].
  intros c _. unfold legendre_rounds. destruct (_ <? _); [lia|]. destruct (_ <? _); lia.
Qed.
