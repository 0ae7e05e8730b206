(** Field operations as a record, and the algebraic laws used as hypotheses.

    The generic code of the crate (towers, curves, MSM, FFT, pairings) is
    written against the traits [ff::Field] / [ExtField]; the models of that
    code take this record in place of the trait.  Options stand for [CtOption]. *)
From Verif Require Import Base.
From Coq Require Export Ring_theory Field_theory Ring Field.

(** The part of trait [ff::Field] (crate ff, external) used by the generic code:
    [invert] is [finv], [is_zero] is [fis0], [PartialEq] is [feqb]. *)
Record fops (F : Type) := mk_fops {
  f0 : F; f1 : F;
  fadd : F -> F -> F; fsub : F -> F -> F; fmul : F -> F -> F;
  fneg : F -> F; fsqr : F -> F; fdbl : F -> F;
  finv : F -> option F;
  feqb : F -> F -> bool; fis0 : F -> bool }.
Arguments f0 {F}. Arguments f1 {F}. Arguments fadd {F}. Arguments fsub {F}.
Arguments fmul {F}. Arguments fneg {F}. Arguments fsqr {F}. Arguments fdbl {F}.
Arguments finv {F}. Arguments feqb {F}. Arguments fis0 {F}.

(** The laws of a (commutative) ring for the operations of the record. *)
Record ring_laws {F : Type} (o : fops F) : Prop := {
  rl_ring : ring_theory (f0 o) (f1 o) (fadd o) (fmul o) (fsub o) (fneg o) (@eq F);
  rl_sqr : forall a, fsqr o a = fmul o a a;
  rl_dbl : forall a, fdbl o a = fadd o a a }.

(** Field laws: non-zero elements are exactly those [finv] inverts. *)
Record field_laws {F : Type} (o : fops F) : Prop := {
  fl_rl : ring_laws o;
  fl_1_0 : f1 o <> f0 o;
  fl_inv0 : finv o (f0 o) = None;
  fl_inv : forall a, a <> f0 o -> exists b, finv o a = Some b /\ fmul o a b = f1 o;
  fl_eqb : forall a b, feqb o a b = true <-> a = b }.
Definition is0_law {F : Type} (o : fops F) : Prop := forall a, fis0 o a = true <-> a = f0 o.

(** [x^k] and [k * x], the mathematical meaning of [pow] and repeated addition. *)
Fixpoint fpow_nat {F} (o : fops F) (x : F) (k : nat) : F :=
  match k with O => f1 o | S k' => fmul o x (fpow_nat o x k') end.

(** [ff::Field::pow] / [pow_vartime] (crate ff 0.13, external, modelled from its
    documentation): square-and-multiply from the most significant bit.  The
    exponent is given by its bits, most significant first. *)
Fixpoint fpow_bits {F} (o : fops F) (x acc : F) (bits : list bool) : F :=
  match bits with
  | [] => acc
  | b :: bits' =>
      let acc := fsqr o acc in
      fpow_bits o x (if b then fmul o acc x else acc) bits'
  end.
(** Bits of a limb array, most significant first. *)
Definition limbs_bits_be (limbs : list Z) : list bool :=
  flat_map (fun w => map (fun i => Z.testbit w (Z.of_nat i)) (rev (seq 0 64))) (rev limbs).
Definition fpow {F} (o : fops F) (x : F) (limbs : list Z) : F :=
  fpow_bits o x (f1 o) (limbs_bits_be limbs).
