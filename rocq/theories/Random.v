(** Model of the sampling functions: [Field::random] of the generated fields and of their
    extensions, [random] of the curve types and of the target groups.  The random number
    generator is an argument: a state with the two methods of [RngCore] that are called. *)
From Verif Require Import Base Word Bytes Field Algebra Tower Curve FieldFacts LimbField Sqrt2 Serde Pairing.
Local Open Scope Z_scope.

Record rng (St : Type) := mk_rng {
  fill_bytes : nat -> St -> list Z * St;       (** the bytes written, and the new state *)
  next_u32 : St -> Z * St }.
Arguments mk_rng {St}. Arguments fill_bytes {St}. Arguments next_u32 {St}.

Section Fields.
Context {St : Type} (r : rng St).
(** derive/src/field/mod.rs:383-387 *)
Definition fe_random (c : fconf) (s : St) : list Z * St :=
  let '(wide, s) := fill_bytes r (2 * size c) s in (from_uniform_bytes c wide, s).
Definition lf_random (c : fconf) (Hc : odd_conf c) (s : St) : lf c * St :=
  let '(a, s) := fe_random c s in (lf_of (lf0 c Hc) a, s).
(** ff_ext/quadratic.rs:284-286 *)
Definition quad_random {F} (rnd : St -> F * St) (s : St) : quad F * St :=
  let '(c0, s) := rnd s in let '(c1, s) := rnd s in (mk_quad c0 c1, s).
(** ff_ext/cubic.rs:195-201 *)
Definition cubic_random {F} (rnd : St -> F * St) (s : St) : cubic F * St :=
  let '(c0, s) := rnd s in let '(c1, s) := rnd s in let '(c2, s) := rnd s in (mk_cubic c0 c1 c2, s).
(** derive/pairing.rs:245-248, with [$base] the field of degree 12; [None]: the [unwrap] of
    the inversion in [final_exponentiation] panics *)
Definition gt_random {F} (rnd : St -> F * St) (final_exponentiation : F -> option F) (s : St) : option (F * St) :=
  let '(f, s) := rnd s in option_map (fun x => (x, s)) (final_exponentiation f).
End Fields.

(** Result of a loop: [RMore] means that the given number of rounds was not enough. *)
Inductive rnd_out (A : Type) := RRet (a : A) | RPanic | RDiverge | RMore.
Arguments RRet {A}. Arguments RPanic {A}. Arguments RDiverge {A}. Arguments RMore {A}.

Section Points.
Context {St F : Type} (r : rng St) (rnd : St -> F * St) (o : fops F) (c : cconf F) (k : codec F) (clear : proj F -> proj F).
(** derive/curve.rs:319-332, one round of the loop once [x] and [ysign] are drawn *)
Definition random_try (x : F) (ysign : Z) : sq_out (aff F) :=
  match k_sqrt k (curve_y2 o c x) with
  | SqRet (Some y) =>
      let sign := Z.land (hd 0 (k_to_repr k y)) 1 in
      let y := if Z.lxor ysign sign =? 0 then y else fneg o y in
      SqRet (Some (to_affine o (clear (to_curve o (mk_aff x y)))))
  | SqRet None => SqRet None
  | SqPanic => SqPanic
  | SqDiverge => SqDiverge
  end.
(** curve.rs:316-317 *)
Definition random_draw (s : St) : (F * Z) * St :=
  let '(x, s) := rnd s in let '(w, s) := next_u32 r s in ((x, w mod 2), s).
(** curve.rs:314-335 *)
Fixpoint aff_random (rounds : nat) (s : St) : rnd_out (aff F * St) :=
  match rounds with
  | O => RMore
  | S n =>
      let '((x, ysign), s) := random_draw s in
      match random_try x ysign with
      | SqRet (Some P) => RRet (P, s)
      | SqRet None => aff_random n s
      | SqPanic => RPanic
      | SqDiverge => RDiverge
      end
  end.
(** curve.rs:522-524 *)
Definition proj_random (rounds : nat) (s : St) : rnd_out (proj F * St) :=
  match aff_random rounds s with
  | RRet (P, s) => RRet (to_curve o P, s)
  | RPanic => RPanic
  | RDiverge => RDiverge
  | RMore => RMore
  end.
End Points.
