(** Model of the branch-free selection and comparison functions ([ConditionallySelectable],
    [ConstantTimeEq]).  Elsewhere in the model a selection is [if] ([select], Curve.v, and [fe_select], Field.v)
    and a comparison [=?] on limbs ([fe_eqb], Field.v); here are the mask operations behind them. *)
From Verif Require Import Base Word Field Algebra Tower Curve.
Local Open Scope Z_scope.

(** [u64::conditional_select] and [u64::ct_eq] of the crate subtle, from its documentation and
    source as published: [a ^ (mask & (a ^ b))] with [mask = -(choice as i64) as u64], and
    [(((x | x.wrapping_neg()) >> 63) ^ 1) as u8] with [x = a ^ b]. *)
Definition word_mask (choice : bool) : Z := (- Z.b2z choice) mod W.
Definition word_select (a b : Z) (choice : bool) : Z := Z.lxor a (Z.land (word_mask choice) (Z.lxor a b)).
Definition word_ct_eq (a b : Z) : bool :=
  let x := Z.lxor a b in Z.lxor (Z.shiftr (Z.lor x ((- x) mod W)) 63) 1 =? 1.

(** derive/src/field/mod.rs:242-251 *)
Definition limbs_select (num_limbs : nat) (a b : list Z) (choice : bool) : list Z :=
  map (fun i => word_select (nth i a 0) (nth i b 0) choice) (seq 0 num_limbs).
(** derive/src/field/mod.rs:231-240 *)
Definition limbs_ct_eq (a b : list Z) : bool := forallb (fun ab => word_ct_eq (fst ab) (snd ab)) (combine a b).

Section Structures.
Context {F : Type} (sel : F -> F -> bool -> F) (ct_eq : F -> F -> bool).
(** ff_ext/quadratic.rs:327-340 *)
Definition quad_select (a b : quad F) (choice : bool) : quad F := mk_quad (sel (q0 a) (q0 b) choice) (sel (q1 a) (q1 b) choice).
Definition quad_ct_eq (a b : quad F) : bool := ct_eq (q0 a) (q0 b) && ct_eq (q1 a) (q1 b).
(** ff_ext/cubic.rs:239-253 *)
Definition cubic_select (a b : cubic F) (choice : bool) : cubic F :=
  mk_cubic (sel (k0 a) (k0 b) choice) (sel (k1 a) (k1 b) choice) (sel (k2 a) (k2 b) choice).
Definition cubic_ct_eq (a b : cubic F) : bool := ct_eq (k0 a) (k0 b) && ct_eq (k1 a) (k1 b) && ct_eq (k2 a) (k2 b).
(** derive/curve.rs:382-390 *)
Definition proj_select (a b : proj F) (choice : bool) : proj F :=
  mk_proj (sel (px a) (px b) choice) (sel (py a) (py b) choice) (sel (pz a) (pz b) choice).
(** derive/curve.rs:706-713 *)
Definition aff_select (a b : aff F) (choice : bool) : aff F := mk_aff (sel (ax a) (ax b) choice) (sel (ay a) (ay b) choice).
End Structures.
(** derive/pairing.rs:131-141: [Gt] wraps an element of the field of degree 12 and passes both on. *)
Definition gt_select {F} (sel : F -> F -> bool -> F) : F -> F -> bool -> F := sel.
Definition gt_ct_eq {F} (ct_eq : F -> F -> bool) : F -> F -> bool := ct_eq.
