(** Model of [sqrt] of the generated prime fields. *)
From Verif Require Import Base Word Limbs Bytes Field Algebra Inverse.

(** [ff::helpers::sqrt_tonelli_shanks] (crate ff 0.13, external; written down
    from its published source, not part of /repo).  The [u32] counters are
    integers; the constant-time selections are conditionals. *)
Section TonelliShanks.
Context {F : Type} (o : fops F).

(** One iteration [j] of the inner loop on [(k, b2k, z, j_less_than_v)]. *)
Definition ts_inner (v : Z) (st : Z * F * F * bool) (j : Z) : Z * F * F * bool :=
  let '(k, b2k, z, less) := st in
  let is1 := feqb o b2k (f1 o) in
  let squared := fsqr o (if is1 then z else b2k) in
  let b2k := if is1 then b2k else squared in
  let new_z := if is1 then squared else z in
  let less := less && negb (j =? v) in
  let k := if is1 then k else j in
  (k, b2k, if less then new_z else z, less).
(** The range [2..max_v]. *)
Definition ts_range (max_v : nat) : list Z := map Z.of_nat (seq 2 (max_v - 2)).
(** One iteration [max_v] of the outer loop on [(v, x, b, z)]. *)
Definition ts_outer (st : Z * F * F * F) (max_v : nat) : Z * F * F * F :=
  let '(v, x, b, z) := st in
  let '(k, _, z, _) := fold_left (ts_inner v) (ts_range max_v) (1, fsqr o b, z, true) in
  let x := if feqb o b (f1 o) then x else fmul o x z in
  let z := fsqr o z in
  (k, x, fmul o b z, z).
Definition sqrt_tonelli_shanks (s : nat) (root : F) (tm1d2 : list Z) (f : F) : option F :=
  let w := fpow o f tm1d2 in
  let x := fmul o w f in
  let b := fmul o x w in
  let '(_, x, _, _) := fold_left ts_outer (rev (seq 1 s)) (Z.of_nat s, x, b, root) in
  if feqb o (fmul o x x) f then Some x else None.
End TonelliShanks.

(** The field operators on bare limb lists. *)
Definition fe_ops (c : fconf) : fops (list Z) :=
  {| f0 := fe_zero c; f1 := fe_one c;
     fadd := fe_add c; fsub := fe_sub c; fmul := fe_mul c; fneg := fe_neg c;
     fsqr := fe_square c; fdbl := fe_double c;
     finv := fun a => match fe_invert c a with Done (Some i) => Some i | _ => None end;
     feqb := fe_eqb; fis0 := fun a => fe_eqb a (fe_zero c) |}.

(** derive/src/field/mod.rs:168-190; [None] is the panic of the macro
    ("unsupported modulus"), which happens at compile time. *)
Section Sqrt.
Variable c : fconf.
Definition tm1o2 : Z := ((odd_part c - 1) * two_inv_int c) mod modulus c.
Definition sqrt_with {F} (o : fops F) (root : F) (a : F) : option (option F) :=
  if modulus c mod 16 =? 1 then
    Some (sqrt_tonelli_shanks o (Z.to_nat (two_adicity c)) root (to_token c tm1o2) a)
  else if modulus c mod 4 =? 3 then
    let t := fpow o a (to_token c (Z.shiftr (modulus c + 1) 2)) in
    Some (if feqb o (fsqr o t) a then Some t else None)
  else None.
Definition fe_sqrt (a : list Z) : option (option (list Z)) := sqrt_with (fe_ops c) (ROOT_OF_UNITY c) a.
End Sqrt.
