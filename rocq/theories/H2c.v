(** Model of the maps to the curve of src/hash_to_curve.rs and of the isogenies
    behind them.  [o] is the base field; its [sqrt], [is_odd] and
    [ct_quadratic_non_residue] are parameters. *)
From Verif Require Import Base Algebra Tower Curve Sqrt2 Hash.

(** A computation that may panic (a failed [unwrap] or [assert!]) or recurse for
    ever (the square root of one of the quadratic extensions). *)
Inductive h2c (A : Type) := HDiverge | HPanic | HRet (a : A).
Arguments HDiverge {A}. Arguments HPanic {A}. Arguments HRet {A}.
Definition h_bind {A B} (m : h2c A) (f : A -> h2c B) : h2c B :=
  match m with HDiverge => HDiverge | HPanic => HPanic | HRet a => f a end.
Definition h_sqrt {A} (s : sq_out A) : h2c (option A) :=
  match s with SqDiverge => HDiverge | SqPanic => HPanic | SqRet r => HRet r end.
Definition h_unwrap {A} (r : option A) : h2c A :=
  match r with Some a => HRet a | None => HPanic end.

Section Maps.
Context {F : Type} (o : fops F).
Context (sqrt : F -> sq_out F) (is_odd : F -> bool) (qnr : F -> bool).
Notation "0" := (f0 o). Notation "1" := (f1 o).
Infix "+" := (fadd o). Infix "-" := (fsub o). Infix "*" := (fmul o).
Notation "- x" := (fneg o x).

(** hash_to_curve.rs:193-228 [sqrt_ratio] *)
Definition sqrt_ratio (num div z : F) : h2c (bool * F) :=
  let a := inv_or_zero o div * num in
  let b := a * z in
  h_bind (h_sqrt (sqrt a)) (fun sqrt_a =>
  h_bind (h_sqrt (sqrt b)) (fun sqrt_b =>
  let num_is_zero := fis0 o num in
  let div_is_zero := fis0 o div in
  let is_square := match sqrt_a with Some _ => true | None => false end in
  let is_nonsquare := match sqrt_b with Some _ => true | None => false end in
  if num_is_zero || div_is_zero || xorb is_square is_nonsquare then
    h_bind (h_unwrap (select sqrt_b sqrt_a is_square)) (fun r =>
    HRet (is_square && (num_is_zero || negb div_is_zero), r))
  else HPanic)).

(** hash_to_curve.rs:182-289 [sswu_map_to_curve] *)
Definition sswu_map_to_curve (u z a b : F) : h2c (F * F * F) :=
  let tv1 := fsqr o u in
  let tv1 := z * tv1 in
  let tv2 := fsqr o tv1 in
  let tv2 := tv2 + tv1 in
  let tv3 := tv2 + 1 in
  let tv3 := b * tv3 in
  let tv2_is_not_zero := negb (feqb o tv2 0) in
  let tv4 := select z (- tv2) tv2_is_not_zero in
  let tv4 := a * tv4 in
  let tv2 := fsqr o tv3 in
  let tv6 := fsqr o tv4 in
  let tv5 := a * tv6 in
  let tv2 := tv2 + tv5 in
  let tv2 := tv2 * tv3 in
  let tv6 := tv6 * tv4 in
  let tv5 := b * tv6 in
  let tv2 := tv2 + tv5 in
  let x := tv1 * tv3 in
  h_bind (sqrt_ratio tv2 tv6 z) (fun '(is_gx1_square, y1) =>
  let y := tv1 * u in
  let y := y * y1 in
  let x := select x tv3 is_gx1_square in
  let y := select y y1 is_gx1_square in
  let e1 := Bool.eqb (is_odd u) (is_odd y) in
  let y := select (- y) y e1 in
  HRet (x, y * tv4, tv4)).

(** hash_to_curve.rs:155-177 [svdw_precomputed_constants]; [two_inv] is [TWO_INV] *)
Definition svdw_constants (c : cconf F) (two_inv z : F) : h2c (F * F * F * F) :=
  let a := ca c in
  let b := cb c in
  let three := 1 + 1 + 1 in
  let four := three + 1 in
  let tmp := three * fsqr o z + four * a in
  let c1 := (fsqr o z + a) * z + b in
  let c2 := - z * two_inv in
  h_bind (h_sqrt (sqrt (- c1 * tmp))) (fun s =>
  h_bind (h_unwrap s) (fun c3 =>
  let c3 := select c3 (- c3) (is_odd c3) in
  h_bind (h_unwrap (finv o tmp)) (fun i =>
  let c4 := - four * c1 * i in
  HRet (c1, c2, c3, c4)))).

(** hash_to_curve.rs:292-375 [svdw_map_to_curve] *)
Definition svdw_map_to_curve (c : cconf F) (u c1 c2 c3 c4 z : F) : h2c (proj F) :=
  let a := ca c in
  let b := cb c in
  let tv1 := fsqr o u in
  let tv1 := tv1 * c1 in
  let tv2 := 1 + tv1 in
  let tv1 := 1 - tv1 in
  let tv3 := tv1 * tv2 in
  let tv3 := inv_or_zero o tv3 in
  let tv4 := u * tv1 in
  let tv4 := tv4 * tv3 in
  let tv4 := tv4 * c3 in
  let x1 := c2 - tv4 in
  let gx1 := (fsqr o x1 + a) * x1 + b in
  let e1 := negb (qnr gx1) in
  let x2 := c2 + tv4 in
  let gx2 := (fsqr o x2 + a) * x2 + b in
  let e2 := negb (qnr gx2) && negb e1 in
  let x3 := fsqr o tv2 in
  let x3 := x3 * tv3 in
  let x3 := fsqr o x3 in
  let x3 := x3 * c4 in
  let x3 := x3 + z in
  let x := select x3 x1 e1 in
  let x := select x x2 e2 in
  let gx := (fsqr o x + a) * x + b in
  h_bind (h_sqrt (sqrt gx)) (fun s =>
  h_bind (h_unwrap s) (fun y =>
  let e3 := Bool.eqb (is_odd u) (is_odd y) in
  let y := select (- y) y e3 in
  h_unwrap (new_jacobian o c x y 1))).

(** The closures of [Suite::new] (hash_to_curve.rs:107-122).  [iso_map] is the
    field [map] of [Iso]. *)
Definition sswu_closure (iso_map : F -> F -> F -> proj F) (a b z u : F) : h2c (proj F) :=
  h_bind (sswu_map_to_curve u z a b) (fun '(x, y, w) => HRet (iso_map x y w)).
Definition svdw_closure (c : cconf F) (two_inv z u : F) : h2c (proj F) :=
  h_bind (svdw_constants c two_inv z) (fun '(c1, c2, c3, c4) => svdw_map_to_curve c u c1 c2 c3 c4 z).

(** hash_to_curve.rs:149-152 [Suite::hash_to_curve] *)
Definition suite_hash_to_curve (c : cconf F) (map_to_curve : F -> h2c (proj F)) (u : option (F * F)) : h2c (proj F) :=
  h_bind (h_unwrap u) (fun '(u0, u1) =>
  h_bind (map_to_curve u0) (fun q0 =>
  h_bind (map_to_curve u1) (fun q1 => HRet (proj_add o c q0 q1)))).

(** ** Isogenies *)
Section Iso.
Context (K : list (list F)).
Definition coef (i j : nat) : F := nth j (nth i K []) 0.

(** secp256k1/curve.rs:109-221 [iso_map] *)
Definition iso_map_secp256k1 (x y z : F) : proj F :=
  let z2 := fsqr o z in
  let z3 := z2 * z in
  let x_num := ((coef 1 3 * x + coef 1 2 * z) * x + coef 1 1 * z2) * x + coef 1 0 * z3 in
  let x_den := (z * x + coef 2 1 * z2) * x + coef 2 0 * z3 in
  let y_num := (((coef 3 3 * x + coef 3 2 * z) * x + coef 3 1 * z2) * x + coef 3 0 * z3) * y in
  let y_den := (((x + coef 4 2 * z) * x + coef 4 1 * z2) * x + coef 4 0 * z3) * z in
  mk_proj (x_num * y_den) (y_num * x_den) (x_den * y_den).

(** The Horner loop of bls12381/g1.rs:141-149 and g2.rs:298-306; [zpows] has at
    least [length coeff - 1] entries for the arrays of the crate. *)
Definition iso_horner (x : F) (zpows coeff : list F) : F :=
  let clast := (length coeff - 1)%nat in
  fold_left (fun acc jdx => acc * x + nth jdx zpows 0 * nth (clast - 1 - jdx) coeff 0)
    (seq 0 clast) (nth clast coeff 0).
(** g1.rs:151-163, g2.rs:308-320 *)
Definition iso_finish (zpows : list F) (x y z : F) : proj F :=
  let m0 := iso_horner x zpows (nth 0 K []) in
  let m1 := iso_horner x zpows (nth 1 K []) in
  let m2 := iso_horner x zpows (nth 2 K []) in
  let m3 := iso_horner x zpows (nth 3 K []) in
  let m1 := m1 * z in
  let m2 := m2 * y in
  let m3 := m3 * z in
  mk_proj (m0 * m3) (m2 * m1) (m1 * m3).
(** g1.rs:131-139 *)
Fixpoint zpow_list (n : nat) (acc z : F) : list F :=
  match n with O => [] | S n' => acc :: zpow_list n' (acc * z) z end.
(** bls12381/g1.rs:125-164 [iso_map] *)
Definition iso_map_g1 (x y z : F) : proj F := iso_finish (zpow_list 15 z z) x y z.
(** bls12381/g2.rs:288-321 [iso_map] *)
Definition iso_map_g2 (x y z : F) : proj F :=
  let zsq := fsqr o z in
  iso_finish [z; zsq; zsq * z] x y z.
End Iso.
End Maps.
(** secp256r1/curve.rs:92 *)
Definition iso_map_secp256r1 {F} (x y z : F) : proj F := mk_proj x y z.
