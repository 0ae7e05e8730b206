(** Model of the pairings: Miller loops, final exponentiations and target groups of
    bn256, bls12-381 and pluto (src/derive/pairing.rs and the three engine.rs). *)
From Verif Require Import Base Algebra Tower Word Field Params TowerParams Curve CurveParams PairingParams.

(** ** Miller loops.  [F]: base field of G1; [G]: base field of G2; [E]: target field. *)
Section Miller.
Context {F G E : Type} (o : fops F) (o2 : fops G) (o12 : fops E).
Context (ell : E -> G * G * G -> aff F -> E).
Infix "+" := (fadd o2). Infix "-" := (fsub o2). Infix "*" := (fmul o2).
Notation "- x" := (fneg o2 x).

(** derive/pairing.rs:56-85: the coefficients handed to [ell] and the new [r] *)
Definition double_coeffs (r : proj G) : (G * G * G) * proj G :=
  let t0 := fsqr o2 (px r) in
  let t1 := fsqr o2 (py r) in
  let t2 := fsqr o2 t1 in
  let t3 := fsqr o2 (t1 + px r) - t0 - t2 in
  let t3 := t3 + t3 in
  let t4 := t0 + t0 + t0 in
  let t6 := px r + t4 in
  let t5 := fsqr o2 t4 in
  let zsquared := fsqr o2 (pz r) in
  let rx := t5 - t3 - t3 in
  let rz := fsqr o2 (pz r + py r) - t1 - zsquared in
  let ry := (t3 - rx) * t4 in
  let t2 := t2 + t2 in
  let t2 := t2 + t2 in
  let t2 := t2 + t2 in
  let ry := ry - t2 in
  let t3 := t4 * zsquared in
  let t3 := t3 + t3 in
  let t3 := - t3 in
  let t6 := fsqr o2 t6 - t0 - t5 in
  let t1 := t1 + t1 in
  let t1 := t1 + t1 in
  let t6 := t6 - t1 in
  let t0 := rz * zsquared in
  let t0 := t0 + t0 in
  ((t0, t3, t6), mk_proj rx ry rz).
Definition miller_double (f : E) (r : proj G) (p : aff F) : E * proj G :=
  let '(c, r') := double_coeffs r in (ell f c p, r').

(** derive/pairing.rs:87-117 *)
Definition add_coeffs (r : proj G) (q : aff G) : (G * G * G) * proj G :=
  let zsquared := fsqr o2 (pz r) in
  let ysquared := fsqr o2 (ay q) in
  let t0 := zsquared * ax q in
  let t1 := (fsqr o2 (ay q + pz r) - ysquared - zsquared) * zsquared in
  let t2 := t0 - px r in
  let t3 := fsqr o2 t2 in
  let t4 := t3 + t3 in
  let t4 := t4 + t4 in
  let t5 := t4 * t2 in
  let t6 := t1 - py r - py r in
  let t9 := t6 * ax q in
  let t7 := t4 * px r in
  let rx := fsqr o2 t6 - t5 - t7 - t7 in
  let rz := fsqr o2 (pz r + t2) - zsquared - t3 in
  let t10 := ay q + rz in
  let t8 := (t7 - rx) * t6 in
  let t0 := py r * t5 in
  let t0 := t0 + t0 in
  let ry := t8 - t0 in
  let t10 := fsqr o2 t10 - ysquared in
  let ztsquared := fsqr o2 rz in
  let t10 := t10 - ztsquared in
  let t9 := t9 + t9 - t10 in
  let t10 := rz + rz in
  let t6 := - t6 in
  let t1 := t6 + t6 in
  ((t10, t1, t9), mk_proj rx ry rz).
Definition miller_add (f : E) (r : proj G) (q : aff G) (p : aff F) : E * proj G :=
  let '(c, r') := add_coeffs r q in (ell f c p, r').

(** A pair of points. *)
Definition term : Type := (aff F * aff G)%type.
(** [terms.iter().filter_map(..)] *)
Definition live (t : term) : bool := negb (aff_is_identity o (fst t) || aff_is_identity o2 (snd t)).
(** [for ((p, q), r) in terms.iter().zip(r.iter_mut())] with a body that updates [f] and [r] *)
Fixpoint for_terms (step : E -> proj G -> term -> E * proj G) (ts : list term) (f : E) (rs : list (proj G))
    : E * list (proj G) :=
  match ts, rs with
  | t :: ts', r :: rs' =>
    let '(f, r) := step f r t in
    let '(f, rs'') := for_terms step ts' f rs' in (f, r :: rs'')
  | _, _ => (f, rs)
  end.
Definition double_step (f : E) (r : proj G) (t : term) : E * proj G := miller_double f r (fst t).
Definition add_step (h : aff G -> aff G) (f : E) (r : proj G) (t : term) : E * proj G :=
  miller_add f r (h (snd t)) (fst t).
(** The loop over the digits, most significant first; [first]: the iteration with
    [i = 0], which does not square [f].  Digits other than 1 and -1 only double. *)
Fixpoint digit_loop (first : bool) (ds : list Z) (ts : list term) (f : E) (rs : list (proj G)) : E * list (proj G) :=
  match ds with
  | [] => (f, rs)
  | x :: ds' =>
    let f := if first then f else fsqr o12 f in
    let '(f, rs) := for_terms double_step ts f rs in
    let '(f, rs) :=
      if x =? 1 then for_terms (add_step (fun q => q)) ts f rs
      else if x =? -1 then for_terms (add_step (aff_neg o2)) ts f rs
      else (f, rs) in
    digit_loop false ds' ts f rs
  end.
Definition start (ts : list term) : list (proj G) := map (fun t => to_curve o2 (snd t)) ts.

(** bn256/engine.rs:129-196, pluto_eris/engine.rs:37-112: [naf] least significant
    digit first; [h1], [h2] the two images of Q added at the end. *)
Definition bn_miller_loop (naf : list Z) (h1 h2 : aff G -> aff G) (terms : list term) : E :=
  let ts := filter live terms in
  let '(f, rs) := digit_loop true (skipn 1 (rev naf)) ts (f1 o12) (start ts) in
  let '(f, rs) := for_terms (add_step h1) ts f rs in
  let '(f, rs) := for_terms (add_step h2) ts f rs in
  f.
(** bls12381/engine.rs:72-105; the last step conjugates *)
Definition bls_miller_loop (bits : list Z) (conj : E -> E) (terms : list term) : E :=
  let ts := filter live terms in
  let '(f, rs) := digit_loop true (skipn 1 bits) ts (f1 o12) (start ts) in
  conj f.
End Miller.

(** ** Final exponentiation *)
Section FinalExp.
Context {E : Type} (o12 : fops E) (conj : E -> E) (frob : Z -> E -> E) (cyc : E -> E).
Infix "*" := (fmul o12).

(** [for i in (0..n).rev()] over the bits of [x]: bn256/engine.rs:27-37,
    pluto_eris/engine.rs:118-129 *)
Definition exp_bits (x : Z) (n : nat) (f : E) : E :=
  fold_left (fun res i => let res := cyc res in if Z.testbit x (Z.of_nat i) then res * f else res) (rev (seq 0 n)) (f1 o12).
Definition bn_exp_by_x (f : E) : E := exp_bits bn_x 64 f.
Definition pluto_exp_by_x (f : E) : E := conj (exp_bits neg_pluto_u 111 f).
(** bls12381/engine.rs:26-34 *)
Fixpoint bls_exp_loop (first : bool) (bits : list Z) (f acc : E) : E :=
  match bits with
  | [] => acc
  | b :: bits' =>
    let acc := if first then acc else cyc acc in
    let acc := if b =? 1 then acc * f else acc in
    bls_exp_loop false bits' f acc
  end.
Definition bls_exp_by_x (f : E) : E := conj (bls_exp_loop true bls_x f (f1 o12)).

(** bn256/engine.rs:26-126, pluto_eris/engine.rs:117-217; [None]: the panic of
    [unwrap] on a failed inversion *)
Definition bn_final_exponentiation (exp_by_x : E -> E) (f : E) : option E :=
  let f1 := conj f in
  match finv o12 f with
  | None => None
  | Some f2 =>
    let r := f1 in
    let r := r * f2 in
    let f2 := r in
    let r := frob 2 r in
    let r := r * f2 in
    let fp := frob 1 r in
    let fp2 := frob 2 r in
    let fp3 := frob 1 fp2 in
    let fu := exp_by_x r in
    let fu2 := exp_by_x fu in
    let fu3 := exp_by_x fu2 in
    let y3 := frob 1 fu in
    let fu2p := frob 1 fu2 in
    let fu3p := frob 1 fu3 in
    let y2 := frob 2 fu2 in
    let y0 := fp in
    let y0 := y0 * fp2 in
    let y0 := y0 * fp3 in
    let y1 := conj r in
    let y5 := conj fu2 in
    let y3 := conj y3 in
    let y4 := fu in
    let y4 := y4 * fu2p in
    let y4 := conj y4 in
    let y6 := fu3 in
    let y6 := y6 * fu3p in
    let y6 := conj y6 in
    let y6 := cyc y6 in
    let y6 := y6 * y4 in
    let y6 := y6 * y5 in
    let t1 := y3 in
    let t1 := t1 * y5 in
    let t1 := t1 * y6 in
    let y6 := y6 * y2 in
    let t1 := cyc t1 in
    let t1 := t1 * y6 in
    let t1 := cyc t1 in
    let t0 := t1 in
    let t0 := t0 * y1 in
    let t1 := t1 * y0 in
    let t0 := cyc t0 in
    let t0 := t0 * t1 in
    Some t0
  end.
(** bls12381/engine.rs:24-69 *)
Definition bls_final_exponentiation (f : E) : option E :=
  let t0 := frob 6 f in
  match finv o12 f with
  | None => None
  | Some t1 =>
    let t2 := t0 * t1 in
    let t1 := t2 in
    let t2 := frob 2 t2 in
    let t2 := t2 * t1 in
    let t1 := t2 in
    let t1 := cyc t1 in
    let t1 := conj t1 in
    let t3 := bls_exp_by_x t2 in
    let t4 := t3 in
    let t4 := cyc t4 in
    let t5 := t1 * t3 in
    let t1 := bls_exp_by_x t5 in
    let t0 := bls_exp_by_x t1 in
    let t6 := bls_exp_by_x t0 * t4 in
    let t4 := bls_exp_by_x t6 in
    let t5 := conj t5 in
    let t4 := t4 * (t5 * t2) in
    let t1 := t1 * t2 in
    let t1 := frob 3 t1 in
    let t2 := conj t2 in
    let t6 := t6 * t2 in
    let t6 := frob 1 t6 in
    let t3 := t3 * t0 in
    let t3 := frob 2 t3 in
    Some (t3 * t4 * t1 * t6)
  end.

(** ** Target groups, derive/pairing.rs:121-267; [Gt] wraps an element of [E] *)
Definition gt_identity : E := f1 o12.
Definition gt_is_identity (a : E) : bool := feqb o12 a gt_identity.
Definition gt_double (a : E) : E := fsqr o12 a.
Definition gt_neg (a : E) : E := conj a.
Definition gt_add (a b : E) : E := a * b.
Definition gt_sub (a b : E) : E := gt_add a (gt_neg b).
(** [repr]: the bytes of the scalar *)
Definition gt_mul (a : E) (repr : list Z) : E :=
  fold_left (fun acc (bit : bool) => let acc := gt_double acc in select acc (gt_add acc a) bit)
    (skipn 1 (repr_bits_be repr)) gt_identity.
Definition gt_sum (l : list E) : E := fold_left gt_add l gt_identity.
(** [#[derive(Default)]] *)
Definition gt_default : E := f0 o12.
End FinalExp.

(** ** The three pairings, over a prime field [o] *)
Section Pairings.
Context {F : Type} (o : fops F) (inj : Z -> F).
Definition scale2 (c : quad F) (s : F) : quad F := mk_quad (fmul o (q0 c) s) (fmul o (q1 c) s).
(** bn256/engine.rs:199-207, pluto_eris/engine.rs:221-229 *)
Definition ell_034 (o2 : fops (quad F)) (mnr : quad F -> quad F) (f : quad (cubic (quad F)))
    (c : quad F * quad F * quad F) (p : aff F) : quad (cubic (quad F)) :=
  let '(c0, c1, c2) := c in
  let c0 := scale2 c0 (ay p) in
  let c1 := scale2 c1 (ax p) in
  mul_by_034 o2 mnr f c0 c1 c2.
(** bls12381/engine.rs:107-115 *)
Definition ell_014 (o2 : fops (quad F)) (mnr : quad F -> quad F) (f : quad (cubic (quad F)))
    (c : quad F * quad F * quad F) (p : aff F) : quad (cubic (quad F)) :=
  let '(c0, c1, c2) := c in
  let c0 := scale2 c0 (ay p) in
  let c1 := scale2 c1 (ax p) in
  mul_by_014 o2 mnr f c2 c1 c0.

(** bn256/engine.rs:180-193: [q1] and [minusq2]; pluto negates both (pluto_eris/engine.rs:96-109) *)
Definition twist_q1 (o2 : fops (quad F)) (g1 half : quad F) (q : aff (quad F)) : aff (quad F) :=
  mk_aff (fmul o2 (quad_conjugate o (ax q)) g1) (fmul o2 (quad_conjugate o (ay q)) half).
Definition twist_minusq2 (o2 : fops (quad F)) (g2 : quad F) (q : aff (quad F)) : aff (quad F) :=
  mk_aff (fmul o2 (ax q) g2) (ay q).

Definition conj12 {G} (o6 : fops (cubic G)) (a : quad (cubic G)) : quad (cubic G) := quad_conjugate o6 a.

Definition bn256_g2_frob (k : nat) : quad F := inj2 inj (nth k bn256_c6_1 (0, 0)).
Definition bn256_miller : list (aff F * aff (quad F)) -> quad (cubic (quad F)) :=
  let o2 := bn256_fq2 o in
  bn_miller_loop o o2 (bn256_fq12 o) (ell_034 o2 (bn256_fq2_mnr o)) six_u_plus_2_naf
    (twist_q1 o2 (bn256_g2_frob 1) (inj2 inj bn256_xi_half)) (twist_minusq2 o2 (bn256_g2_frob 2)).
Definition bn256_cyc := cyclotomic_square (bn256_fq2 o) (bn256_fq2_mnr o).
Definition bn256_conj := conj12 (bn256_fq6 o).
Definition bn256_frob := tower_frob12 o inj bn256_tower (bn256_fq2 o).
Definition bn256_final_exp : quad (cubic (quad F)) -> option (quad (cubic (quad F))) :=
  bn_final_exponentiation (bn256_fq12 o) bn256_conj bn256_frob bn256_cyc (bn_exp_by_x (bn256_fq12 o) bn256_cyc).
(** derive/pairing.rs:24-26 *)
Definition bn256_pairing (p : aff F) (q : aff (quad F)) := bn256_final_exp (bn256_miller [(p, q)]).

Definition pluto_g2_frob (k : nat) : quad F := inj2 inj (nth k pluto_c6_1 (0, 0)).
Definition pluto_miller : list (aff F * aff (quad F)) -> quad (cubic (quad F)) :=
  let o2 := pluto_fp2 o in
  bn_miller_loop o o2 (pluto_fp12 o inj) (ell_034 o2 (pluto_mnr o inj)) neg_six_u_plus_2_naf
    (fun q => aff_neg o2 (twist_q1 o2 (pluto_g2_frob 1) (inj2 inj pluto_xi_half) q))
    (fun q => aff_neg o2 (twist_minusq2 o2 (pluto_g2_frob 2) q)).
Definition pluto_cyc := cyclotomic_square (pluto_fp2 o) (pluto_mnr o inj).
Definition pluto_conj := conj12 (pluto_fp6 o inj).
Definition pluto_frob := tower_frob12 o inj pluto_tower (pluto_fp2 o).
Definition pluto_final_exp : quad (cubic (quad F)) -> option (quad (cubic (quad F))) :=
  bn_final_exponentiation (pluto_fp12 o inj) pluto_conj pluto_frob pluto_cyc
    (pluto_exp_by_x (pluto_fp12 o inj) pluto_conj pluto_cyc).
Definition pluto_pairing (p : aff F) (q : aff (quad F)) := pluto_final_exp (pluto_miller [(p, q)]).

Definition bls_cyc := cyclotomic_square (bls_fq2 o) (bls_fq2_mnr o).
Definition bls_conj := conj12 (bls_fq6 o).
Definition bls_frob := tower_frob12 o inj bls12381_tower (bls_fq2 o).
Definition bls_miller : list (aff F * aff (quad F)) -> quad (cubic (quad F)) :=
  let o2 := bls_fq2 o in
  bls_miller_loop o o2 (bls_fq12 o) (ell_014 o2 (bls_fq2_mnr o)) bls_x bls_conj.
Definition bls_final_exp : quad (cubic (quad F)) -> option (quad (cubic (quad F))) :=
  bls_final_exponentiation (bls_fq12 o) bls_conj bls_frob bls_cyc.
Definition bls_pairing (p : aff F) (q : aff (quad F)) := bls_final_exp (bls_miller [(p, q)]).
End Pairings.
