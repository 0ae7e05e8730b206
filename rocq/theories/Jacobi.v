(** Model of src/ff_ext/jacobi.rs: the Jacobi symbol by Pornin's binary gcd.

    An [LInt<L>] is a list of L 64-bit limbs, least significant first.  [u64] values
    are integers in [0, 2^64); [i64] values are integers, and every arithmetic
    operation on them is followed by [i64w], the two's complement wrap-around
    (release semantics: [debug_assert!]s are left out).  [None] is a panic. *)
From Verif Require Import Base Word Limbs Field Algebra Tower Inverse.

(** jacobi.rs:11-25 *)
Definition lint_zero (L : nat) : list Z := repeat 0 L.
Definition lint_one (L : nat) : list Z := firstn L (1 :: repeat 0 L).
Definition lint_minus_one (L : nat) : list Z := repeat (W - 1) L.
(** jacobi.rs:27-33: [number.0[..data.len()]] panics on a longer input. *)
Definition lint_new (L : nat) (data : list Z) : option (list Z) :=
  if Nat.leb (length data) L then Some (data ++ repeat 0 (L - length data)) else None.
(** jacobi.rs:35-39 *)
Definition lint_is_negative (a : list Z) : bool := Z.shiftr (W - 1) 1 <? last a 0.
(** jacobi.rs:41-50 *)
Definition lint_sum (first second : Z) (carry : bool) : Z * bool :=
  let s := second + b2z carry in
  let '(second, carry) := (s mod W, W <=? s) in
  let s := first + second in
  let '(first, high) := (s mod W, W <=? s) in
  (first, carry || high).
(** jacobi.rs:52-57 *)
Definition lint_prodsum (first second summand carry : Z) : Z * Z :=
  let all := (first * second + carry + summand) mod (W * W) in
  (all mod W, Z.shiftr all 64 mod W).
(** jacobi.rs:60-64 *)
Fixpoint lint_eqb (a b : list Z) : bool :=
  match a, b with
  | [], [] => true
  | x :: a', y :: b' => (x =? y) && lint_eqb a' b'
  | _, _ => false
  end.
(** jacobi.rs:66-95 *)
Fixpoint lint_shr_loop (a : list Z) (bits : Z) (neg : bool) : list Z :=
  match a with
  | [] => []
  | x :: a' =>
      match a' with
      | [] =>
          let top := Z.shiftr x bits in
          [if neg then Z.lor top (Z.shiftl (W - 1) (64 - bits) mod W) else top]
      | y :: _ => Z.lor (Z.shiftr x bits) (Z.shiftl y (64 - bits) mod W) :: lint_shr_loop a' bits neg
      end
  end.
Definition lint_shr (a : list Z) (bits : Z) : list Z := lint_shr_loop a bits (lint_is_negative a).
(** jacobi.rs:96-120 *)
Fixpoint lint_add_loop (a b : list Z) (carry : bool) : list Z :=
  match a, b with
  | x :: a', y :: b' => let '(d, carry) := lint_sum x y carry in d :: lint_add_loop a' b' carry
  | _, _ => []
  end.
Definition lint_add (a b : list Z) : list Z := lint_add_loop a b false.
(** jacobi.rs:121-152; [!x] is [x xor (2^64 - 1)]. *)
Fixpoint lint_sub_loop (a b : list Z) (carry : bool) : list Z :=
  match a, b with
  | x :: a', y :: b' =>
      let '(d, carry) := lint_sum x (Z.lxor y (W - 1)) carry in d :: lint_sub_loop a' b' carry
  | _, _ => []
  end.
Definition lint_sub (a b : list Z) : list Z := lint_sub_loop a b true.
(** jacobi.rs:153-171 *)
Fixpoint lint_neg_loop (a : list Z) (carry : bool) : list Z :=
  match a with
  | x :: a' =>
      let s := Z.lxor x (W - 1) + b2z carry in s mod W :: lint_neg_loop a' (W <=? s)
  | [] => []
  end.
Definition lint_neg (a : list Z) : list Z := lint_neg_loop a true.
(** jacobi.rs:173-201 [Mul]: the row of limb [x] of the first factor updates
    [data[i ..]], whose first entry is then final. *)
Fixpoint lint_mul_row (x : Z) (b data : list Z) (carry : Z) : list Z :=
  match b, data with
  | y :: b', d :: data' =>
      let '(d, carry) := lint_prodsum x y d carry in d :: lint_mul_row x b' data' carry
  | _, _ => []
  end.
Fixpoint lint_mul_loop (a b data : list Z) : list Z :=
  match a with
  | [] => []
  | x :: a' =>
      match lint_mul_row x b data 0 with
      | [] => []
      | d :: data' => d :: lint_mul_loop a' b data'
      end
  end.
Definition lint_mul (a b : list Z) : list Z := lint_mul_loop a b (repeat 0 (length a)).
(** jacobi.rs:202-249 [Mul<i64>] *)
Fixpoint lint_mul_i64_loop (a : list Z) (other mask carry : Z) : list Z :=
  match a with
  | x :: a' =>
      let '(d, carry) := lint_prodsum (Z.lxor x mask) other 0 carry in
      d :: lint_mul_i64_loop a' other mask carry
  | [] => []
  end.
Definition lint_mul_i64 (a : list Z) (other : Z) : list Z :=
  if other <? 0 then lint_mul_i64_loop a (i64w (- other) mod W) (W - 1) (i64w (- other) mod W)
  else lint_mul_i64_loop a (other mod W) 0 0.

(** [u64::leading_zeros], [u64::trailing_zeros] *)
Definition clz64 (x : Z) : Z := if x =? 0 then 64 else 63 - Z.log2 x.
Definition ctz64 (x : Z) : Z := match x with Zpos p => pos_ctz p | _ => 64 end.

(** jacobi.rs:272-275: the highest index with a non-zero limb; the index
    underflows (a panic) if there is none. *)
Fixpoint approx_top (x y : list Z) (i : nat) : option nat :=
  if (nth i x 0 =? 0) && (nth i y 0 =? 0) then
    match i with O => None | S i' => approx_top x y i' end
  else Some i.
(** jacobi.rs:263-290.  The shift in [x.0[i - 1] >> z] is as in the source. *)
Definition approximate (L : nat) (x y : list Z) : option (Z * Z * bool) :=
  match approx_top x y (L - 1) with
  | None => None
  | Some O => Some (nth 0 x 0, nth 0 y 0, true)
  | Some (S i' as i) =>
      let hx := nth i x 0 in
      let hy := nth i y 0 in
      let z := Z.min (clz64 hx) (clz64 hy) in
      let hx := Z.shiftl hx z mod W in
      let hy := Z.shiftl hy z mod W in
      let hx := if 32 <? z then Z.lor hx (Z.shiftr (nth i' x 0) z) else hx in
      let hy := if 32 <? z then Z.lor hy (Z.shiftr (nth i' y 0) z) else hy in
      let mh := Z.shiftl (W - 1) 32 mod W in
      let ml := Z.shiftr (W - 1) 32 in
      Some (Z.lor (Z.land hx mh) (Z.land (nth 0 x 0) ml),
            Z.lor (Z.land hy mh) (Z.land (nth 0 y 0) ml), false)
  end.

(** [(d == 1) as i64 * (1 - (t & 2) as i64)] *)
Definition jac_result (unit : bool) (t : Z) : Z := i64w (b2z unit * i64w (1 - Z.land t 2)).

(** jacobi.rs:296-316, one round of the loop *)
Definition jacobinary_step (s : Z * Z * Z) : (Z * Z * Z) + Z :=
  let '(n, d, t) := s in
  if n =? 0 then inr (jac_result (d =? 1) t)
  else if 0 <? Z.land n 1 then
    let '(n, d, t) := if n <? d then (d, n, Z.lxor t (Z.land d n)) else (n, d, t) in
    inl (Z.shiftr ((n - d) mod W) 1, d, Z.lxor t (Z.lxor d (Z.shiftr d 1)))
  else
    let z := ctz64 n in
    inl (Z.shiftr n z, d, Z.lxor t (Z.land (Z.lxor d (Z.shiftr d 1)) (Z.shiftl z 1))).

(** jacobi.rs:354-392: the variables of the inner loop and one round of it *)
Record jac_in := mk_jin { ja : Z; jb : Z; ju0 : Z; ju1 : Z; jv0 : Z; jv1 : Z; jt : Z; ji : Z }.
Definition jac_inner_step (s : jac_in) : jac_in :=
  if 0 <? Z.land (ja s) 1 then
    let s := if ja s <? jb s
             then mk_jin (jb s) (ja s) (jv0 s) (jv1 s) (ju0 s) (ju1 s)
                         (Z.lxor (jt s) (Z.land (jb s) (ja s))) (ji s)
             else s in
    mk_jin (Z.shiftr ((ja s - jb s) mod W) 1) (jb s)
           (i64w (ju0 s - jv0 s)) (i64w (ju1 s - jv1 s))
           (i64w (Z.shiftl (jv0 s) 1)) (i64w (Z.shiftl (jv1 s) 1))
           (Z.lxor (jt s) (Z.lxor (jb s) (Z.shiftr (jb s) 1))) (ji s - 1)
  else
    let z := Z.min (ji s) (ctz64 (ja s)) in
    mk_jin (Z.shiftr (ja s) z) (jb s) (ju0 s) (ju1 s)
           (i64w (Z.shiftl (jv0 s) z)) (i64w (Z.shiftl (jv1 s) z))
           (Z.lxor (jt s) (Z.land (Z.lxor (jb s) (Z.shiftr (jb s) 1)) (Z.shiftl z 1))) (ji s - z).
(** The loop [while i > 0]; every round lowers [i]. *)
Fixpoint jac_inner (fuel : nat) (s : jac_in) : option jac_in :=
  if 0 <? ji s then
    match fuel with
    | O => None
    | S fuel' => jac_inner fuel' (jac_inner_step s)
    end
  else Some s.

(** jacobi.rs:344-416, one round of the outer loop.  A round ends with new values
    of (n, d, t), with a result, with a panic, or in a loop that does not end. *)
Inductive jac_out := JVal (r : Z) | JPanic | JDiverged.
Definition jac_step (L : nat) (s : list Z * list Z * Z) : (list Z * list Z * Z) + jac_out :=
  let '(n, d, t) := s in
  match approximate L n d with
  | None => inr JPanic
  | Some (a, b, true) =>
      match run_until 8 jacobinary_step (a, b, t) with
      | inr r => inr (JVal r)
      | inl _ => inr JDiverged
      end
  | Some (a, b, false) =>
      match jac_inner 30 (mk_jin a b 1 0 0 1 t 30) with
      | None => inr JDiverged
      | Some s =>
          let n' := lint_shr (lint_add (lint_mul_i64 n (ju0 s)) (lint_mul_i64 d (ju1 s))) 30 in
          let d' := lint_shr (lint_add (lint_mul_i64 n (jv0 s)) (lint_mul_i64 d (jv1 s))) 30 in
          let t := jt s in
          if lint_eqb n' (lint_zero L) then inr (JVal (jac_result (lint_eqb d' (lint_one L)) t))
          else if lint_is_negative n' then inl (lint_neg n', d', Z.lxor t (hd 0 d'))
          else if lint_is_negative d' then inl (n', lint_neg d', t)
          else inl (n', d', t)
      end
  end.

(** jacobi.rs:331-417, cut off after 2^(2 L + 16) rounds. *)
Definition jacobi (L : nat) (n d : list Z) : jac_out :=
  match lint_new L n, lint_new L d with
  | Some n, Some d =>
      match run_until (2 * L + 16) (jac_step L) (n, d, 0) with
      | inr r => r
      | inl _ => JDiverged
      end
  | _, _ => JPanic
  end.

(** derive/src/field/mod.rs:347-355 and src/ff_ext/mod.rs:25-35 [legendre]: the symbol of the
    Montgomery representation. *)
Definition fe_legendre (c : fconf) (a : list Z) : jac_out :=
  match jacobi_constant c with
  | None => JDiverged
  | Some L => jacobi (Z.to_nat L) a (modulus_limbs c)
  end.
(** src/ff_ext/mod.rs:10-21 [ct_quadratic_non_residue], [ct_quadratic_residue] *)
Definition fe_qnr (c : fconf) (a : list Z) : bool :=
  match fe_legendre c a with JVal r => r =? -1 | _ => false end.
Definition fe_qr (c : fconf) (a : list Z) : bool :=
  match fe_legendre c a with JVal r => negb (r =? -1) | _ => false end.
(** src/derive/field/tower.rs:87-91: [legendre] of a quadratic extension, given that of
    the base field *)
Definition quad_legendre {F} (o : fops F) (mnr : F -> F) (legendre : F -> jac_out) (x : quad F) : jac_out :=
  legendre (quad_norm o mnr x).
