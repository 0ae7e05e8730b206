(** Model of the limb-level arithmetic generated by derive/src/field/arith.rs.

    The macro unrolls its loops over the limb index at expansion time; here the
    loops are kept, for an arbitrary number of limbs.  A field element is the
    list of its [num_limbs] words, least significant first.  [m] is
    [MODULUS_LIMBS], [inv] the constant [inv64] of the macro. *)
From Verif Require Import Base Word.

(** arith.rs:174-178 (and 189-196, 215-222, 300-307): chain of [adc]. *)
Fixpoint adc_list (a b : list Z) (c : Z) : list Z * Z :=
  match a, b with
  | x :: a', y :: b' =>
      let '(d, c1) := adc x y c in
      let '(r, c2) := adc_list a' b' c1 in
      (d :: r, c2)
  | _, _ => ([], c)
  end.

(** arith.rs:182-186 (and 209-213, 235-240, 291-296): chain of [sbb]. *)
Fixpoint sbb_list (a b : list Z) (c : Z) : list Z * Z :=
  match a, b with
  | x :: a', y :: b' =>
      let '(d, c1) := sbb x y c in
      let '(r, c2) := sbb_list a' b' c1 in
      (d :: r, c2)
  | _, _ => ([], c)
  end.

(** arith.rs:105-109 (inner loop over j): one row of [mac]. *)
Fixpoint mac_row (w : list Z) (x : Z) (b : list Z) (c : Z) : list Z * Z :=
  match w, b with
  | r :: w', y :: b' =>
      let '(d, c1) := mac r x y c in
      let '(t, c2) := mac_row w' x b' c1 in
      (d :: t, c2)
  | _, _ => ([], c)
  end.

(** [MODULUS_LIMBS[i] & borrow] for every i. *)
Definition mask_list (m : list Z) (borrow : Z) : list Z :=
  map (fun x => Z.land x borrow) m.

(** arith.rs:180-196: subtract the modulus, add it back under the borrow mask;
    [carry] is the word above the top limb. *)
Definition reduce_once (m d : list Z) (carry : Z) : list Z :=
  let '(d, borrow) := sbb_list d m 0 in
  let '(_, borrow) := sbb carry 0 borrow in
  fst (adc_list d (mask_list m borrow) 0).

(** arith.rs:171-204 [impl_add] *)
Definition limbs_add (m a b : list Z) : list Z :=
  let '(d, carry) := adc_list a b 0 in
  reduce_once m d carry.

(** arith.rs:30-32 [double] *)
Definition limbs_double (m a : list Z) : list Z := limbs_add m a a.

(** arith.rs:206-230 [impl_sub] (also [sub_const]) *)
Definition limbs_sub (m a b : list Z) : list Z :=
  let '(d, borrow) := sbb_list a b 0 in
  fst (adc_list d (mask_list m borrow) 0).

(** arith.rs:232-258 [impl_neg] *)
Definition limbs_neg (m a : list Z) : list Z :=
  let '(d, _) := sbb_list m a 0 in
  let mask := ((if fold_left Z.lor a 0 =? 0 then 1 else 0) - 1) mod W in
  map (fun x => Z.land x mask) d.

(** arith.rs:98-111 [impl_mul]: rows of [mac]; [w] is the window
    r_i .. r_{i+n-1} before row i (zero for i = 0). *)
Fixpoint mul_rows (a b w : list Z) : list Z :=
  match a with
  | [] => w
  | x :: a' =>
      let '(w1, c) := mac_row w x b 0 in
      match w1 with
      | [] => []
      | r0 :: t => r0 :: mul_rows a' b (t ++ [c])
      end
  end.
Definition mul_wide (a b : list Z) : list Z :=
  mul_rows a b (repeat 0 (length b)).

(** arith.rs:127-138 [impl_square], off-diagonal products: the limbs
    r_1 .. r_{2n-2}.  [w] is r_{2i+1} .. r_{n+i-1} before row i. *)
Fixpoint sq_cross (a w : list Z) : list Z :=
  match a with
  | [] => []
  | x :: a' =>
      match a' with
      | [] => []
      | _ :: _ =>
          let '(w1, c) := mac_row w x a' 0 in
          match w1 ++ [c] with
          | r1 :: r2 :: t => r1 :: r2 :: sq_cross a' t
          | _ => []
          end
      end
  end.

(** arith.rs:140-149: shift the cross products left by one bit.  The top limb
    r_{2n-1} is the bit shifted out of r_{2n-2}. *)
Fixpoint shl1 (prev : Z) (l : list Z) : list Z :=
  match l with
  | [] => [Z.shiftr prev 63]
  | r :: l' => Z.lor ((Z.shiftl r 1) mod W) (Z.shiftr prev 63) :: shl1 r l'
  end.

(** arith.rs:151-162: add the diagonal squares. *)
Fixpoint sq_diag (a r : list Z) (carry : Z) : list Z :=
  match a, r with
  | x :: a', r0 :: r1 :: r' =>
      let '(d0, c0) := mac r0 x x carry in
      let '(d1, c1) := adc 0 r1 c0 in
      d0 :: d1 :: sq_diag a' r' c1
  | _, _ => []
  end.
Definition square_wide (a : list Z) : list Z :=
  sq_diag a (0 :: shl1 0 (sq_cross a (repeat 0 (length a - 1)))) 0.

(** arith.rs:263-289 [impl_mont], the reduction rounds.  [w] is the window
    r_i .. r_{i+n-1}, [hi] the not yet consumed input limbs r[n+i] .. . *)
Fixpoint mont_rounds (m : list Z) (inv : Z) (w hi : list Z) (carry2 : Z)
  : list Z * Z :=
  match hi with
  | [] => (w, carry2)
  | h :: hi' =>
      let k := wmul (hd 0 w) inv in
      let '(w1, carry) := mac_row w k m 0 in
      let '(r, carry2) := adc h carry2 carry in
      mont_rounds m inv (tl w1 ++ [r]) hi' carry2
  end.

(** arith.rs:260-314 [impl_mont] ([montgomery_reduce], [montgomery_reduce_const]) *)
Definition montgomery_reduce (m : list Z) (inv : Z) (r : list Z) : list Z :=
  let n := length m in
  let '(d, carry2) := mont_rounds m inv (firstn n r) (skipn n r) 0 in
  reduce_once m d carry2.

(** arith.rs:98-123 [mul] and [mul_const] *)
Definition limbs_mul (m : list Z) (inv : Z) (a b : list Z) : list Z :=
  montgomery_reduce m inv (mul_wide a b).

(** arith.rs:125-169 [square] *)
Definition limbs_square (m : list Z) (inv : Z) (a : list Z) : list Z :=
  montgomery_reduce m inv (square_wide a).

(** arith.rs:316-342 [impl_from_mont] *)
Fixpoint from_mont_rounds (m : list Z) (inv : Z) (w : list Z) (i : nat) : list Z :=
  match i with
  | O => w
  | S i' =>
      let k := wmul (hd 0 w) inv in
      let '(w1, c) := mac_row w k m 0 in
      from_mont_rounds m inv (tl w1 ++ [c]) i'
  end.
Definition from_mont (m : list Z) (inv : Z) (a : list Z) : list Z :=
  limbs_sub m (from_mont_rounds m inv a (length m)) m.
