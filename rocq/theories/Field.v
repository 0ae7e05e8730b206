(** Model of the prime-field types generated by [impl_field!]
    (derive/src/field/mod.rs and src/derive/field/common.rs).

    A configuration is the macro input; a field element is its limb list (in
    Montgomery form).  Inversion, Jacobi symbol and square root are modelled in
    Inverse.v, Jacobi.v and Sqrt.v. *)
From Verif Require Import Base Word Limbs Bytes.

(** derive/src/field/mod.rs:13-22 [FieldConfig] (without identifier and the
    [from_uniform] sizes, which are arguments of [from_uniform_bytes]). *)
Record fconf := { modulus : Z; mul_gen : Z; zeta : Z; big_endian : bool }.

(** derive/src/utils.rs:5-12 [decompose] with [limb_size = 64], 14-19 [big_to_limbs] *)
Fixpoint big_to_limbs (e : Z) (n : nat) : list Z :=
  match n with
  | O => []
  | S n' => Z.land e (W - 1) :: big_to_limbs (Z.shiftr e 64) n'
  end.

(** [BigUint::modpow] of num-bigint (external; its mathematical meaning is
    proved in FieldFacts.v: [b^e mod m]). *)
Fixpoint modpow_pos (b : Z) (e : positive) (m : Z) : Z :=
  match e with
  | xH => b mod m
  | xO e' => let x := modpow_pos b e' m in (x * x) mod m
  | xI e' => let x := modpow_pos b e' m in ((x * x) mod m * b) mod m
  end.
Definition modpow (b e m : Z) : Z :=
  match e with
  | Zpos e' => modpow_pos b e' m
  | _ => 1 mod m
  end.

(** derive/src/utils.rs:33-35 [mod_inv] *)
Definition mod_inv (e m : Z) : Z := modpow e (m - 2) m.

Section Config.
Variable c : fconf.

(** mod.rs:104-107 *)
Definition num_bits : Z := Z.log2 (modulus c) + 1.
Definition num_limbs : nat := Z.to_nat ((num_bits - 1) / 64 + 1).
Definition size : nat := 8 * num_limbs.
(** mod.rs:108 *)
Definition modulus_limbs : list Z := big_to_limbs (modulus c) num_limbs.
(** mod.rs:116-117 *)
Definition half_modulus : list Z :=
  big_to_limbs (Z.shiftr (modulus c - 1) 1) num_limbs.
(** mod.rs:120-127 *)
Definition r1 : Z := W ^ Z.of_nat num_limbs mod modulus c.
Definition mont (v : Z) : Z := (v * r1) mod modulus c.
Definition r2 : Z := (r1 * r1) mod modulus c.
Definition r3 : Z := (r1 * r1 * r1) mod modulus c.
Definition to_token (e : Z) : list Z := big_to_limbs e num_limbs.
(** mod.rs:133-139 *)
Fixpoint inv64_loop (m0 : Z) (i : nat) (x : Z) : Z :=
  match i with
  | O => x
  | S i' => inv64_loop m0 i' (wmul (wmul x x) m0)
  end.
Definition inv64 : Z := wneg (inv64_loop (hd 0 modulus_limbs) 63 1).
(** mod.rs:141-148; fuel = number of limbs + 2 is enough (see FieldFacts.v). *)
Fixpoint by_loop (fuel : nat) (k : Z) : option Z :=
  match fuel with
  | O => None
  | S f => if modulus c <? 2 ^ (62 * k - 64) then Some k else by_loop f (k + 1)
  end.
Definition by_inverter_constant : option Z := by_loop (2 * num_limbs + 2) 2.
(** mod.rs:150-157 *)
Fixpoint jacobi_loop (fuel : nat) (k : Z) : option Z :=
  match fuel with
  | O => None
  | S f => if modulus c <? 2 ^ (64 * k - 31) then Some k else jacobi_loop f (k + 1)
  end.
Definition jacobi_constant : option Z := jacobi_loop (2 * num_limbs + 2) 1.
(** mod.rs:159-164: the loop [while t.is_even() { t >>= 1; s += 1 }]; on a
    positive number this is structural recursion on its binary digits. *)
Fixpoint two_adic (t : positive) : Z * positive :=
  match t with
  | xO t' => let '(s, d) := two_adic t' in (s + 1, d)
  | _ => (0, t)
  end.
Definition two_adicity : Z := fst (two_adic (Z.to_pos (modulus c - 1))).
Definition odd_part : Z := Zpos (snd (two_adic (Z.to_pos (modulus c - 1)))).
(** mod.rs:166 *)
Definition two_inv_int : Z := mod_inv 2 (modulus c).
(** mod.rs:192-194 *)
Definition root_of_unity_int : Z := modpow (mul_gen c) odd_part (modulus c).
Definition root_of_unity_inv_int : Z := mod_inv root_of_unity_int (modulus c).
Definition delta_int : Z := modpow (mul_gen c) (Z.shiftl 1 two_adicity) (modulus c).

(** The associated constants, mod.rs:196-201, 304-306, 440-448 and 597-600. *)
Definition R : list Z := to_token r1.
Definition R2 : list Z := to_token r2.
Definition R3 : list Z := to_token r3.
Definition ROOT_OF_UNITY : list Z := to_token (mont root_of_unity_int).
Definition ROOT_OF_UNITY_INV : list Z := to_token (mont root_of_unity_inv_int).
Definition TWO_INV : list Z := to_token (mont two_inv_int).
Definition MULTIPLICATIVE_GENERATOR : list Z := to_token (mont (mul_gen c)).
Definition DELTA : list Z := to_token (mont delta_int).
Definition ZETA : list Z := to_token (mont (zeta c)).

(** mod.rs:310-318 [zero], [one] *)
Definition fe_zero : list Z := repeat 0 num_limbs.
Definition fe_one : list Z := R.

(** arith.rs:8-65, the operators *)
Definition fe_add := limbs_add modulus_limbs.
Definition fe_sub := limbs_sub modulus_limbs.
Definition fe_neg := limbs_neg modulus_limbs.
Definition fe_double := limbs_double modulus_limbs.
Definition fe_mul := limbs_mul modulus_limbs inv64.
Definition fe_square := limbs_square modulus_limbs inv64.
Definition fe_from_mont := from_mont modulus_limbs inv64.

(** mod.rs:231-240 [ct_eq]: limbwise, zipped.  [PartialEq] is derived and
    compares the arrays. *)
Definition fe_eqb (a b : list Z) : bool :=
  forallb (fun ab => fst ab =? snd ab) (combine a b).
(** mod.rs:242-251 [conditional_select] *)
Definition fe_select (a b : list Z) (choice : bool) : list Z := if choice then b else a.

(** mod.rs:275-285 [Sum] and [Product] *)
Definition fe_sum (l : list (list Z)) : list Z := fold_left fe_add l fe_zero.
Definition fe_product (l : list (list Z)) : list Z := fold_left fe_mul l fe_one.

(** mod.rs:322-324 [from_raw] *)
Definition from_raw (val : list Z) : list Z := fe_mul val R2.

(** mod.rs:359-364 [is_less_than_modulus] *)
Definition is_less_than_modulus (limbs : list Z) : bool :=
  let borrow := fold_left (fun borrow lm => snd (sbb (fst lm) (snd lm) borrow))
                          (combine limbs modulus_limbs) 0 in
  Z.land (borrow mod 256) 1 =? 1.

(** mod.rs:328-333 [from_bytes] *)
Definition from_bytes (bytes : list Z) : option (list Z) :=
  let el := endian_from_bytes (big_endian c) num_limbs bytes in
  if is_less_than_modulus el then Some (fe_mul el R2) else None.
(** mod.rs:338-344 [to_bytes] *)
Definition to_bytes (a : list Z) : list Z :=
  endian_to_bytes (big_endian c) (fe_from_mont a).

(** mod.rs:368-376 [lexicographically_largest] *)
Definition lexicographically_largest (a : list Z) : bool :=
  let tmp := fe_from_mont a in
  let borrow := fold_left (fun borrow tm => snd (sbb (fst tm) (snd tm) borrow))
                          (combine tmp half_modulus) 0 in
  negb (Z.land (borrow mod 256) 1 =? 1).

(** mod.rs:452-462 [from_u128] *)
Definition from_u128 (v : Z) : list Z :=
  fe_mul R2 (firstn num_limbs (v mod W :: Z.shiftr v 64 :: repeat 0 num_limbs)).
(** common.rs:52-67 [From<u64>] and 70-85 [From<bool>] *)
Definition from_u64 (v : Z) : list Z :=
  fe_mul (firstn num_limbs (v :: repeat 0 num_limbs)) R2.
Definition from_bool (b : bool) : list Z :=
  fe_mul (firstn num_limbs ((if b then 1 else 0) :: repeat 0 num_limbs)) R2.

(** mod.rs:464-468 [from_repr] (always little endian) *)
Definition from_repr (repr : list Z) : option (list Z) :=
  let el := endian_from_bytes false num_limbs repr in
  if is_less_than_modulus el then Some (fe_mul el R2) else None.
(** mod.rs:470-476 [to_repr] *)
Definition to_repr (a : list Z) : list Z := endian_to_bytes false (fe_from_mont a).
(** mod.rs:478-480 [is_odd] *)
Definition is_odd (a : list Z) : bool := Z.land (hd 0 (to_repr a)) 1 =? 1.

(** mod.rs:259-273 [Ord::cmp]: first differing byte, from the last one down. *)
Definition fe_cmp (a b : list Z) : comparison :=
  let fix go (l : list (Z * Z)) :=
    match l with
    | [] => Eq
    | (x, y) :: l' => match x ?= y with Eq => go l' | res => res end
    end in
  go (rev (combine (to_repr a) (to_repr b))).

(** common.rs:12-37 [to_le_bits]: limbs of the representation; the external
    [FieldBits] reads bit [i] of word [i/64] (least significant first). *)
Definition to_le_bits (a : list Z) : list bool :=
  flat_map (fun w => map (fun i => Z.testbit w (Z.of_nat i)) (seq 0 64))
    (map (fun off => from_le_bytes (chunk8 (to_repr a) off)) (seq 0 num_limbs)).

(** mod.rs:486-503 [from_raw_bytes_unchecked] / [from_raw_bytes] *)
Definition from_raw_bytes_unchecked (bytes : list Z) : list Z :=
  map (fun off => from_le_bytes (chunk8 bytes off)) (seq 0 num_limbs).
Definition from_raw_bytes (bytes : list Z) : option (list Z) :=
  if negb (Nat.eqb (length bytes) size) then None
  else let elt := from_raw_bytes_unchecked bytes in
       if is_less_than_modulus elt then Some elt else None.
(** mod.rs:505-511 [to_raw_bytes]; 539-544 [write_raw] appends the same bytes *)
Definition to_raw_bytes (a : list Z) : list Z := flat_map (le_bytes 8) a.
(** mod.rs:522-538 [read_raw]: consumes words from the reader; the result is
    [None] on a short read (the [?] path) or a non-canonical number, otherwise
    the element and the rest of the stream. *)
Fixpoint read_words (n : nat) (reader : list Z) : option (list Z * list Z) :=
  match n with
  | O => Some ([], reader)
  | S n' =>
      if Nat.ltb (length reader) 8 then None
      else match read_words n' (skipn 8 reader) with
           | None => None
           | Some (ws, rest) => Some (from_le_bytes (firstn 8 reader) :: ws, rest)
           end
  end.
Definition read_raw (reader : list Z) : option (list Z * list Z) :=
  match read_words num_limbs reader with
  | None => None
  | Some (inner, rest) =>
      if is_less_than_modulus inner then Some (inner, rest) else None
  end.

(** mod.rs:562-595 [from_uniform_bytes] for input of [length bytes] bytes. *)
Definition from_uniform_bytes (bytes : list Z) : list Z :=
  let wide := firstn (2 * size) (bytes ++ repeat 0 (2 * size)) in
  let a0 := firstn size wide in
  let a1 := skipn size wide in
  let a0 := map (fun off => from_le_bytes (chunk8 a0 off)) (seq 0 num_limbs) in
  let a1 := map (fun off => from_le_bytes (chunk8 a1 off)) (seq 0 num_limbs) in
  fe_add (fe_mul a0 R2) (fe_mul a1 R3).

End Config.
