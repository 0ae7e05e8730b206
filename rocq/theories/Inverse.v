(** Model of src/ff_ext/inverse.rs: the Bernstein-Yang modular inverter.

    A [CInt<62, L>] is a list of L chunks, least significant first.  [i64] and
    [i128] values are integers; every arithmetic operation on them is followed by
    [i64w] / [i128w], the two's complement wrap-around (release semantics; the
    proofs in InverseFacts.v show that nothing ever wraps). *)
From Verif Require Import Base Word Limbs Field.

Definition B62 : Z := 4611686018427387904.
(** inverse.rs:12-13 *)
Definition MASK62 : Z := B62 - 1.

Definition swrap (m x : Z) : Z := (x + m) mod (2 * m) - m.
Definition i64w (x : Z) : Z := swrap 9223372036854775808 x.
Definition i128w (x : Z) : Z := swrap 170141183460469231731687303715884105728 x.

(** inverse.rs:15-26 *)
Definition cint_minus_one (L : nat) : list Z := repeat MASK62 L.
Definition cint_zero (L : nat) : list Z := repeat 0 L.
Definition cint_one (L : nat) : list Z := firstn L (1 :: repeat 0 L).
(** inverse.rs:44-47 *)
Definition cint_is_negative (a : list Z) : bool := Z.shiftr MASK62 1 <? last a 0.
(** inverse.rs:28-37 *)
Definition cint_shift (a : list Z) : list Z :=
  tl a ++ [if cint_is_negative a then MASK62 else 0].
(** inverse.rs:39-42 *)
Definition cint_lowest (a : list Z) : Z := hd 0 a.
(** inverse.rs:50-54 *)
Fixpoint cint_eqb (a b : list Z) : bool :=
  match a, b with
  | [], [] => true
  | x :: a', y :: b' => (x =? y) && cint_eqb a' b'
  | _, _ => false
  end.
(** inverse.rs:56-67 *)
Fixpoint cint_add_loop (a b : list Z) (carry : Z) : list Z :=
  match a, b with
  | x :: a', y :: b' =>
      let sum := (x + y + carry) mod W in
      Z.land sum MASK62 :: cint_add_loop a' b' (Z.shiftr sum 62)
  | _, _ => []
  end.
Definition cint_add (a b : list Z) : list Z := cint_add_loop a b 0.
(** inverse.rs:113-127 *)
Fixpoint cint_neg_loop (a : list Z) (carry : Z) : list Z :=
  match a with
  | x :: a' =>
      let sum := (Z.lxor x MASK62 + carry) mod W in
      Z.land sum MASK62 :: cint_neg_loop a' (Z.shiftr sum 62)
  | [] => []
  end.
Definition cint_neg (a : list Z) : list Z := cint_neg_loop a 1.
(** inverse.rs:169-197 [Mul<i64>] *)
Fixpoint cint_mul_loop (a : list Z) (other mask carry : Z) : list Z :=
  match a with
  | x :: a' =>
      let sum := carry + Z.lxor x mask * other in
      Z.land (sum mod W) MASK62 :: cint_mul_loop a' other mask (Z.shiftr sum 62 mod W)
  | [] => []
  end.
Definition cint_mul_i64 (a : list Z) (other : Z) : list Z :=
  if other <? 0 then cint_mul_loop a (i64w (- other)) MASK62 (i64w (- other) mod W)
  else cint_mul_loop a other 0 0.

(** [trailing_zeros] of a non-zero two's complement number; 128 for zero. *)
Fixpoint pos_ctz (p : positive) : Z :=
  match p with xO q => 1 + pos_ctz q | _ => 0 end.
Definition ctz128 (g : Z) : Z :=
  match g with Z0 => 128 | Zpos p => pos_ctz p | Zneg p => pos_ctz p end.

(** inverse.rs:253-254 *)
Record matrix := mk_mat { t00 : Z; t01 : Z; t10 : Z; t11 : Z }.

(** inverse.rs:260-291: one iteration of the loop of [jump] per unit of fuel. *)
Fixpoint jump_loop (fuel : nat) (steps delta f g : Z) (t : matrix) : option (Z * matrix) :=
  match fuel with
  | O => None
  | S fuel' =>
      let zeros := Z.min steps (ctz128 g) in
      let steps := steps - zeros in
      let delta := i64w (delta + zeros) in
      let g := Z.shiftr g zeros in
      let t := mk_mat (i64w (Z.shiftl (t00 t) zeros)) (i64w (Z.shiftl (t01 t) zeros)) (t10 t) (t11 t) in
      if steps =? 0 then Some (delta, t)
      else
        let '(delta, f, g, t) :=
          if 0 <? delta then
            (i64w (- delta), i64w g, i64w (- f),
             mk_mat (t10 t) (t11 t) (i64w (- t00 t)) (i64w (- t01 t)))
          else (delta, f, g, t) in
        let mask := Z.shiftl 1 (Z.min (Z.min steps (1 - delta)) 5) - 1 in
        let w := Z.land (i64w (i64w g * Z.lxor (i64w (f * 3)) 28)) mask in
        let t := mk_mat (t00 t) (t01 t) (i64w (i64w (t00 t * w) + t10 t)) (i64w (i64w (t01 t * w) + t11 t)) in
        let g := i128w (g + w * f) in
        jump_loop fuel' steps delta f g t
  end.
Definition jump (f g : list Z) (delta : Z) : option (Z * matrix) :=
  jump_loop 64 62 delta (cint_lowest f) (cint_lowest g) (mk_mat 1 0 0 1).

(** inverse.rs:295-300 *)
Definition by_fg (f g : list Z) (t : matrix) : list Z * list Z :=
  (cint_shift (cint_add (cint_mul_i64 f (t00 t)) (cint_mul_i64 g (t01 t))),
   cint_shift (cint_add (cint_mul_i64 f (t10 t)) (cint_mul_i64 g (t11 t)))).

(** inverse.rs:239-251 *)
Record inverter := { by_modulus : list Z; by_adjuster : list Z; by_inverse : Z }.

Definition b2z (b : bool) : Z := if b then 1 else 0.
(** inverse.rs:306-328, one row of the matrix *)
Definition by_de_row (v : inverter) (d e : list Z) (ta tb : Z) : list Z :=
  let md := i64w (i64w (ta * b2z (cint_is_negative d)) + i64w (tb * b2z (cint_is_negative e))) in
  let cd := Z.land (i64w (i64w (ta * cint_lowest d) + i64w (tb * cint_lowest e))) MASK62 in
  let md := i64w (md - Z.land (i64w (i64w (by_inverse v * cd) + md)) MASK62) in
  let cd := cint_add (cint_add (cint_mul_i64 d ta) (cint_mul_i64 e tb)) (cint_mul_i64 (by_modulus v) md) in
  cint_shift cd.
Definition by_de (v : inverter) (d e : list Z) (t : matrix) : list Z * list Z :=
  (by_de_row v d e (t00 t) (t01 t), by_de_row v d e (t10 t) (t11 t)).

(** inverse.rs:333-347 *)
Definition by_norm (v : inverter) (value : list Z) (negate : bool) : list Z :=
  let value := if cint_is_negative value then cint_add value (by_modulus v) else value in
  let value := if negate then cint_neg value else value in
  if cint_is_negative value then cint_add value (by_modulus v) else value.

(** inverse.rs:352-380 [convert]; the loop advances by at least one bit. *)
Fixpoint set_nth (i : nat) (x : Z) (l : list Z) : list Z :=
  match i, l with
  | _, [] => []
  | O, _ :: l' => x :: l'
  | S i', y :: l' => y :: set_nth i' x l'
  end.
Fixpoint convert_loop (fuel : nat) (I O total : nat) (input output : list Z) (bits : nat) : list Z :=
  match fuel with
  | 0%nat => output
  | S fuel' =>
      if Nat.ltb bits total then
        let i := (bits mod I)%nat in
        let o := (bits mod O)%nat in
        let word := Z.shiftl (Z.shiftr (nth (bits / I) input 0) (Z.of_nat i)) (Z.of_nat o) mod W in
        let output := set_nth (bits / O) (Z.lor (nth (bits / O) output 0) word) output in
        convert_loop fuel' I O total input output (bits + Nat.min (I - i) (O - o))
      else output
  end.
Definition convert (I O S : nat) (input : list Z) : list Z :=
  let total := Nat.min (length input * I) (S * O) in
  let output := convert_loop total I O total input (repeat 0 S) 0 in
  let filled := (total / O + if Nat.ltb 0 (total mod O) then 1 else 0)%nat in
  map (fun x => Z.land x (Z.ones (Z.of_nat O))) (firstn filled output) ++ skipn filled output.

(** inverse.rs:387-394 *)
Definition by_inv_step (xy : Z * Z) : Z * Z :=
  let '(x, y) := xy in ((x * ((y + 1) mod W)) mod W, (y * y) mod W).
Definition by_inv (value : Z) : Z :=
  let x := Z.lxor ((value * 3) mod W) 2 in
  let y := (1 - (x * value) mod W) mod W in
  let '(x, y) := by_inv_step (by_inv_step (by_inv_step (x, y))) in
  Z.land ((x * ((y + 1) mod W)) mod W) MASK62.

(** inverse.rs:397-403 *)
Definition by_new (L : nat) (modulus adjuster : list Z) : inverter :=
  {| by_modulus := convert 64 62 L modulus; by_adjuster := convert 64 62 L adjuster;
     by_inverse := by_inv (hd 0 modulus) |}.

(** A [while] loop cut off after 2^n rounds: [inl] is an unfinished state. *)
Fixpoint run_until {S R} (n : nat) (step : S -> S + R) (s : S) : S + R :=
  match n with
  | O => step s
  | S n' => match run_until n' step s with inl s' => run_until n' step s' | inr r => inr r end
  end.

(** inverse.rs:407-425; [by_state] is (delta, f, g, d, e). *)
Record by_state := mk_by { by_delta : Z; by_f : list Z; by_g : list Z; by_d : list Z; by_e : list Z }.
Definition by_step (L : nat) (v : inverter) (s : by_state) : by_state + option by_state :=
  if cint_eqb (by_g s) (cint_zero L) then inr (Some s)
  else
    match jump (by_f s) (by_g s) (by_delta s) with
    | None => inr None
    | Some (delta, t) =>
        let '(f, g) := by_fg (by_f s) (by_g s) t in
        let '(d, e) := by_de v (by_d s) (by_e s) t in
        inl (mk_by delta f g d e)
    end.
(** What a run can end in: [Diverged] stands for a loop that was cut off. *)
Inductive run (A : Type) := Done (a : A) | Diverged.
Arguments Done {A}. Arguments Diverged {A}.
Definition by_invert (L S : nat) (v : inverter) (value : list Z) : run (option (list Z)) :=
  let s0 := mk_by 1 (by_modulus v) (convert 64 62 L value) (cint_zero L) (by_adjuster v) in
  match run_until (124 * L + 6) (by_step L v) s0 with
  | inr (Some s) =>
      let antiunit := cint_eqb (by_f s) (cint_minus_one L) in
      if negb (cint_eqb (by_f s) (cint_one L)) && negb antiunit then Done None
      else Done (Some (convert 62 64 S (by_norm v (by_d s) antiunit)))
  | _ => Diverged
  end.

(** derive/src/field/mod.rs:403-413 [invert] *)
Definition fe_invert (c : fconf) (a : list Z) : run (option (list Z)) :=
  match by_inverter_constant c with
  | None => Diverged
  | Some L => by_invert (Z.to_nat L) (num_limbs c) (by_new (Z.to_nat L) (modulus_limbs c) (R2 c)) a
  end.
