(** A build with overflow checks and debug assertions (the default [dev] and [test]
    profiles) of src/arithmetic.rs, src/ff_ext/inverse.rs, src/ff_ext/jacobi.rs and of
    [get_booth_index] of src/msm.rs.

    The models of these files elsewhere have the semantics of a release build: [+], [-],
    [*] and unary [-] wrap around.  Here an operation whose result does not fit, a shift
    by the width of the word or more, an index out of range and a failed
    [debug_assert!] are panics: the outer [None].  Casts and [wrapping_*] stay as they are. *)
From Verif Require Import Base Word Limbs Bytes Field Inverse Jacobi Msm.

Definition obind {A B} (x : option A) (f : A -> option B) : option B :=
  match x with Some a => f a | None => None end.
Notation "x <- e ; k" := (obind e (fun x => k)) (at level 60, e at level 59, right associativity).

(** [x] if it lies in [lo, hi), else a panic *)
Definition ck (lo hi x : Z) : option Z := if (lo <=? x) && (x <? hi) then Some x else None.
Definition u32c (x : Z) : option Z := ck 0 4294967296 x.
Definition u64c (x : Z) : option Z := ck 0 W x.
Definition u128c (x : Z) : option Z := ck 0 (W * W) x.
Definition i32c (x : Z) : option Z := ck (- 2147483648) 2147483648 x.
Definition i64c (x : Z) : option Z := ck (- 9223372036854775808) 9223372036854775808 x.
Definition i128c (x : Z) : option Z :=
  ck (- 170141183460469231731687303715884105728) 170141183460469231731687303715884105728 x.
(** a shift amount for words of [w] bits *)
Definition shc (w n : Z) : option Z := ck 0 w n.
(** [debug_assert!] *)
Definition assertd (b : bool) : option unit := if b then Some tt else None.

(** ** src/arithmetic.rs *)
(** arithmetic.rs:22-25 *)
Definition adc_d (a b carry : Z) : option (Z * Z) :=
  s <- u128c (a + b); ret <- u128c (s + carry); Some (ret mod W, Z.shiftr ret 64 mod W).
(** arithmetic.rs:29-32 *)
Definition sbb_d (a b borrow : Z) : option (Z * Z) :=
  s <- u128c (b + Z.shiftr borrow 63);
  let ret := (a - s) mod (W * W) in Some (ret mod W, Z.shiftr ret 64 mod W).
(** arithmetic.rs:36-39 *)
Definition mac_d (a b c carry : Z) : option (Z * Z) :=
  p <- u128c (b * c); s <- u128c (a + p); ret <- u128c (s + carry); Some (ret mod W, Z.shiftr ret 64 mod W).
(** arithmetic.rs:43-46 *)
Definition macx_d (a b c : Z) : option (Z * Z) :=
  p <- u128c (b * c); res <- u128c (a + p); Some (res mod W, Z.shiftr res 64 mod W).

(** ** src/ff_ext/inverse.rs *)
(** inverse.rs:56-67 *)
Fixpoint cint_add_loop_d (a b : list Z) (carry : Z) : option (list Z) :=
  match a, b with
  | x :: a', y :: b' =>
      s <- u64c (x + y); sum <- u64c (s + carry);
      r <- cint_add_loop_d a' b' (Z.shiftr sum 62); Some (Z.land sum MASK62 :: r)
  | _, _ => Some []
  end.
Definition cint_add_d (a b : list Z) : option (list Z) := cint_add_loop_d a b 0.
(** inverse.rs:83-99, not called in the crate *)
Fixpoint cint_sub_loop_d (a b : list Z) (carry : Z) : option (list Z) :=
  match a, b with
  | x :: a', y :: b' =>
      s <- u64c (x + Z.lxor y MASK62); sum <- u64c (s + carry);
      r <- cint_sub_loop_d a' b' (Z.shiftr sum 62); Some (Z.land sum MASK62 :: r)
  | _, _ => Some []
  end.
Definition cint_sub_d (a b : list Z) : option (list Z) := cint_sub_loop_d a b 1.
(** inverse.rs:113-127 *)
Fixpoint cint_neg_loop_d (a : list Z) (carry : Z) : option (list Z) :=
  match a with
  | x :: a' =>
      sum <- u64c (Z.lxor x MASK62 + carry);
      r <- cint_neg_loop_d a' (Z.shiftr sum 62); Some (Z.land sum MASK62 :: r)
  | [] => Some []
  end.
Definition cint_neg_d (a : list Z) : option (list Z) := cint_neg_loop_d a 1.
(** inverse.rs:136-152, not called in the crate: the row of chunk [x] of the first factor
    updates [data[i ..]], whose first entry is then final. *)
Fixpoint cint_mul_row_d (x : Z) (b data : list Z) (carry : Z) : option (list Z) :=
  match b, data with
  | y :: b', d :: data' =>
      s <- u128c (d + carry); p <- u128c (x * y); sum <- u128c (s + p);
      r <- cint_mul_row_d x b' data' (Z.shiftr sum 62 mod W); Some (Z.land (sum mod W) MASK62 :: r)
  | _, _ => Some []
  end.
Fixpoint cint_mul_all_d (a b data : list Z) : option (list Z) :=
  match a with
  | [] => Some []
  | x :: a' =>
      row <- cint_mul_row_d x b data 0;
      match row with
      | [] => Some []
      | d :: data' => r <- cint_mul_all_d a' b data'; Some (d :: r)
      end
  end.
Definition cint_mul_d (a b : list Z) : option (list Z) := cint_mul_all_d a b (repeat 0 (length a)).
(** inverse.rs:169-197 *)
Fixpoint cint_mul_loop_d (a : list Z) (other mask carry : Z) : option (list Z) :=
  match a with
  | x :: a' =>
      p <- u128c (Z.lxor x mask * other); sum <- u128c (carry + p);
      r <- cint_mul_loop_d a' other mask (Z.shiftr sum 62 mod W); Some (Z.land (sum mod W) MASK62 :: r)
  | [] => Some []
  end.
Definition cint_mul_i64_d (a : list Z) (other : Z) : option (list Z) :=
  if other <? 0 then o <- i64c (- other); cint_mul_loop_d a o MASK62 (o mod W)
  else cint_mul_loop_d a other 0 0.

(** inverse.rs:260-291; the inner [None] is the end of the fuel. *)
Fixpoint jump_loop_d (fuel : nat) (steps delta f g : Z) (t : matrix) : option (option (Z * matrix)) :=
  match fuel with
  | O => Some None
  | S fuel' =>
      let zeros := Z.min steps (ctz128 g) in
      steps <- i64c (steps - zeros);
      delta <- i64c (delta + zeros);
      _ <- shc 128 zeros;
      let g := Z.shiftr g zeros in
      _ <- shc 64 zeros;
      let t := mk_mat (i64w (Z.shiftl (t00 t) zeros)) (i64w (Z.shiftl (t01 t) zeros)) (t10 t) (t11 t) in
      if steps =? 0 then Some (Some (delta, t))
      else
        st <-
          (if 0 <? delta then
             d <- i64c (- delta); f' <- i64c (- f); m0 <- i64c (- t00 t); m1 <- i64c (- t01 t);
             Some (d, i64w g, f', mk_mat (t10 t) (t11 t) m0 m1)
           else Some (delta, f, g, t));
        let '(delta, f, g, t) := st in
        od <- i64c (1 - delta);
        sh <- shc 64 (Z.min (Z.min steps od) 5);
        mask <- i64c (i64w (Z.shiftl 1 sh) - 1);
        let w := Z.land (i64w (i64w g * Z.lxor (i64w (f * 3)) 28)) mask in
        p0 <- i64c (t00 t * w); r0 <- i64c (p0 + t10 t);
        p1 <- i64c (t01 t * w); r1 <- i64c (p1 + t11 t);
        p <- i128c (w * f); g <- i128c (g + p);
        jump_loop_d fuel' steps delta f g (mk_mat (t00 t) (t01 t) r0 r1)
  end.
Definition jump_d (f g : list Z) (delta : Z) : option (option (Z * matrix)) :=
  jump_loop_d 64 62 delta (cint_lowest f) (cint_lowest g) (mk_mat 1 0 0 1).

(** inverse.rs:295-300, one row *)
Definition by_fg_row_d (f g : list Z) (ta tb : Z) : option (list Z) :=
  x <- cint_mul_i64_d f ta; y <- cint_mul_i64_d g tb; s <- cint_add_d x y; Some (cint_shift s).
(** inverse.rs:306-328, one row *)
Definition by_de_row_d (v : inverter) (d e : list Z) (ta tb : Z) : option (list Z) :=
  a <- i64c (ta * b2z (cint_is_negative d)); b <- i64c (tb * b2z (cint_is_negative e)); md <- i64c (a + b);
  let cd := Z.land (i64w (i64w (ta * cint_lowest d) + i64w (tb * cint_lowest e))) MASK62 in
  md <- i64c (md - Z.land (i64w (i64w (by_inverse v * cd) + md)) MASK62);
  x <- cint_mul_i64_d d ta; y <- cint_mul_i64_d e tb; s <- cint_add_d x y;
  z <- cint_mul_i64_d (by_modulus v) md; s <- cint_add_d s z;
  Some (cint_shift s).
(** inverse.rs:333-347 *)
Definition by_norm_d (v : inverter) (value : list Z) (negate : bool) : option (list Z) :=
  value <- (if cint_is_negative value then cint_add_d value (by_modulus v) else Some value);
  value <- (if negate then cint_neg_d value else Some value);
  if cint_is_negative value then cint_add_d value (by_modulus v) else Some value.

(** inverse.rs:352-380; [usize] sums are taken to fit. *)
Fixpoint convert_loop_d (fuel : nat) (I O total : nat) (input output : list Z) (bits : nat) : option (list Z) :=
  match fuel with
  | 0%nat => Some output
  | S fuel' =>
      if Nat.ltb bits total then
        let i := (bits mod I)%nat in
        let o := (bits mod O)%nat in
        x <- nth_error input (bits / I); y <- nth_error output (bits / O);
        _ <- shc 64 (Z.of_nat i); _ <- shc 64 (Z.of_nat o);
        let word := Z.shiftl (Z.shiftr x (Z.of_nat i)) (Z.of_nat o) mod W in
        _ <- assertd (Nat.leb i I); _ <- assertd (Nat.leb o O);
        convert_loop_d fuel' I O total input (set_nth (bits / O) (Z.lor y word) output)
          (bits + Nat.min (I - i) (O - o))
      else Some output
  end.
Definition convert_d (I O S : nat) (input : list Z) : option (list Z) :=
  let total := Nat.min (length input * I) (S * O) in
  output <- convert_loop_d total I O total input (repeat 0 S) 0;
  _ <- assertd (Nat.leb O 64); _ <- shc 64 (Z.of_nat (64 - O));
  let filled := (total / O + if Nat.ltb 0 (total mod O) then 1 else 0)%nat in
  _ <- assertd (Nat.leb filled (length output));
  Some (map (fun x => Z.land x (Z.ones (Z.of_nat O))) (firstn filled output) ++ skipn filled output).

(** inverse.rs:397-403; [by_inv] only has wrapping operations. *)
Definition by_new_d (L : nat) (modulus adjuster : list Z) : option inverter :=
  m <- convert_d 64 62 L modulus; a <- convert_d 64 62 L adjuster; m0 <- nth_error modulus 0;
  Some {| by_modulus := m; by_adjuster := a; by_inverse := by_inv m0 |}.

(** inverse.rs:407-425 *)
Definition by_step_d (L : nat) (v : inverter) (s : by_state) : by_state + option (option by_state) :=
  if cint_eqb (by_g s) (cint_zero L) then inr (Some (Some s))
  else
    match jump_d (by_f s) (by_g s) (by_delta s) with
    | None => inr None
    | Some None => inr (Some None)
    | Some (Some (delta, t)) =>
        match (f <- by_fg_row_d (by_f s) (by_g s) (t00 t) (t01 t);
               g <- by_fg_row_d (by_f s) (by_g s) (t10 t) (t11 t);
               d <- by_de_row_d v (by_d s) (by_e s) (t00 t) (t01 t);
               e <- by_de_row_d v (by_d s) (by_e s) (t10 t) (t11 t);
               Some (mk_by delta f g d e)) with
        | None => inr None
        | Some s => inl s
        end
    end.
Definition by_invert_d (L S : nat) (v : inverter) (value : list Z) : option (run (option (list Z))) :=
  g <- convert_d 64 62 L value;
  let s0 := mk_by 1 (by_modulus v) g (cint_zero L) (by_adjuster v) in
  match run_until (124 * L + 6) (by_step_d L v) s0 with
  | inr None => None
  | inr (Some (Some s)) =>
      let antiunit := cint_eqb (by_f s) (cint_minus_one L) in
      if negb (cint_eqb (by_f s) (cint_one L)) && negb antiunit then Some (Done None)
      else n <- by_norm_d v (by_d s) antiunit; r <- convert_d 62 64 S n; Some (Done (Some r))
  | _ => Some Diverged
  end.
(** derive/src/field/mod.rs:403-413 *)
Definition fe_invert_d (c : fconf) (a : list Z) : option (run (option (list Z))) :=
  match by_inverter_constant c with
  | None => Some Diverged
  | Some L =>
      v <- by_new_d (Z.to_nat L) (modulus_limbs c) (R2 c);
      by_invert_d (Z.to_nat L) (num_limbs c) v a
  end.

(** ** src/ff_ext/jacobi.rs *)
(** jacobi.rs:52-57 *)
Definition lint_prodsum_d (first second summand carry : Z) : option (Z * Z) :=
  p <- u128c (first * second); s <- u128c (p + carry); all <- u128c (s + summand);
  Some (all mod W, Z.shiftr all 64 mod W).
(** jacobi.rs:66-95 *)
Definition lint_shr_d (a : list Z) (bits : Z) : option (list Z) :=
  _ <- assertd ((0 <? bits) && (bits <? 64));
  right <- u32c (64 - bits); _ <- shc 64 bits; _ <- shc 64 right;
  Some (lint_shr_loop a bits (lint_is_negative a)).
(** jacobi.rs:202-249 *)
Fixpoint lint_mul_i64_loop_d (a : list Z) (other mask carry : Z) : option (list Z) :=
  match a with
  | x :: a' =>
      dc <- lint_prodsum_d (Z.lxor x mask) other 0 carry;
      r <- lint_mul_i64_loop_d a' other mask (snd dc); Some (fst dc :: r)
  | [] => Some []
  end.
Definition lint_mul_i64_d (a : list Z) (other : Z) : option (list Z) :=
  if other <? 0 then o <- i64c (- other); lint_mul_i64_loop_d a (o mod W) (W - 1) (o mod W)
  else lint_mul_i64_loop_d a (other mod W) 0 0.

(** jacobi.rs:263-290 *)
Definition approximate_d (L : nat) (x y : list Z) : option (Z * Z * bool) :=
  _ <- assertd (negb (lint_is_negative x || lint_is_negative y));
  _ <- assertd (negb (lint_eqb x (lint_zero L)) || negb (lint_eqb y (lint_zero L)));
  i <- approx_top x y (L - 1);
  match i with
  | O => Some (nth 0 x 0, nth 0 y 0, true)
  | S i' =>
      let hx := nth i x 0 in
      let hy := nth i y 0 in
      z <- shc 64 (Z.min (clz64 hx) (clz64 hy));
      let hx := Z.shiftl hx z mod W in
      let hy := Z.shiftl hy z mod W in
      let hx := if 32 <? z then Z.lor hx (Z.shiftr (nth i' x 0) z) else hx in
      let hy := if 32 <? z then Z.lor hy (Z.shiftr (nth i' y 0) z) else hy in
      let mh := Z.shiftl (W - 1) 32 mod W in
      let ml := Z.shiftr (W - 1) 32 in
      Some (Z.lor (Z.land hx mh) (Z.land (nth 0 x 0) ml),
            Z.lor (Z.land hy mh) (Z.land (nth 0 y 0) ml), false)
  end.

(** [(d == 1) as i64 * (1 - (t & 2) as i64)] *)
Definition jac_result_d (unit : bool) (t : Z) : option Z :=
  s <- i64c (1 - Z.land t 2); i64c (b2z unit * s).

(** jacobi.rs:298-316, one round; [None] is a panic. *)
Definition jacobinary_step_d (s : Z * Z * Z) : (Z * Z * Z) + option Z :=
  let '(n, d, t) := s in
  if n =? 0 then inr (jac_result_d (d =? 1) t)
  else if 0 <? Z.land n 1 then
    let '(n, d, t) := if n <? d then (d, n, Z.lxor t (Z.land d n)) else (n, d, t) in
    match u64c (n - d) with
    | None => inr None
    | Some s => inl (Z.shiftr s 1, d, Z.lxor t (Z.lxor d (Z.shiftr d 1)))
    end
  else
    match shc 64 (ctz64 n) with
    | None => inr None
    | Some z => inl (Z.shiftr n z, d, Z.lxor t (Z.land (Z.lxor d (Z.shiftr d 1)) (Z.shiftl z 1)))
    end.

(** jacobi.rs:354-392 *)
Definition jac_inner_step_d (s : jac_in) : option jac_in :=
  if 0 <? Z.land (ja s) 1 then
    let s := if ja s <? jb s
             then mk_jin (jb s) (ja s) (jv0 s) (jv1 s) (ju0 s) (ju1 s)
                         (Z.lxor (jt s) (Z.land (jb s) (ja s))) (ji s)
             else s in
    df <- u64c (ja s - jb s); u0 <- i64c (ju0 s - jv0 s); u1 <- i64c (ju1 s - jv1 s); i <- u32c (ji s - 1);
    Some (mk_jin (Z.shiftr df 1) (jb s) u0 u1
           (i64w (Z.shiftl (jv0 s) 1)) (i64w (Z.shiftl (jv1 s) 1))
           (Z.lxor (jt s) (Z.lxor (jb s) (Z.shiftr (jb s) 1))) i)
  else
    z <- shc 64 (Z.min (ji s) (ctz64 (ja s))); i <- u32c (ji s - z);
    Some (mk_jin (Z.shiftr (ja s) z) (jb s) (ju0 s) (ju1 s)
           (i64w (Z.shiftl (jv0 s) z)) (i64w (Z.shiftl (jv1 s) z))
           (Z.lxor (jt s) (Z.land (Z.lxor (jb s) (Z.shiftr (jb s) 1)) (Z.shiftl z 1))) i).
Fixpoint jac_inner_d (fuel : nat) (s : jac_in) : option (option jac_in) :=
  if 0 <? ji s then
    match fuel with
    | O => Some None
    | S fuel' => s <- jac_inner_step_d s; jac_inner_d fuel' s
    end
  else Some (Some s).

(** jacobi.rs:344-416, one round of the outer loop *)
Definition lint_comb_d (n d : list Z) (u v : Z) : option (list Z) :=
  x <- lint_mul_i64_d n u; y <- lint_mul_i64_d d v; lint_shr_d (lint_add x y) 30.
Definition jac_step_d (L : nat) (s : list Z * list Z * Z) : (list Z * list Z * Z) + jac_out :=
  let '(n, d, t) := s in
  match approximate_d L n d with
  | None => inr JPanic
  | Some (a, b, true) =>
      match assertd (0 <? Z.land b 1) with
      | None => inr JPanic
      | Some _ =>
          match run_until 8 jacobinary_step_d (a, b, t) with
          | inr None => inr JPanic
          | inr (Some r) => inr (JVal r)
          | inl _ => inr JDiverged
          end
      end
  | Some (a, b, false) =>
      match jac_inner_d 30 (mk_jin a b 1 0 0 1 t 30) with
      | None => inr JPanic
      | Some None => inr JDiverged
      | Some (Some s) =>
          match (n' <- lint_comb_d n d (ju0 s) (ju1 s); d' <- lint_comb_d n d (jv0 s) (jv1 s); Some (n', d')) with
          | None => inr JPanic
          | Some (n', d') =>
              let t := jt s in
              if lint_eqb n' (lint_zero L) then
                match jac_result_d (lint_eqb d' (lint_one L)) t with
                | None => inr JPanic
                | Some r => inr (JVal r)
                end
              else if lint_is_negative n' then inl (lint_neg n', d', Z.lxor t (hd 0 d'))
              else if lint_is_negative d' then inl (n', lint_neg d', t)
              else inl (n', d', t)
          end
      end
  end.
(** jacobi.rs:331-417 *)
Definition jacobi_d (L : nat) (n d : list Z) : jac_out :=
  match lint_new L n, lint_new L d with
  | Some n, Some d =>
      match assertd (0 <? Z.land (hd 0 d) 1),
            assertd (31 <=? Z.min (clz64 (last n 0)) (clz64 (last d 0))) with
      | Some _, Some _ =>
          match run_until (2 * L + 16) (jac_step_d L) (n, d, 0) with
          | inr r => r
          | inl _ => JDiverged
          end
      | _, _ => JPanic
      end
  | _, _ => JPanic
  end.
(** derive/src/field/mod.rs:347-355 and src/ff_ext/mod.rs:25-35 *)
Definition fe_legendre_d (c : fconf) (a : list Z) : jac_out :=
  match jacobi_constant c with
  | None => JDiverged
  | Some L => jacobi_d (Z.to_nat L) a (modulus_limbs c)
  end.

(** ** src/msm.rs:13-55 [get_booth_index]; [usize] products are taken to fit. *)
Definition get_booth_index_d (window_index window_size : Z) (el : list Z) : option Z :=
  let skip_bits := Z.max 0 (window_index * window_size - 1) in
  let skip_bytes := skip_bits / 8 in
  let tmp := from_le_bytes (booth_bytes skip_bytes el) in
  let tmp := if window_index =? 0 then Z.shiftl tmp 1 mod 2 ^ 32 else tmp in
  sh <- u64c (skip_bits - skip_bytes * 8); sh <- shc 32 sh;
  let tmp := Z.shiftr tmp sh in
  ws1 <- shc 32 (window_size + 1); m <- u32c (Z.shiftl 1 ws1 mod 2 ^ 32 - 1);
  let tmp := Z.land tmp m in
  ws <- shc 32 window_size;
  let sign := Z.land tmp (Z.shiftl 1 ws mod 2 ^ 32) =? 0 in
  s <- u32c (tmp + 1);
  let tmp := Z.shiftr s 1 in
  if sign then Some tmp
  else
    p <- u32c (tmp - 1); m <- u32c (Z.shiftl 1 ws mod 2 ^ 32 - 1);
    i32c (- Z.land (2 ^ 32 - 1 - p) m).
