(** Model of [expand_message] and [hash_to_field] of src/hash_to_curve.rs.

    The hash function (trait [Digest + BlockSizeUser]) is a parameter: any
    function from byte strings to byte strings with its two sizes.  A sequence of
    [update] calls followed by [finalize] is the function on the concatenation.
    [None] is a panic: a failed [assert!], a division by zero, or an arithmetic
    overflow (overflow checks on). *)
From Verif Require Import Base.

Record digest := { hash : list Z -> list Z; block_size : nat; output_size : nat }.

(** [x as u8] *)
Definition as_u8 (x : nat) : Z := Z.of_nat x mod 256.

(** [dst.iter_mut().zip(src.iter()).for_each(|(a, b)| *a = *b)] *)
Fixpoint zip_write (dst src : list Z) : list Z :=
  match dst, src with
  | _ :: dst', b :: src' => b :: zip_write dst' src'
  | _, _ => dst
  end.
(** [out.iter_mut().skip(k).zip(src.iter())...] *)
Definition write_skip (out : list Z) (k : nat) (src : list Z) : list Z :=
  firstn k out ++ zip_write (skipn k out) src.
(** [b_0.iter().zip(b_i.iter())...h.update([*b_0 ^ *b_i])] *)
Fixpoint zip_xor (a b : list Z) : list Z :=
  match a, b with
  | x :: a', y :: b' => Z.lxor x y :: zip_xor a' b'
  | _, _ => []
  end.

Section Expand.
Variable D : digest.
Variables domain_prefix domain : list Z.
Definition dst_tail : list Z :=
  domain_prefix ++ domain ++ [as_u8 (length domain + length domain_prefix)].

(** hash_to_curve.rs:60-76, the [for i in 1..ell] loop *)
Fixpoint expand_loop (b_0 : list Z) (is : list nat) (b_i out : list Z) : option (list Z * list Z) :=
  match is with
  | [] => Some (b_i, out)
  | i :: is' =>
      let counter := 1 + as_u8 i in
      if 256 <=? counter then None
      else
        let h := hash D (zip_xor b_0 b_i ++ [counter] ++ dst_tail) in
        expand_loop b_0 is' h (write_skip out ((i - 1) * output_size D) b_i)
  end.

(** hash_to_curve.rs:28-84 [expand_message] *)
Definition expand_message (message : list Z) (out_len : nat) : option (list Z) :=
  if negb (length domain_prefix + length domain <? 256)%nat then None
  else
    let b_0 := hash D (repeat 0 (block_size D) ++ message ++
                       [as_u8 (out_len / 256); as_u8 out_len; 0] ++ dst_tail) in
    let b_i := hash D (b_0 ++ [1] ++ dst_tail) in
    let output_size := output_size D in
    if (output_size =? 0)%nat then None
    else
      let ell := ((out_len + output_size - 1) / output_size)%nat in
      let out := repeat 0 out_len in
      match expand_loop b_0 (seq 1 (ell - 1)) b_i out with
      | None => None
      | Some (b_i, out) =>
          if (ell =? 0)%nat then None
          else Some (write_skip out ((ell - 1) * output_size) b_i)
      end.

(** hash_to_curve.rs:130-148 [hash_to_field]; [from_uniform_bytes] is that of the
    base field, for arrays of [L] bytes. *)
Definition hash_to_field {F} (from_uniform_bytes : list Z -> F) (L : nat) (message : list Z) : option (F * F) :=
  match expand_message message (L * 2) with
  | None => None
  | Some out =>
      let u0 := from_uniform_bytes (rev (firstn L out)) in
      let u1 := from_uniform_bytes (rev (firstn (L * 2 - L) (skipn L out))) in
      Some (u0, u1)
  end.
End Expand.
