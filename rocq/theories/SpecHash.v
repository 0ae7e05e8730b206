(** RFC 9380, sections 5.2 and 5.3.1, written from its text: [expand_message_xmd]
    and [hash_to_field]. *)
From Verif Require Import Base SpecField.

(** I2OSP(x, n): the [n]-byte big-endian string of [x]; OS2IP is [be_int]. *)
Fixpoint I2OSP (x : Z) (n : nat) : list Z :=
  match n with
  | O => []
  | S n' => I2OSP (x / 256) n' ++ [x mod 256]
  end.
(** strxor of two strings of the same length *)
Definition strxor (a b : list Z) : list Z := map (fun ab => Z.lxor (fst ab) (snd ab)) (combine a b).

Section Xmd.
Variable H : list Z -> list Z.
Variables b_in_bytes s_in_bytes : nat.

Definition DST_prime (DST : list Z) : list Z := DST ++ I2OSP (Z.of_nat (length DST)) 1.
Definition xmd_b0 (msg DST : list Z) (len_in_bytes : nat) : list Z :=
  let Z_pad := I2OSP 0 s_in_bytes in
  let l_i_b_str := I2OSP (Z.of_nat len_in_bytes) 2 in
  H (Z_pad ++ msg ++ l_i_b_str ++ I2OSP 0 1 ++ DST_prime DST).
(** [b_(i+1)] *)
Fixpoint xmd_b (b0 DST : list Z) (i : nat) : list Z :=
  match i with
  | O => H (b0 ++ I2OSP 1 1 ++ DST_prime DST)
  | S i' => H (strxor b0 (xmd_b b0 DST i') ++ I2OSP (Z.of_nat (S i)) 1 ++ DST_prime DST)
  end.
(** ell = ceil(len_in_bytes / b_in_bytes) *)
Definition xmd_ell (len_in_bytes : nat) : nat :=
  (len_in_bytes / b_in_bytes + if (len_in_bytes mod b_in_bytes =? 0)%nat then 0 else 1)%nat.
(** step 2: abort if ell > 255 or len_in_bytes > 65535 or len(DST) > 255 *)
Definition xmd_supported (DST : list Z) (len_in_bytes : nat) : Prop :=
  (xmd_ell len_in_bytes <= 255)%nat /\ Z.of_nat len_in_bytes <= 65535 /\ (length DST <= 255)%nat.
Definition expand_message_xmd (msg DST : list Z) (len_in_bytes : nat) : list Z :=
  let b0 := xmd_b0 msg DST len_in_bytes in
  firstn len_in_bytes (concat (map (xmd_b b0 DST) (seq 0 (xmd_ell len_in_bytes)))).

(** hash_to_field for an extension of degree [m] and [L] bytes per coefficient:
    coefficient [j] of element [i]. *)
Definition field_coeff (p : Z) (m L : nat) (msg DST : list Z) (count i j : nat) : Z :=
  let uniform_bytes := expand_message_xmd msg DST (count * m * L) in
  be_int (firstn L (skipn (L * (j + i * m)) uniform_bytes)) mod p.
End Xmd.
