(** Byte strings and the conversions of src/serde.rs:119-171 (module [endian]).
    A [u8] is an integer in [0,256); arrays and slices are lists. *)
From Verif Require Import Base Word.

(** [u64::to_le_bytes] and friends: the [k] low-order bytes of [x]. *)
Fixpoint le_bytes (k : nat) (x : Z) : list Z :=
  match k with
  | O => []
  | S k' => x mod 256 :: le_bytes k' (x / 256)
  end.
Definition be_bytes (k : nat) (x : Z) : list Z := rev (le_bytes k x).

(** [u64::from_le_bytes] and friends. *)
Fixpoint from_le_bytes (l : list Z) : Z :=
  match l with
  | [] => 0
  | b :: l' => b + 256 * from_le_bytes l'
  end.
Definition from_be_bytes (l : list Z) : Z := from_le_bytes (rev l).

(** [bytes[off*8 .. (off+1)*8]] *)
Definition chunk8 (bytes : list Z) (off : nat) : list Z :=
  firstn 8 (skipn (8 * off) bytes).

(** src/serde.rs:135-150 [Endian::to_bytes] ([big = true] is [Endian::BE]).
    The result buffer has exactly [8 * length el] bytes at every call site. *)
Definition endian_to_bytes (big : bool) (el : list Z) : list Z :=
  if big then flat_map (be_bytes 8) (rev el) else flat_map (le_bytes 8) el.

(** src/serde.rs:152-169 [Endian::from_bytes], filling [n] limbs. *)
Definition endian_from_bytes (big : bool) (n : nat) (res : list Z) : list Z :=
  if big
  then rev (map (fun i => from_be_bytes (chunk8 res i)) (seq 0 n))
  else map (fun i => from_le_bytes (chunk8 res i)) (seq 0 n).
