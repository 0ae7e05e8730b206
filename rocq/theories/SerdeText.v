(** Model of the serde implementations of feature `derive_serde`:
    `serialize_deserialize_primefield` (src/derive/field/common.rs:87-124),
    `serialize_deserialize_to_from_bytes` (src/derive/curve.rs:185-254) and the derived
    implementation of `QuadExtField` (src/ff_ext/quadratic.rs:168-176).

    The crates serde, serde_arrays and hex are dependencies. What is used of them: a human-readable
    format is given a string, any other format a tuple of bytes, a derived struct the values of
    its fields; hex prints two lower-case digits per byte, high digit first, and reads digits of
    either case. Characters are their codes. *)
From Verif Require Import Base Word Limbs Bytes Field SpecField LimbsFacts FieldFacts Algebra Tower Curve Inverse PrimeField LimbField Sqrt Sqrt2 Serde.
Local Open Scope Z_scope.

(** hex: [encode] *)
Definition hex_char (d : Z) : Z := if d <? 10 then 48 + d else 87 + d.
Definition hex_encode (l : list Z) : list Z := flat_map (fun b => [hex_char (b / 16); hex_char (b mod 16)]) l.
(** hex: [val], error as [None] *)
Definition hex_val (ch : Z) : option Z :=
  if (65 <=? ch) && (ch <=? 70) then Some (ch - 65 + 10)
  else if (97 <=? ch) && (ch <=? 102) then Some (ch - 97 + 10)
  else if (48 <=? ch) && (ch <=? 57) then Some (ch - 48) else None.
Fixpoint hex_pairs (s : list Z) : option (list Z) :=
  match s with
  | h :: l :: rest =>
    match hex_val h, hex_val l, hex_pairs rest with
    | Some a, Some b, Some r => Some (Z.lor (Z.shiftl a 4) b :: r)
    | _, _, _ => None
    end
  | [] => Some []
  | _ => None
  end.
(** hex: [decode_to_slice] into an array of [n] bytes *)
Definition hex_decode (n : nat) (s : list Z) : option (list Z) :=
  if negb (Nat.even (length s)) then None
  else if Nat.eqb (Nat.div2 (length s)) n then hex_pairs s else None.

(** What a format carries. *)
Inductive sval := VStr (s : list Z) | VTuple (l : list Z) | VStruct (l : list sval).
(** common.rs:115-120, curve.rs:192-198: [human] is [is_human_readable()] *)
Definition ser_bytes (human : bool) (bytes : list Z) : sval :=
  if human then VStr (hex_encode bytes) else VTuple bytes.
(** common.rs:99-103, curve.rs:208-212 *)
Definition de_bytes (human : bool) (n : nat) (v : sval) : option (list Z) :=
  match human, v with
  | true, VStr s => hex_decode n s
  | false, VTuple l => if Nat.eqb (length l) n then Some l else None
  | _, _ => None
  end.

(** common.rs:111-122 and 94-108; an error is [None] *)
Definition fe_serialize (c : fconf) (human : bool) (a : list Z) : sval := ser_bytes human (to_repr c a).
Definition fe_deserialize (c : fconf) (human : bool) (v : sval) : option (list Z) :=
  match de_bytes human (size c) v with
  | Some bytes => from_repr c bytes
  | None => None
  end.
(** quadratic.rs:172: the derived implementations, fields in order *)
Definition quad_serialize (c : fconf) (human : bool) (a : quad (list Z)) : sval :=
  VStruct [fe_serialize c human (q0 a); fe_serialize c human (q1 a)].
Definition quad_deserialize (c : fconf) (human : bool) (v : sval) : option (quad (list Z)) :=
  match v with
  | VStruct [v0; v1] =>
    match fe_deserialize c human v0, fe_deserialize c human v1 with
    | Some a, Some b => Some {| q0 := a; q1 := b |}
    | _, _ => None
    end
  | _ => None
  end.

(** curve.rs:224-252 (affine), 190-222 (projective). [to_bytes] may panic ([None]); an error of
    [deserialize] is [SqRet None]. *)
Section Points.
Context {F : Type} (o : fops F) (c : cconf F) (k : codec F) (cf : flag_conf) (lex : bool).
Definition aff_serialize (human : bool) (P : aff F) : option sval :=
  option_map (ser_bytes human) (aff_to_bytes o c k cf lex P).
Definition aff_deserialize (human : bool) (v : sval) : sq_out (aff F) :=
  match de_bytes human (csize k cf) v with
  | Some bytes => aff_from_bytes o c k cf lex bytes
  | None => SqRet None
  end.
Definition proj_serialize (human : bool) (P : proj F) : option sval :=
  option_map (ser_bytes human) (proj_to_bytes o c k cf lex P).
Definition proj_deserialize (human : bool) (v : sval) : sq_out (proj F) :=
  match de_bytes human (csize k cf) v with
  | Some bytes => proj_from_bytes o c k cf lex bytes
  | None => SqRet None
  end.
End Points.
