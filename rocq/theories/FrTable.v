(** The table of small scalars of feature `bn256-table`: script/bn256.py and `From<u64>` of
    src/bn256/fr.rs. The printing of the table as Rust source and its compilation are not
    modelled. *)
From Verif Require Import Base Word Limbs Bytes Field Params Asm.
Local Open Scope Z_scope.

(** script/bn256.py:6-8 *)
Definition script_modulus : Z := 0x30644e72e131a029b85045b68181585d2833e84879b9709143e1f593f0000001.
Definition script_R : Z := 2 ^ 256 mod script_modulus.
Definition table_size : Z := Z.shiftl 1 16.
(** script/bn256.py:13-21 *)
Definition decompose_field_element (a : Z) : list Z :=
  let a0 := a mod 2 ^ 64 in let a := a / 2 ^ 64 in
  let a1 := a mod 2 ^ 64 in let a := a / 2 ^ 64 in
  let a2 := a mod 2 ^ 64 in let a := a / 2 ^ 64 in
  [a0; a1; a2; a].
(** script/bn256.py:39-43 *)
Definition FR_TABLE : list (list Z) :=
  map (fun i => decompose_field_element (Z.of_nat i * script_R mod script_modulus)) (seq 0 (Z.to_nat table_size)).
(** src/bn256/fr.rs:27-36; [None] is the panic of an index out of range, or in the assembly. *)
Definition table_from_u64 (val : Z) : option (list Z) :=
  if val <? 65536 then nth_error FR_TABLE (Z.to_nat val)
  else Some (fe_mul bn256_fr [val; 0; 0; 0] (R2 bn256_fr)).
(** The same with feature `asm`, for any processor state at the call. *)
Definition table_from_u64_asm (s : cpu) (val : Z) : option (list Z) :=
  if val <? 65536 then nth_error FR_TABLE (Z.to_nat val)
  else asm_from_u64 bn256_fr s val.
