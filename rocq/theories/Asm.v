(** Model of the inline assembly of derive/src/field/asm/limb4.rs, used by the
    macro with feature [asm] for the fields of four limbs and fewer than 256
    bits (derive/src/field/mod.rs:548-556).

    The model is an interpreter for the x86-64 instructions that occur there
    and the instruction lists as they stand in the file.  The code only reads
    memory: the arrays behind [a_ptr], [b_ptr] and [m_ptr] are lists of words,
    addressed by byte offset, and a read outside them is an error.  A register
    holds a word; a flag is [Some] bit, or [None] when the architecture leaves
    it undefined or the model does not follow it, and using such a flag is an
    error too.  The compiler places the [in(reg)] operands in registers
    different from all [out] registers; they are separate operands here. *)
From Verif Require Import Base Word Bytes Field.

Inductive reg := RAX | RCX | RDX | R8 | R9 | R10 | R11 | R12 | R13 | R14 | R15.
Inductive ptr := Aptr | Bptr | Mptr.
(** Source operands: a register, [qword ptr [{ptr} + off]], an immediate, the
    operand [{inv}]. *)
Inductive operand := Reg (r : reg) | Mem (p : ptr) (off : nat) | Imm (z : Z) | Inv.

(** Intel operand order: destination first; [MULX hi lo src]. *)
Inductive instr :=
  | MOV (d : reg) (s : operand)
  | ADD (d : reg) (s : operand)
  | ADC (d : reg) (s : operand)
  | ADCX (d : reg) (s : operand)
  | ADOX (d : reg) (s : operand)
  | SUB (d : reg) (s : operand)
  | SBB (d : reg) (s : operand)
  | MULX (hi lo : reg) (s : operand)
  | IMUL (d : reg) (s : operand)
  | XOR (d : reg) (s : operand)
  | AND (d : reg) (s : operand)
  | OR (d : reg) (s : operand)
  | CMP (d : reg) (s : operand)
  | CMOVC (d : reg) (s : operand)
  | CMOVNC (d : reg) (s : operand)
  | CMOVE (d : reg) (s : operand).

Record cpu := mkcpu {
  g_rax : Z; g_rcx : Z; g_rdx : Z; g_r8 : Z; g_r9 : Z; g_r10 : Z; g_r11 : Z;
  g_r12 : Z; g_r13 : Z; g_r14 : Z; g_r15 : Z;
  f_cf : option Z; f_of : option Z; f_zf : option Z }.

Definition getr (r : reg) (s : cpu) : Z :=
  match r with
  | RAX => g_rax s | RCX => g_rcx s | RDX => g_rdx s | R8 => g_r8 s | R9 => g_r9 s
  | R10 => g_r10 s | R11 => g_r11 s | R12 => g_r12 s | R13 => g_r13 s
  | R14 => g_r14 s | R15 => g_r15 s
  end.
Definition setr (r : reg) (v : Z) (s : cpu) : cpu :=
  let '(mkcpu a c d x8 x9 x10 x11 x12 x13 x14 x15 cf o z) := s in
  match r with
  | RAX => mkcpu v c d x8 x9 x10 x11 x12 x13 x14 x15 cf o z
  | RCX => mkcpu a v d x8 x9 x10 x11 x12 x13 x14 x15 cf o z
  | RDX => mkcpu a c v x8 x9 x10 x11 x12 x13 x14 x15 cf o z
  | R8 => mkcpu a c d v x9 x10 x11 x12 x13 x14 x15 cf o z
  | R9 => mkcpu a c d x8 v x10 x11 x12 x13 x14 x15 cf o z
  | R10 => mkcpu a c d x8 x9 v x11 x12 x13 x14 x15 cf o z
  | R11 => mkcpu a c d x8 x9 x10 v x12 x13 x14 x15 cf o z
  | R12 => mkcpu a c d x8 x9 x10 x11 v x13 x14 x15 cf o z
  | R13 => mkcpu a c d x8 x9 x10 x11 x12 v x14 x15 cf o z
  | R14 => mkcpu a c d x8 x9 x10 x11 x12 x13 v x15 cf o z
  | R15 => mkcpu a c d x8 x9 x10 x11 x12 x13 x14 v cf o z
  end.
Definition set_cf (v : option Z) (s : cpu) : cpu :=
  let '(mkcpu a c d x8 x9 x10 x11 x12 x13 x14 x15 _ o z) := s in
  mkcpu a c d x8 x9 x10 x11 x12 x13 x14 x15 v o z.
Definition set_of (v : option Z) (s : cpu) : cpu :=
  let '(mkcpu a c d x8 x9 x10 x11 x12 x13 x14 x15 cf _ z) := s in
  mkcpu a c d x8 x9 x10 x11 x12 x13 x14 x15 cf v z.
Definition set_zf (v : option Z) (s : cpu) : cpu :=
  let '(mkcpu a c d x8 x9 x10 x11 x12 x13 x14 x15 cf o _) := s in
  mkcpu a c d x8 x9 x10 x11 x12 x13 x14 x15 cf o v.

(** What the operands of an [asm!] block refer to. *)
Record memory := { at_a : list Z; at_b : list Z; at_m : list Z; the_inv : Z }.

Definition array (m : memory) (p : ptr) : list Z :=
  match p with Aptr => at_a m | Bptr => at_b m | Mptr => at_m m end.
Definition read_mem (m : memory) (p : ptr) (off : nat) : option Z :=
  if Nat.eqb (Nat.modulo off 8) 0 then nth_error (array m p) (Nat.div off 8) else None.
Definition value (m : memory) (o : operand) (s : cpu) : option Z :=
  match o with
  | Reg r => Some (getr r s)
  | Mem p off => read_mem m p off
  | Imm z => Some z
  | Inv => Some (the_inv m)
  end.

(** Word arithmetic: sum with carry, difference with borrow, double-word
    product. *)
Definition sum_lo (x y c : Z) : Z := (x + y + c) mod W.
Definition sum_hi (x y c : Z) : Z := (x + y + c) / W.
Definition dif_lo (x y c : Z) : Z := (x - y - c) mod W.
Definition dif_hi (x y c : Z) : Z := if x - y - c <? 0 then 1 else 0.
Definition prod_lo (x y : Z) : Z := (x * y) mod W.
Definition prod_hi (x y : Z) : Z := (x * y) / W.
Definition is_zero (x : Z) : Z := if x =? 0 then 1 else 0.

(** [ADD]-like: CF is the carry; OF and ZF are not followed. *)
Definition do_sum (d : reg) (v c : Z) (s : cpu) : cpu :=
  set_cf (Some (sum_hi (getr d s) v c)) (set_of None (set_zf None
    (setr d (sum_lo (getr d s) v c) s))).
Definition do_dif (d : reg) (v c : Z) (s : cpu) : cpu :=
  set_cf (Some (dif_hi (getr d s) v c)) (set_of None (set_zf None
    (setr d (dif_lo (getr d s) v c) s))).
(** [AND], [OR], [XOR] clear CF and OF and set ZF by the result. *)
Definition do_logic (d : reg) (r : Z) (s : cpu) : cpu :=
  set_cf (Some 0) (set_of (Some 0) (set_zf (Some (is_zero r)) (setr d r s))).
Definition do_cmov (d : reg) (v : Z) (b : bool) (s : cpu) : cpu :=
  if b then setr d v s else s.

(** Intel SDM vol. 2, one entry per instruction. *)
Definition exec (m : memory) (i : instr) (s : cpu) : option cpu :=
  match i with
  | MOV d o => match value m o s with Some v => Some (setr d v s) | None => None end
  | ADD d o => match value m o s with Some v => Some (do_sum d v 0 s) | None => None end
  | ADC d o => match value m o s, f_cf s with
               | Some v, Some c => Some (do_sum d v c s) | _, _ => None end
  | ADCX d o => match value m o s, f_cf s with
                | Some v, Some c => Some (set_cf (Some (sum_hi (getr d s) v c))
                                            (setr d (sum_lo (getr d s) v c) s))
                | _, _ => None end
  | ADOX d o => match value m o s, f_of s with
                | Some v, Some c => Some (set_of (Some (sum_hi (getr d s) v c))
                                            (setr d (sum_lo (getr d s) v c) s))
                | _, _ => None end
  | SUB d o => match value m o s with Some v => Some (do_dif d v 0 s) | None => None end
  | SBB d o => match value m o s, f_cf s with
               | Some v, Some c => Some (do_dif d v c s) | _, _ => None end
  | MULX hi lo o => match value m o s with
                    | Some v => Some (setr hi (prod_hi (g_rdx s) v)
                                        (setr lo (prod_lo (g_rdx s) v) s))
                    | None => None end
  | IMUL d o => match value m o s with
                | Some v => Some (set_cf None (set_of None (set_zf None
                                    (setr d (prod_lo (getr d s) v) s))))
                | None => None end
  | XOR d o => match value m o s with
               | Some v => Some (do_logic d (Z.lxor (getr d s) v) s) | None => None end
  | AND d o => match value m o s with
               | Some v => Some (do_logic d (Z.land (getr d s) v) s) | None => None end
  | OR d o => match value m o s with
              | Some v => Some (do_logic d (Z.lor (getr d s) v) s) | None => None end
  | CMP d o => match value m o s with
               | Some v => Some (set_cf (Some (dif_hi (getr d s) v 0)) (set_of None
                                   (set_zf (Some (is_zero (dif_lo (getr d s) v 0))) s)))
               | None => None end
  | CMOVC d o => match value m o s, f_cf s with
                 | Some v, Some c => Some (do_cmov d v (c =? 1) s) | _, _ => None end
  | CMOVNC d o => match value m o s, f_cf s with
                  | Some v, Some c => Some (do_cmov d v (c =? 0) s) | _, _ => None end
  | CMOVE d o => match value m o s, f_zf s with
                 | Some v, Some c => Some (do_cmov d v (c =? 1) s) | _, _ => None end
  end.

Fixpoint run (m : memory) (code : list instr) (s : cpu) : option cpu :=
  match code with
  | [] => Some s
  | i :: code' => match exec m i s with Some s' => run m code' s' | None => None end
  end.

(** The code, one line per instruction of the file. *)

(** limb4.rs:17-44 *)
Definition asm_double_code : list instr :=
  [
   MOV R8 (Mem Aptr 0);
   MOV R9 (Mem Aptr 8);
   MOV R10 (Mem Aptr 16);
   MOV R11 (Mem Aptr 24);
   ADD R8 (Reg R8);
   ADC R9 (Reg R9);
   ADC R10 (Reg R10);
   ADC R11 (Reg R11);
   MOV R12 (Reg R8);
   MOV R13 (Reg R9);
   MOV R14 (Reg R10);
   MOV R15 (Reg R11);
   SUB R12 (Mem Mptr 0);
   SBB R13 (Mem Mptr 8);
   SBB R14 (Mem Mptr 16);
   SBB R15 (Mem Mptr 24);
   CMOVC R12 (Reg R8);
   CMOVC R13 (Reg R9);
   CMOVC R14 (Reg R10);
   CMOVC R15 (Reg R11)
  ].

(** limb4.rs:77-173 *)
Definition asm_from_mont_code : list instr :=
  [
   MOV R8 (Mem Aptr 0);
   MOV R9 (Mem Aptr 8);
   MOV R10 (Mem Aptr 16);
   MOV R11 (Mem Aptr 24);
   MOV R15 Inv;
   XOR R12 (Reg R12);
   MOV RDX (Reg R8);
   MULX RCX RDX (Reg R15);
   MULX RCX RAX (Mem Mptr 0);
   ADOX R8 (Reg RAX);
   ADCX R9 (Reg RCX);
   MULX RCX RAX (Mem Mptr 8);
   ADOX R9 (Reg RAX);
   ADCX R10 (Reg RCX);
   MULX RCX RAX (Mem Mptr 16);
   ADOX R10 (Reg RAX);
   ADCX R11 (Reg RCX);
   MULX RCX RAX (Mem Mptr 24);
   ADOX R11 (Reg RAX);
   ADCX R8 (Reg RCX);
   ADOX R8 (Reg R12);
   MOV RDX (Reg R9);
   MULX RCX RDX (Reg R15);
   MULX RCX RAX (Mem Mptr 0);
   ADOX R9 (Reg RAX);
   ADCX R10 (Reg RCX);
   MULX RCX RAX (Mem Mptr 8);
   ADOX R10 (Reg RAX);
   ADCX R11 (Reg RCX);
   MULX RCX RAX (Mem Mptr 16);
   ADOX R11 (Reg RAX);
   ADCX R8 (Reg RCX);
   MULX RCX RAX (Mem Mptr 24);
   ADOX R8 (Reg RAX);
   ADCX R9 (Reg RCX);
   ADOX R9 (Reg R12);
   MOV RDX (Reg R10);
   MULX RCX RDX (Reg R15);
   MULX RCX RAX (Mem Mptr 0);
   ADOX R10 (Reg RAX);
   ADCX R11 (Reg RCX);
   MULX RCX RAX (Mem Mptr 8);
   ADOX R11 (Reg RAX);
   ADCX R8 (Reg RCX);
   MULX RCX RAX (Mem Mptr 16);
   ADOX R8 (Reg RAX);
   ADCX R9 (Reg RCX);
   MULX RCX RAX (Mem Mptr 24);
   ADOX R9 (Reg RAX);
   ADCX R10 (Reg RCX);
   ADOX R10 (Reg R12);
   MOV RDX (Reg R11);
   MULX RCX RDX (Reg R15);
   MULX RCX RAX (Mem Mptr 0);
   ADOX R11 (Reg RAX);
   ADCX R8 (Reg RCX);
   MULX RCX RAX (Mem Mptr 8);
   ADOX R8 (Reg RAX);
   ADCX R9 (Reg RCX);
   MULX RCX RAX (Mem Mptr 16);
   ADOX R9 (Reg RAX);
   ADCX R10 (Reg RCX);
   MULX RCX RAX (Mem Mptr 24);
   ADOX R10 (Reg RAX);
   ADCX R11 (Reg RCX);
   ADOX R11 (Reg R12)
  ].

(** limb4.rs:236-417 *)
Definition asm_mul_code : list instr :=
  [
   MOV RDX (Mem Bptr 0);
   MULX R13 R11 (Mem Aptr 0);
   MULX RAX R15 (Mem Aptr 8);
   ADD R13 (Reg R15);
   MULX R14 R15 (Mem Aptr 16);
   ADC RAX (Reg R15);
   MULX R12 R15 (Mem Aptr 24);
   ADC R14 (Reg R15);
   ADC R12 (Imm 0);
   MOV RDX (Reg R11);
   IMUL RDX Inv;
   XOR R15 (Reg R15);
   MULX R15 R10 (Mem Mptr 0);
   ADCX R10 (Reg R11);
   MOV R11 (Reg R15);
   MOV R10 (Imm 0);
   ADCX R11 (Reg R13);
   MULX R13 R15 (Mem Mptr 8);
   ADOX R11 (Reg R15);
   ADCX R13 (Reg RAX);
   MULX RAX R15 (Mem Mptr 16);
   ADOX R13 (Reg R15);
   ADCX RAX (Reg R14);
   MULX R14 R15 (Mem Mptr 24);
   ADOX RAX (Reg R15);
   ADCX R10 (Reg R12);
   ADOX R14 (Reg R10);
   MOV RDX (Mem Bptr 8);
   XOR R12 (Reg R12);
   MULX R12 R15 (Mem Aptr 0);
   ADOX R11 (Reg R15);
   ADCX R13 (Reg R12);
   MULX R12 R15 (Mem Aptr 8);
   ADOX R13 (Reg R15);
   ADCX RAX (Reg R12);
   MULX R12 R15 (Mem Aptr 16);
   ADOX RAX (Reg R15);
   ADCX R14 (Reg R12);
   MULX R12 R15 (Mem Aptr 24);
   ADOX R14 (Reg R15);
   MOV RDX (Imm 0);
   ADCX R12 (Reg RDX);
   ADOX R12 (Reg RDX);
   MOV RDX (Reg R11);
   IMUL RDX Inv;
   XOR R15 (Reg R15);
   MULX R15 R10 (Mem Mptr 0);
   ADCX R10 (Reg R11);
   MOV R11 (Reg R15);
   MOV R10 (Imm 0);
   ADCX R11 (Reg R13);
   MULX R13 R15 (Mem Mptr 8);
   ADOX R11 (Reg R15);
   ADCX R13 (Reg RAX);
   MULX RAX R15 (Mem Mptr 16);
   ADOX R13 (Reg R15);
   ADCX RAX (Reg R14);
   MULX R14 R15 (Mem Mptr 24);
   ADOX RAX (Reg R15);
   ADCX R10 (Reg R12);
   ADOX R14 (Reg R10);
   MOV RDX (Mem Bptr 16);
   XOR R12 (Reg R12);
   MULX R12 R15 (Mem Aptr 0);
   ADOX R11 (Reg R15);
   ADCX R13 (Reg R12);
   MULX R12 R15 (Mem Aptr 8);
   ADOX R13 (Reg R15);
   ADCX RAX (Reg R12);
   MULX R12 R15 (Mem Aptr 16);
   ADOX RAX (Reg R15);
   ADCX R14 (Reg R12);
   MULX R12 R15 (Mem Aptr 24);
   ADOX R14 (Reg R15);
   MOV RDX (Imm 0);
   ADCX R12 (Reg RDX);
   ADOX R12 (Reg RDX);
   MOV RDX (Reg R11);
   IMUL RDX Inv;
   XOR R15 (Reg R15);
   MULX R15 R10 (Mem Mptr 0);
   ADCX R10 (Reg R11);
   MOV R11 (Reg R15);
   MOV R10 (Imm 0);
   ADCX R11 (Reg R13);
   MULX R13 R15 (Mem Mptr 8);
   ADOX R11 (Reg R15);
   ADCX R13 (Reg RAX);
   MULX RAX R15 (Mem Mptr 16);
   ADOX R13 (Reg R15);
   ADCX RAX (Reg R14);
   MULX R14 R15 (Mem Mptr 24);
   ADOX RAX (Reg R15);
   ADCX R10 (Reg R12);
   ADOX R14 (Reg R10);
   MOV RDX (Mem Bptr 24);
   XOR R12 (Reg R12);
   MULX R12 R15 (Mem Aptr 0);
   ADOX R11 (Reg R15);
   ADCX R13 (Reg R12);
   MULX R12 R15 (Mem Aptr 8);
   ADOX R13 (Reg R15);
   ADCX RAX (Reg R12);
   MULX R12 R15 (Mem Aptr 16);
   ADOX RAX (Reg R15);
   ADCX R14 (Reg R12);
   MULX R12 R15 (Mem Aptr 24);
   ADOX R14 (Reg R15);
   MOV RDX (Imm 0);
   ADCX R12 (Reg RDX);
   ADOX R12 (Reg RDX);
   MOV RDX (Reg R11);
   IMUL RDX Inv;
   XOR R15 (Reg R15);
   MULX R15 R10 (Mem Mptr 0);
   ADCX R10 (Reg R11);
   MOV R11 (Reg R15);
   MOV R10 (Imm 0);
   ADCX R11 (Reg R13);
   MULX R13 R15 (Mem Mptr 8);
   ADOX R11 (Reg R15);
   ADCX R13 (Reg RAX);
   MULX RAX R15 (Mem Mptr 16);
   ADOX R13 (Reg R15);
   ADCX RAX (Reg R14);
   MULX R14 R15 (Mem Mptr 24);
   ADOX RAX (Reg R15);
   ADCX R10 (Reg R12);
   ADOX R14 (Reg R10);
   MOV R12 (Reg R11);
   SUB R12 (Mem Mptr 0);
   MOV R10 (Reg R13);
   SBB R10 (Mem Mptr 8);
   MOV RDX (Reg RAX);
   SBB RDX (Mem Mptr 16);
   MOV R15 (Reg R14);
   SBB R15 (Mem Mptr 24);
   CMOVNC R11 (Reg R12);
   CMOVNC R13 (Reg R10);
   CMOVNC RAX (Reg RDX);
   CMOVNC R14 (Reg R15)
  ].

(** limb4.rs:448-478 *)
Definition asm_sub_code : list instr :=
  [
   MOV R12 (Mem Mptr 0);
   MOV R13 (Mem Mptr 8);
   MOV R14 (Mem Mptr 16);
   MOV R15 (Mem Mptr 24);
   MOV R8 (Mem Aptr 0);
   MOV R9 (Mem Aptr 8);
   MOV R10 (Mem Aptr 16);
   MOV R11 (Mem Aptr 24);
   SUB R8 (Mem Bptr 0);
   SBB R9 (Mem Bptr 8);
   SBB R10 (Mem Bptr 16);
   SBB R11 (Mem Bptr 24);
   SBB RAX (Reg RAX);
   AND R12 (Reg RAX);
   AND R13 (Reg RAX);
   AND R14 (Reg RAX);
   AND R15 (Reg RAX);
   ADD R12 (Reg R8);
   ADC R13 (Reg R9);
   ADC R14 (Reg R10);
   ADC R15 (Reg R11)
  ].

(** limb4.rs:508-535 *)
Definition asm_add_code : list instr :=
  [
   MOV R8 (Mem Aptr 0);
   MOV R9 (Mem Aptr 8);
   MOV R10 (Mem Aptr 16);
   MOV R11 (Mem Aptr 24);
   ADD R8 (Mem Bptr 0);
   ADC R9 (Mem Bptr 8);
   ADC R10 (Mem Bptr 16);
   ADC R11 (Mem Bptr 24);
   MOV R12 (Reg R8);
   MOV R13 (Reg R9);
   MOV R14 (Reg R10);
   MOV R15 (Reg R11);
   SUB R12 (Mem Mptr 0);
   SBB R13 (Mem Mptr 8);
   SBB R14 (Mem Mptr 16);
   SBB R15 (Mem Mptr 24);
   CMOVC R12 (Reg R8);
   CMOVC R13 (Reg R9);
   CMOVC R14 (Reg R10);
   CMOVC R15 (Reg R11)
  ].

(** limb4.rs:564-590 *)
Definition asm_neg_code : list instr :=
  [
   MOV R8 (Mem Mptr 0);
   MOV R9 (Mem Mptr 8);
   MOV R10 (Mem Mptr 16);
   MOV R11 (Mem Mptr 24);
   SUB R8 (Mem Aptr 0);
   SBB R9 (Mem Aptr 8);
   SBB R10 (Mem Aptr 16);
   SBB R11 (Mem Aptr 24);
   MOV R12 (Mem Aptr 0);
   MOV R13 (Mem Aptr 8);
   MOV R14 (Mem Aptr 16);
   MOV R15 (Mem Aptr 24);
   OR R12 (Reg R13);
   OR R14 (Reg R15);
   OR R12 (Reg R14);
   MOV R13 (Imm 18446744073709551615);
   CMP R12 (Imm 0);
   CMOVE R13 (Reg R12);
   AND R8 (Reg R13);
   AND R9 (Reg R13);
   AND R10 (Reg R13);
   AND R11 (Reg R13)
  ].

(** The functions around the blocks: which registers become the result.  [s] is
    whatever the registers and flags hold on entry. *)
Section Functions.
Variable c : fconf.
Definition asm_mem (a b : list Z) : memory :=
  {| at_a := a; at_b := b; at_m := modulus_limbs c; the_inv := inv64 c |}.
Definition outputs (r0 r1 r2 r3 : reg) (o : option cpu) : option (list Z) :=
  match o with
  | Some s => Some [getr r0 s; getr r1 s; getr r2 s; getr r3 s]
  | None => None
  end.
(** limb4.rs:8-60 *)
Definition asm_double (s : cpu) (a : list Z) : option (list Z) :=
  outputs R12 R13 R14 R15 (run (asm_mem a []) asm_double_code s).
(** limb4.rs:69-198 *)
Definition asm_from_mont (s : cpu) (a : list Z) : option (list Z) :=
  outputs R8 R9 R10 R11 (run (asm_mem a []) asm_from_mont_code s).
(** limb4.rs:200-436 *)
Definition asm_mul (s : cpu) (a b : list Z) : option (list Z) :=
  outputs R11 R13 RAX R14 (run (asm_mem a b) asm_mul_code s).
(** limb4.rs:62-66 *)
Definition asm_square (s : cpu) (a : list Z) : option (list Z) := asm_mul s a a.
(** limb4.rs:438-497 *)
Definition asm_sub (s : cpu) (a b : list Z) : option (list Z) :=
  outputs R12 R13 R14 R15 (run (asm_mem a b) asm_sub_code s).
(** limb4.rs:499-553 *)
Definition asm_add (s : cpu) (a b : list Z) : option (list Z) :=
  outputs R12 R13 R14 R15 (run (asm_mem a b) asm_add_code s).
(** limb4.rs:555-607 *)
Definition asm_neg (s : cpu) (a : list Z) : option (list Z) :=
  outputs R8 R9 R10 R11 (run (asm_mem a []) asm_neg_code s).
(** The conversions that call these functions in an [asm] build; the outer
    [option] is the run of the code.  mod.rs:328-333 [from_bytes], 464-468
    [from_repr]: the product is computed before the range check decides. *)
Definition asm_from_bytes (s : cpu) (bytes : list Z) : option (option (list Z)) :=
  let el := endian_from_bytes (big_endian c) (num_limbs c) bytes in
  match asm_mul s el (R2 c) with
  | Some v => Some (if is_less_than_modulus c el then Some v else None)
  | None => None
  end.
Definition asm_from_repr (s : cpu) (repr : list Z) : option (option (list Z)) :=
  let el := endian_from_bytes false (num_limbs c) repr in
  match asm_mul s el (R2 c) with
  | Some v => Some (if is_less_than_modulus c el then Some v else None)
  | None => None
  end.
(** mod.rs:338-344 [to_bytes], 470-476 [to_repr] *)
Definition asm_to_bytes (s : cpu) (a : list Z) : option (list Z) :=
  option_map (endian_to_bytes (big_endian c)) (asm_from_mont s a).
Definition asm_to_repr (s : cpu) (a : list Z) : option (list Z) :=
  option_map (endian_to_bytes false) (asm_from_mont s a).
(** mod.rs:452-462 [from_u128], common.rs:52-67 [From<u64>] *)
Definition asm_from_u128 (s : cpu) (v : Z) : option (list Z) :=
  asm_mul s (R2 c) (firstn (num_limbs c) (v mod W :: Z.shiftr v 64 :: repeat 0 (num_limbs c))).
Definition asm_from_u64 (s : cpu) (v : Z) : option (list Z) :=
  asm_mul s (firstn (num_limbs c) (v :: repeat 0 (num_limbs c))) (R2 c).
(** mod.rs:562-595 [from_uniform_bytes]: the products are the portable ones,
    the sum is the assembly one. *)
Definition asm_from_uniform_bytes (s : cpu) (bytes : list Z) : option (list Z) :=
  let wide := firstn (2 * size c) (bytes ++ repeat 0 (2 * size c)) in
  let a0 := firstn (size c) wide in
  let a1 := skipn (size c) wide in
  let a0 := map (fun off => from_le_bytes (chunk8 a0 off)) (seq 0 (num_limbs c)) in
  let a1 := map (fun off => from_le_bytes (chunk8 a1 off)) (seq 0 (num_limbs c)) in
  asm_add s (fe_mul c a0 (R2 c)) (fe_mul c a1 (R3 c)).
(** mod.rs:550: the condition under which the macro takes this code *)
Definition uses_asm : bool := Nat.eqb (num_limbs c) 4 && (num_bits c <? 256).
End Functions.
