(** Model of [sqrt] in the quadratic extensions, src/ff_ext/quadratic.rs. *)
From Verif Require Import Base Algebra Tower Word Limbs Field SpecField Params TowerParams Inverse Sqrt.

(** Result of a computation that may recurse for ever or panic in an [unwrap]. *)
Inductive sq_out (A : Type) := SqDiverge | SqPanic | SqRet (r : option A).
Arguments SqDiverge {A}. Arguments SqPanic {A}. Arguments SqRet {A}.

Section Sqrt2.
(** [o] the base field, [o2] the extension. *)
Context {F : Type} (o : fops F) (o2 : fops (quad F)).
(** quadratic.rs:72-75, 113-116 *)
Definition neg1_2 : quad F := mk_quad (fsub o (f0 o) (f1 o)) (f0 o).

(** quadratic.rs:50-93 *)
Definition sqrt_algo9 (q_minus_3_over_4 q_minus_1_over_2 : list Z) (e : quad F) : option (quad F) :=
  if fis0 o2 e then Some (f0 o2)
  else
    let a1 := fpow o2 e q_minus_3_over_4 in
    let alpha := fmul o2 (fsqr o2 a1) e in
    let a0 := fmul o2 (fq2_frobenius o 1 alpha) alpha in
    if feqb o2 a0 neg1_2 then None
    else
      let a1 := fmul o2 a1 e in
      Some (if feqb o2 alpha neg1_2 then fmul o2 a1 (mk_quad (f0 o) (f1 o))
            else fmul o2 a1 (fpow o2 (fadd o2 alpha (f1 o2)) q_minus_1_over_2)).

(** quadratic.rs:96-133.  The [sqrt] of line 128 is [Field::sqrt] of the extension
    (300-313), that is this function again; [fuel] bounds the depth of the
    recursion.  [sqrt1] is [sqrt] of the base field. *)
Fixpoint sqrt_algo10 (fuel : nat) (sqrt1 : F -> option F) (pre_e pre_f : quad F)
    (q_minus_1_over_4 : list Z) (el : quad F) : sq_out (quad F) :=
  match fuel with
  | O => SqDiverge
  | S fuel =>
      let b := fpow o2 el q_minus_1_over_4 in
      let b_2 := fsqr o2 b in
      let a0 := fmul o2 (fq2_frobenius o 1 b_2) b_2 in
      if feqb o2 a0 neg1_2 then SqRet None
      else
        let x := fq2_frobenius o 1 b in
        if feqb o2 (fmul o2 x b) (f1 o2) then
          match sqrt1 (q0 (fmul o2 b_2 el)) with
          | None => SqPanic
          | Some x0 => SqRet (Some (mk_quad (fmul o (q0 x) x0) (fmul o (q1 x) x0)))
          end
        else
          match sqrt_algo10 fuel sqrt1 pre_e pre_f q_minus_1_over_4
                  (fmul o2 (fmul o2 b_2 pre_f) el) with
          | SqRet (Some x0) => SqRet (Some (fmul o2 x (fmul o2 x0 pre_e)))
          | SqRet None => SqPanic
          | r => r
          end
  end.
End Sqrt2.

(** ** The constants of the crate *)
(** src/bn256/fq2.rs:19-33 *)
Definition bn256_q34 : list Z :=
  [0x4f082305b61f3f51; 0x65e05aa45a1c72a3; 0x6e14116da0605617; 0x0c19139cb84c680a].
Definition bn256_q12 : list Z :=
  [0x9e10460b6c3e7ea3; 0xcbc0b548b438e546; 0xdc2822db40c0ac2e; 0x183227397098d014].
(** src/bls12381/fq2.rs:19-36 *)
Definition bls_q34 : list Z :=
  [0xee7fbfffffffeaaa; 0x07aaffffac54ffff; 0xd9cc34a83dac3d89;
   0xd91dd2e13ce144af; 0x92c6e9ed90d2eb35; 0x0680447a8e5ff9a6].
Definition bls_q12 : list Z :=
  [0xdcff7fffffffd555; 0x0f55ffff58a9ffff; 0xb39869507b587b12;
   0xb23ba5c279c2895f; 0x258dd3db21a5d66b; 0x0d0088f51cbff34d].
(** src/pluto_eris/fp2.rs:21-48; [from_raw] limbs of [precompute_e.c1] and [precompute_f.c0] *)
Definition pluto_pre_e_raw : list Z :=
  [0x67153f9701e19938; 0x5d232408689b4c6c; 0x021848271d63f087; 0x03b21f15823a404a;
   0x667c70cf991a36e6; 0x7a82a3d83bc9e63a; 0x13e275a1fa6a13af].
Definition pluto_pre_f_raw : list Z := [0x05; 0; 0; 0; 0; 0; 0].
Definition pluto_q14 : list Z :=
  [0x67ffff34c0000000; 0xa8a9fa30c001ae51; 0xf929e97fa3eb7ff5; 0xd10fe69736a29b1e;
   0x2a00f29dbd0e499b; 0x004c3800035fdc39; 0x0900000000000900].

(** [Field::sqrt] (quadratic.rs:300-313) of the three Fp2. *)
Section Fp2Sqrt.
Context {F : Type} (o : fops F) (inj : Z -> F).
Definition bn256_fq2_sqrt : quad F -> option (quad F) := sqrt_algo9 o (bn256_fq2 o) bn256_q34 bn256_q12.
Definition bls_fq2_sqrt : quad F -> option (quad F) := sqrt_algo9 o (bls_fq2 o) bls_q34 bls_q12.
(** [sqrt] of the prime field; the outer option of [sqrt_with] is the macro's refusal. *)
Definition fp_sqrt (c : fconf) (a : F) : option F :=
  match sqrt_with c o (inj (root_of_unity_int c)) a with Some r => r | None => None end.
Definition pluto_fp2_sqrt (fuel : nat) : quad F -> sq_out (quad F) :=
  sqrt_algo10 o (pluto_fp2 o) fuel (fp_sqrt pluto_eris_fp)
    (mk_quad (f0 o) (inj (eval pluto_pre_e_raw))) (mk_quad (inj (eval pluto_pre_f_raw)) (f0 o)) pluto_q14.
End Fp2Sqrt.
