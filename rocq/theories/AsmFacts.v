(** Facts about the assembly of Asm.v: symbolic execution, block by block. *)
From Verif Require Import Base Word Limbs SpecField Bytes Field LimbsFacts FieldFacts BytesFacts
  FieldSerdeFacts Asm.

(** * Word arithmetic *)
Lemma sum_gen x y c : 0 <= x < W -> 0 <= y < W -> 0 <= c <= 1 ->
  exists d k, sum_lo x y c = d /\ sum_hi x y c = k /\
    d + W * k = x + y + c /\ 0 <= d < W /\ 0 <= k <= 1.
Proof.
  intros Hx Hy Hc. exists (sum_lo x y c), (sum_hi x y c). unfold sum_lo, sum_hi.
  pose proof (Z.div_mod (x + y + c) W ltac:(pose proof W_pos; lia)).
  pose proof (Z.mod_pos_bound (x + y + c) W W_pos).
  repeat split; try lia; rewrite W_val in *; lia.
Qed.
Lemma dif_gen x y c : 0 <= x < W -> 0 <= y < W -> 0 <= c <= 1 ->
  exists d k, dif_lo x y c = d /\ dif_hi x y c = k /\
    d - W * k = x - y - c /\ 0 <= d < W /\ 0 <= k <= 1.
Proof.
  intros Hx Hy Hc. exists (dif_lo x y c), (dif_hi x y c). unfold dif_lo, dif_hi.
  pose proof (Z.div_mod (x - y - c) W ltac:(pose proof W_pos; lia)).
  pose proof (Z.mod_pos_bound (x - y - c) W W_pos).
  destruct (Z.ltb_spec (x - y - c) 0); repeat split; try lia; rewrite W_val in *; lia.
Qed.
Lemma prod_gen x y : 0 <= x < W -> 0 <= y < W ->
  exists h l, prod_hi x y = h /\ prod_lo x y = l /\
    l + W * h = x * y /\ 0 <= l < W /\ 0 <= h < W.
Proof.
  intros Hx Hy. exists (prod_hi x y), (prod_lo x y). unfold prod_lo, prod_hi.
  pose proof (Z.div_mod (x * y) W ltac:(pose proof W_pos; lia)).
  pose proof (Z.mod_pos_bound (x * y) W W_pos).
  repeat split; try lia.
  - apply Z.div_pos; nia.
  - apply Z.div_lt_upper_bound; nia.
Qed.

(** * Running code *)
Definition wp (m : memory) (code : list instr) (s : cpu) (Q : cpu -> Prop) : Prop :=
  match run m code s with Some s' => Q s' | None => False end.

Lemma wp_nil m s (Q : cpu -> Prop) : Q s -> wp m [] s Q.
Proof. exact (fun H => H). Qed.
Lemma wp_cons m i code s s' Q : exec m i s = Some s' -> wp m code s' Q -> wp m (i :: code) s Q.
Proof. intros E H. unfold wp. cbn [run]. now rewrite E. Qed.
Lemma wp_app m c1 c2 s Q : wp m c1 s (fun s' => wp m c2 s' Q) -> wp m (c1 ++ c2) s Q.
Proof.
  unfold wp. revert s. induction c1 as [|i c1 IH]; intros s; cbn [run app]; [auto|].
  destruct (exec m i s) as [s'|]; [apply IH|auto].
Qed.
Lemma wp_imp m code s (P Q : cpu -> Prop) : (forall s', P s' -> Q s') -> wp m code s P -> wp m code s Q.
Proof. unfold wp. destruct (run m code s); auto. Qed.

Ltac sexec :=
  cbv beta iota delta [exec value read_mem array at_a at_b at_m the_inv getr setr
    set_cf set_of set_zf do_sum do_dif do_logic do_cmov
    g_rax g_rcx g_rdx g_r8 g_r9 g_r10 g_r11 g_r12 g_r13 g_r14 g_r15 f_cf f_of f_zf
    Nat.eqb Nat.modulo Nat.div Nat.divmod nth_error fst snd Nat.sub
    Z.eqb Pos.eqb].
Lemma dif_self x c : 0 <= c <= 1 -> exists d, dif_lo x x c = d /\ dif_hi x x c = c /\
  (c = 0 /\ d = 0 \/ c = 1 /\ d = W - 1).
Proof.
  intros Hc. exists (dif_lo x x c). unfold dif_lo, dif_hi. split; [reflexivity|].
  replace (x - x - c) with (- c) by ring. assert (c = 0 \/ c = 1) as [-> | ->] by lia.
  - split; [reflexivity|]. left. split; [reflexivity|]. apply Z.mod_0_l. pose proof W_pos. lia.
  - split; [reflexivity|]. right. split; [reflexivity|]. reflexivity.
Qed.

Lemma isw0 : 0 <= 0 < W. Proof. pose proof W_pos. lia. Qed.
Lemma isb0 : 0 <= 0 <= 1. Proof. lia. Qed.
Ltac sside := first [assumption | exact isw0 | exact isb0 | (clear; lia) | lia].
Ltac sname :=
  lazymatch goal with
  | |- context [sum_lo ?x ?y ?c] =>
      let d := fresh "d" in let k := fresh "k" in
      destruct (sum_gen x y c) as (d & k & -> & -> & ? & ? & ?); [sside|sside|sside|]
  | |- context [dif_lo ?x ?x ?c] =>
      let d := fresh "d" in
      destruct (dif_self x c) as (d & -> & -> & ?); [sside|]
  | |- context [dif_lo ?x ?y ?c] =>
      let d := fresh "d" in let k := fresh "k" in
      destruct (dif_gen x y c) as (d & k & -> & -> & ? & ? & ?); [sside|sside|sside|]
  | |- context [prod_hi ?x ?y] =>
      let h := fresh "h" in let l := fresh "l" in
      destruct (prod_gen x y) as (h & l & -> & -> & ? & ? & ?); [sside|sside|]
  | |- context [prod_lo ?x ?y] =>
      let h := fresh "h" in let l := fresh "l" in
      destruct (prod_gen x y) as (h & l & _ & -> & ? & ? & ?); [sside|sside|]
  | |- context [Z.lxor ?x ?x] => rewrite (Z.lxor_nilpotent x)
  | _ => idtac
  end.
Ltac sregs := cbv beta iota delta [getr g_rax g_rcx g_rdx g_r8 g_r9 g_r10 g_r11 g_r12
  g_r13 g_r14 g_r15] in *.
Ltac step := eapply wp_cons; [sexec; reflexivity|]; sname.


Notation E4 x0 x1 x2 x3 := (x0 + W * (x1 + W * (x2 + W * x3))).
Notation isw x := (0 <= x < W).

Definition out4 (q0 q1 q2 q3 : reg) (v : Z) (s : cpu) : Prop :=
  isw (getr q0 s) /\ isw (getr q1 s) /\ isw (getr q2 s) /\ isw (getr q3 s) /\
  E4 (getr q0 s) (getr q1 s) (getr q2 s) (getr q3 s) = v.
Definition out5 (q0 q1 q2 q3 q4 : reg) (v : Z) (s : cpu) : Prop :=
  isw (getr q0 s) /\ isw (getr q1 s) /\ isw (getr q2 s) /\ isw (getr q3 s) /\ isw (getr q4 s) /\
  E4 (getr q0 s) (getr q1 s) (getr q2 s) (getr q3 s + W * getr q4 s) = v.

Ltac bit k H := assert (H : k = 0 \/ k = 1) by lia; destruct H as [-> | ->].

(** The low word of [t + m p] vanishes for [m = - t / p mod 2^64]. *)
Lemma low_zero p0 inv t0 h m hh l d k : (p0 * inv) mod W = W - 1 ->
  m + W * h = t0 * inv -> l + W * hh = m * p0 -> d + W * k = l + t0 -> 0 <= d < W -> d = 0.
Proof.
  intros Hi E1 E2 E3 Hd. pose proof W_pos as HW.
  pose proof (Z.div_mod (p0 * inv) W ltac:(lia)) as D. rewrite Hi in D.
  set (q := p0 * inv / W) in *.
  assert (E : d = W * (t0 * q + t0 - h * p0 - hh - k)).
  { assert (m * p0 = t0 * (inv * p0) - W * h * p0)
      by (replace m with (t0 * inv - W * h) by lia; ring).
    replace (inv * p0) with (W * q + (W - 1)) in H by lia.
    replace (W * (t0 * q + t0 - h * p0 - hh - k))
      with (t0 * (W * q + (W - 1)) - W * h * p0 + t0 - W * hh - W * k) by ring. lia. }
  set (z := t0 * q + t0 - h * p0 - hh - k) in *. clearbody z q. clear - E Hd HW.
  assert (z = 0) by nia. subst z. lia.
Qed.

Lemma land_m x : isw x -> Z.land x (W - 1) = x.
Proof. apply land_ones_word. Qed.
Lemma land_r x : isw x -> Z.land x 18446744073709551615 = x.
Proof. apply land_ones_word. Qed.

Lemma lor_word x y : isw x -> isw y -> isw (Z.lor x y).
Proof.
  intros Hx Hy. split; [apply Z.lor_nonneg; lia|].
  destruct (Z.eq_dec (Z.lor x y) 0) as [->|N]; [apply W_pos|].
  assert (0 <= Z.lor x y) by (apply Z.lor_nonneg; lia).
  rewrite W_pow. apply Z.log2_lt_pow2; [lia|]. rewrite Z.log2_lor by lia.
  assert (L : forall z, isw z -> Z.log2 z < 64).
  { intros z Hz. destruct (Z.eq_dec z 0) as [->|Nz]; [reflexivity|].
    apply Z.log2_lt_pow2; [lia|]. rewrite <- W_pow. lia. }
  pose proof (L x Hx). pose proof (L y Hy). lia.
Qed.

Section Blocks.
Variables p0 p1 p2 p3 inv a0 a1 a2 a3 b0 b1 b2 b3 : Z.
Hypothesis Hp0 : isw p0. Hypothesis Hp1 : isw p1.
Hypothesis Hp2 : isw p2. Hypothesis Hp3 : isw p3.
Hypothesis Ha0 : isw a0. Hypothesis Ha1 : isw a1.
Hypothesis Ha2 : isw a2. Hypothesis Ha3 : isw a3.
Hypothesis Hb0 : isw b0. Hypothesis Hb1 : isw b1.
Hypothesis Hb2 : isw b2. Hypothesis Hb3 : isw b3.
Hypothesis Hinv : isw inv.
Hypothesis Hneg : (p0 * inv) mod W = W - 1.
Notation A := (E4 a0 a1 a2 a3).
Notation B := (E4 b0 b1 b2 b3).
Notation P := (E4 p0 p1 p2 p3).
Notation mem := {| at_a := [a0; a1; a2; a3]; at_b := [b0; b1; b2; b3];
                   at_m := [p0; p1; p2; p3]; the_inv := inv |}.
Notation mem1 := {| at_a := [a0; a1; a2; a3]; at_b := [];
                    at_m := [p0; p1; p2; p3]; the_inv := inv |}.

Ltac fin := unfold out4, out5; sexec; repeat match goal with |- _ /\ _ => split end;
  rewrite W_val in *; lia.

Lemma add_code s : A < P -> B < P -> 2 * P <= W * W * W * W ->
  wp mem asm_add_code s (out4 R12 R13 R14 R15 (if A + B <? P then A + B else A + B - P)).
Proof using All.
  clear Hneg. intros HA HB HP. destruct s. unfold asm_add_code. do 16 step.
  destruct (Z.ltb_spec (A + B) P).
  - assert (k6 = 1) as -> by (rewrite W_val in *; lia). do 4 step. apply wp_nil. fin.
  - assert (k6 = 0) as -> by (rewrite W_val in *; lia). do 4 step. apply wp_nil. fin.
Qed.

Lemma double_code s : A < P -> 2 * P <= W * W * W * W ->
  wp mem1 asm_double_code s (out4 R12 R13 R14 R15 (if A + A <? P then A + A else A + A - P)).
Proof using All.
  clear Hneg. intros HA HP. destruct s. unfold asm_double_code. do 16 step.
  destruct (Z.ltb_spec (A + A) P).
  - assert (k6 = 1) as -> by (rewrite W_val in *; lia). do 4 step. apply wp_nil. fin.
  - assert (k6 = 0) as -> by (rewrite W_val in *; lia). do 4 step. apply wp_nil. fin.
Qed.

Lemma sub_code s : A < P -> B < P ->
  wp mem asm_sub_code s (out4 R12 R13 R14 R15 (if A <? B then A - B + P else A - B)).
Proof using All.
  clear Hneg. intros HA HB. destruct s. unfold asm_sub_code. do 13 step.
  destruct (Z.ltb_spec A B).
  - assert (k2 = 1) as -> by (rewrite W_val in *; lia).
    assert (d3 = W - 1) as -> by lia. do 4 step. rewrite !land_m by assumption.
    do 4 step. apply wp_nil. fin.
  - assert (k2 = 0) as -> by (rewrite W_val in *; lia).
    assert (d3 = 0) as -> by lia. do 4 step. rewrite !Z.land_0_r.
    do 4 step. apply wp_nil. fin.
Qed.

Lemma neg_code s : A < P ->
  wp mem1 asm_neg_code s (out4 R8 R9 R10 R11 (if A =? 0 then 0 else P - A)).
Proof using All.
  clear Hneg. intros HA. destruct s. unfold asm_neg_code. do 15 step.
  set (o := Z.lor (Z.lor a0 a1) (Z.lor a2 a3)).
  assert (Ho : isw o) by (unfold o; apply lor_word; apply lor_word; assumption).
  assert (Hz : o = 0 <-> A = 0).
  { unfold o. rewrite !Z.lor_eq_0_iff. clear - Ha0 Ha1 Ha2 Ha3. rewrite W_val in *. lia. }
  step. step. 
  destruct (Z.eqb_spec A 0) as [Z|Z].
  - assert (d3 = 0) as -> by (apply Hz in Z; rewrite W_val in *; lia).
    change (is_zero 0) with 1. do 5 step. apply Hz in Z. rewrite Z. rewrite !Z.land_0_r.
    apply wp_nil. fin.
  - assert (d3 <> 0) by (intro; apply Z, Hz; rewrite W_val in *; lia).
    assert (is_zero d3 = 0) as -> by (unfold is_zero; destruct (Z.eqb_spec d3 0); [contradiction|reflexivity]).
    do 5 step. rewrite !land_r by assumption. apply wp_nil. fin.
Qed.

(** * Montgomery multiplication, blocks *)
Definition mul_first : list instr := firstn 9 asm_mul_code.
Definition mul_row (off : nat) : list instr :=
  [MOV RDX (Mem Bptr off); XOR R12 (Reg R12);
   MULX R12 R15 (Mem Aptr 0); ADOX R11 (Reg R15); ADCX R13 (Reg R12);
   MULX R12 R15 (Mem Aptr 8); ADOX R13 (Reg R15); ADCX RAX (Reg R12);
   MULX R12 R15 (Mem Aptr 16); ADOX RAX (Reg R15); ADCX R14 (Reg R12);
   MULX R12 R15 (Mem Aptr 24); ADOX R14 (Reg R15);
   MOV RDX (Imm 0); ADCX R12 (Reg RDX); ADOX R12 (Reg RDX)].
Definition mul_red : list instr := firstn 18 (skipn 9 asm_mul_code).
Definition mul_last : list instr := skipn (length asm_mul_code - 12) asm_mul_code.
Lemma mul_code_split : asm_mul_code = mul_first ++ mul_red ++ mul_row 8 ++ mul_red ++
  mul_row 16 ++ mul_red ++ mul_row 24 ++ mul_red ++ mul_last.
Proof. vm_compute. reflexivity. Qed.

Lemma mul_first_code s : A * b0 < W * W * W * W * W ->
  wp mem mul_first s (out5 R11 R13 RAX R14 R12 (A * b0)).
Proof using All.
  clear Hneg. intros HB. destruct s. unfold mul_first. cbv [firstn asm_mul_code]. do 9 step. apply wp_nil.
  assert (k2 = 0) as -> by (clear Hb1 Hb2 Hb3 Hp0 Hp1 Hp2 Hp3 Hinv; rewrite W_val in *; lia). fin.
Qed.

Lemma mul_row_code off b s T : nth_error [b0; b1; b2; b3] (off / 8) = Some b -> (off mod 8 = 0)%nat ->
  isw b -> out4 R11 R13 RAX R14 T s -> T + A * b < W * W * W * W * W ->
  wp mem (mul_row off) s (out5 R11 R13 RAX R14 R12 (T + A * b)).
Proof using All.
  clear Hneg. intros Hn Ho Hb (T0 & T1 & T2 & T3 & HT) HB.
  destruct s. sregs. unfold mul_row.
  eapply wp_cons. { cbn [exec value]. unfold read_mem. rewrite Ho. cbn [Nat.eqb array at_b].
    rewrite Hn. sexec. reflexivity. }
  clear Hn Ho Hb0 Hb1 Hb2 Hb3 Hp0 Hp1 Hp2 Hp3 Hinv.
  do 15 step. apply wp_nil.
  assert (k6 = 0 /\ k7 = 0) as [-> ->] by (rewrite W_val in *; lia). fin.
Qed.

Lemma mul_red_code s U : out5 R11 R13 RAX R14 R12 U s -> U + (W - 1) * P < W * W * W * W * W ->
  wp mem mul_red s (fun s' => exists m T, isw m /\ W * T = U + m * P /\ out4 R11 R13 RAX R14 T s').
Proof using All.
  intros (T0 & T1 & T2 & T3 & T4 & HT) HB.
  pose proof (fun t0 h m hh l d k => low_zero p0 inv t0 h m hh l d k Hneg) as HZ. clear Hneg.
  destruct s. sregs. unfold mul_red. cbv [firstn skipn asm_mul_code].
  do 18 step. apply wp_nil.
  assert (d = 0) as -> by (apply (HZ g_r11 h l h0 l0 d k); [assumption|assumption|lia|assumption]).
  assert (Hm : l * P <= (W - 1) * P) by (apply Z.mul_le_mono_nonneg_r; [|lia]; rewrite W_val in *; lia).
  clear HZ H Hinv Ha0 Ha1 Ha2 Ha3 Hb0 Hb1 Hb2 Hb3.
  exists l, (E4 d1 d3 d5 d7). split; [assumption|].
  assert (Q : W * (E4 d1 d3 d5 d7 + W * W * W * W * (k6 + k7)) = U + l * P)
    by (clear HB Hm; rewrite W_val in *; lia).
  assert (k6 = 0 /\ k7 = 0) as [-> ->]
    by (clear - Q HB Hm H15 H24 H33 H39 H37 H40; set (X := l * P) in *; rewrite W_val in *; lia).
  split; [clear - Q; lia|]. unfold out4. sregs. repeat split; try assumption; tauto.
Qed.

Lemma mul_last_code s T : out4 R11 R13 RAX R14 T s -> T < 2 * P ->
  wp mem mul_last s (out4 R11 R13 RAX R14 (if T <? P then T else T - P)).
Proof using All.
  clear Hneg. intros (T0 & T1 & T2 & T3 & HT) HB.
  destruct s. sregs. unfold mul_last.
  let l := eval vm_compute in (skipn (length asm_mul_code - 12) asm_mul_code) in
  change (skipn (length asm_mul_code - 12) asm_mul_code) with l.
  do 8 step. clear Ha0 Ha1 Ha2 Ha3 Hb0 Hb1 Hb2 Hb3.
  destruct (Z.ltb_spec T P).
  - assert (k2 = 1) as -> by (rewrite W_val in *; lia). do 4 step. apply wp_nil. fin.
  - assert (k2 = 0) as -> by (rewrite W_val in *; lia). do 4 step. apply wp_nil. fin.
Qed.

Lemma row_bound T T' X b m : 0 <= X -> 0 < P -> T < X + P -> isw b -> isw m ->
  W * T' = T + X * b + m * P -> T' < X + P.
Proof using All.
  set (Q := P). clearbody Q. intros HX HQ HT Hb Hm E.
  assert (X * b <= X * (W - 1)) by (apply Z.mul_le_mono_nonneg_l; lia).
  assert (m * Q <= (W - 1) * Q) by (apply Z.mul_le_mono_nonneg_r; lia).
  apply Z.mul_lt_mono_pos_l with W; [apply W_pos|].
  replace (W * (X + Q)) with (X + Q + X * (W - 1) + (W - 1) * Q) by ring. lia.
Qed.
Lemma row_fit T X b : 0 <= X -> 0 < P -> T < X + P -> isw b -> X + P <= W * W * W * W ->
  T + X * b < W * W * W * W * W /\ T + X * b + (W - 1) * P < W * W * W * W * W.
Proof using All.
  set (Q := P). clearbody Q. intros HX HQ HT Hb H.
  assert (X * b <= X * (W - 1)) by (apply Z.mul_le_mono_nonneg_l; lia).
  assert (W * (X + Q) <= W * (W * W * W * W)) by (apply Z.mul_le_mono_nonneg_l; [pose proof W_pos; lia|lia]).
  replace (W * (X + Q)) with (X + Q + X * (W - 1) + (W - 1) * Q) in H1 by ring.
  assert (0 <= (W - 1) * Q) by (apply Z.mul_nonneg_nonneg; lia).
  replace (W * (W * W * W * W)) with (W * W * W * W * W) in H1 by ring. lia.
Qed.

Lemma mul_code s : A < P -> 2 * P <= W * W * W * W ->
  wp mem asm_mul_code s (fun s' => exists V K, 0 <= V < P /\
    W * W * W * W * V = A * B + K * P /\ out4 R11 R13 RAX R14 V s').
Proof using All.
  intros HA HP.
  assert (HA0 : 0 <= A) by (rewrite W_val in *; lia).
  assert (HP0 : 0 < P) by lia.
  assert (HS : A + P <= W * W * W * W) by lia.
  rewrite mul_code_split.
  destruct (row_fit 0 A b0 HA0 HP0 ltac:(lia) Hb0 HS) as [F1 F2].
  apply wp_app. eapply wp_imp; [|apply mul_first_code; exact F1]. cbv beta. intros s1 O1.
  apply wp_app. eapply wp_imp; [|apply (mul_red_code s1 _ O1 F2)]. cbv beta.
  intros s2 (m0 & T1 & Hm0 & E1 & O2).
  assert (L1 : T1 < A + P) by (apply (row_bound 0 T1 A b0 m0 HA0 HP0 ltac:(lia) Hb0 Hm0); lia).
  destruct (row_fit T1 A b1 HA0 HP0 L1 Hb1 HS) as [F3 F4].
  apply wp_app. eapply wp_imp; [|apply (mul_row_code 8 b1 s2 T1 eq_refl eq_refl Hb1 O2 F3)]. cbv beta. intros s3 O3.
  apply wp_app. eapply wp_imp; [|apply (mul_red_code s3 _ O3 F4)]. cbv beta.
  intros s4 (m1 & T2 & Hm1 & E2 & O4).
  assert (L2 : T2 < A + P) by exact (row_bound T1 T2 A b1 m1 HA0 HP0 L1 Hb1 Hm1 E2).
  destruct (row_fit T2 A b2 HA0 HP0 L2 Hb2 HS) as [F5 F6].
  apply wp_app. eapply wp_imp; [|apply (mul_row_code 16 b2 s4 T2 eq_refl eq_refl Hb2 O4 F5)]. cbv beta. intros s5 O5.
  apply wp_app. eapply wp_imp; [|apply (mul_red_code s5 _ O5 F6)]. cbv beta.
  intros s6 (m2 & T3 & Hm2 & E3 & O6).
  assert (L3 : T3 < A + P) by exact (row_bound T2 T3 A b2 m2 HA0 HP0 L2 Hb2 Hm2 E3).
  destruct (row_fit T3 A b3 HA0 HP0 L3 Hb3 HS) as [F7 F8].
  apply wp_app. eapply wp_imp; [|apply (mul_row_code 24 b3 s6 T3 eq_refl eq_refl Hb3 O6 F7)]. cbv beta. intros s7 O7.
  apply wp_app. eapply wp_imp; [|apply (mul_red_code s7 _ O7 F8)]. cbv beta.
  intros s8 (m3 & T4 & Hm3 & E4' & O8).
  assert (L4 : T4 < A + P) by exact (row_bound T3 T4 A b3 m3 HA0 HP0 L3 Hb3 Hm3 E4').
  assert (T0 : 0 <= T4).
  { destruct O8 as (Q1 & Q2 & Q3 & Q4 & <-). clear - Q1 Q2 Q3 Q4. rewrite W_val in *. lia. }
  assert (L5 : T4 < 2 * P) by (clear - L4 HA; lia).
  eapply wp_imp; [|apply (mul_last_code s8 T4 O8 L5)]. cbv beta. intros s9 O9.
  set (Km := E4 m0 m1 m2 m3).
  assert (E : W * W * W * W * T4 = A * B + Km * P).
  { set (AA := A) in *. set (PP := P) in *. unfold Km. clearbody AA PP.
    clear - E1 E2 E3 E4'.
    transitivity (W * W * W * (W * T4)); [ring|]. rewrite E4'.
    transitivity (W * W * (W * T3) + W * W * W * (AA * b3) + W * W * W * m3 * PP); [ring|].
    rewrite E3.
    transitivity (W * (W * T2) + W * W * (AA * b2) + W * W * m2 * PP + W * W * W * (AA * b3) + W * W * W * m3 * PP); [ring|].
    rewrite E2.
    transitivity (W * T1 + W * (AA * b1) + W * m1 * PP + W * W * (AA * b2) + W * W * m2 * PP + W * W * W * (AA * b3) + W * W * W * m3 * PP); [ring|].
    rewrite E1. ring. }
  destruct (Z.ltb_spec T4 P) as [C|C].
  - exists T4, Km. auto.
  - exists (T4 - P), (Km - W * W * W * W). split; [clear - C L5; lia|]. split; [|exact O9].
    rewrite Z.mul_sub_distr_l, E, Z.mul_sub_distr_r. ring.
Qed.

(** * Conversion out of Montgomery form *)
Definition fm_load : list instr := firstn 6 asm_from_mont_code.
Definition fm_row (x0 x1 x2 x3 : reg) : list instr :=
  [MOV RDX (Reg x0); MULX RCX RDX (Reg R15);
   MULX RCX RAX (Mem Mptr 0); ADOX x0 (Reg RAX); ADCX x1 (Reg RCX);
   MULX RCX RAX (Mem Mptr 8); ADOX x1 (Reg RAX); ADCX x2 (Reg RCX);
   MULX RCX RAX (Mem Mptr 16); ADOX x2 (Reg RAX); ADCX x3 (Reg RCX);
   MULX RCX RAX (Mem Mptr 24); ADOX x3 (Reg RAX); ADCX x0 (Reg RCX); ADOX x0 (Reg R12)].
Lemma fm_code_split : asm_from_mont_code = fm_load ++ fm_row R8 R9 R10 R11 ++
  fm_row R9 R10 R11 R8 ++ fm_row R10 R11 R8 R9 ++ fm_row R11 R8 R9 R10.
Proof. vm_compute. reflexivity. Qed.

Definition fm_state (q0 q1 q2 q3 : reg) (T : Z) (s : cpu) : Prop :=
  out4 q0 q1 q2 q3 T s /\ g_r15 s = inv /\ g_r12 s = 0 /\ f_cf s = Some 0 /\ f_of s = Some 0.

Lemma fm_load_code s : wp mem1 fm_load s (fm_state R8 R9 R10 R11 A).
Proof using All.
  clear Hneg. destruct s. unfold fm_load. cbv [firstn asm_from_mont_code]. do 6 step. apply wp_nil.
  unfold fm_state. split; [fin|]. sexec. auto.
Qed.

Ltac fm_tac :=
  match goal with HZ : forall t0 h m hh l d k : Z, _, H : ?l + W * ?h = ?t * ?i,
      H2 : ?l0 + W * ?h0 = ?l * ?p, H5 : ?d + W * ?k = ?t + ?l0 + 0, H6 : 0 <= ?d < W |- _ =>
    let Z0 := fresh in
    assert (Z0 : d = 0) by (apply (HZ t h l h0 l0 d k); [exact H|exact H2|clear - H5; lia|exact H6]);
    subst d; clear HZ H
  end.

Lemma fm_row_gen x0 x1 x2 x3 T s :
  (x0, x1, x2, x3) = (R8, R9, R10, R11) \/ (x0, x1, x2, x3) = (R9, R10, R11, R8) \/
  (x0, x1, x2, x3) = (R10, R11, R8, R9) \/ (x0, x1, x2, x3) = (R11, R8, R9, R10) ->
  fm_state x0 x1 x2 x3 T s -> T + (W - 1) * P < W * W * W * W * W ->
  wp mem1 (fm_row x0 x1 x2 x3) s (fun s' => exists m T', isw m /\ W * T' = T + m * P /\
    fm_state x1 x2 x3 x0 T' s').
Proof using All.
  intros Hx ((T0 & T1 & T2 & T3 & HT) & I1 & I2 & I3 & I4) HB.
  pose proof (fun t0 h m hh l d k => low_zero p0 inv t0 h m hh l d k Hneg) as HZ. clear Hneg.
  destruct s. 
  destruct Hx as [Hx|[Hx|[Hx|Hx]]]; injection Hx as -> -> -> ->; sregs; cbv [Asm.f_cf Asm.f_of] in I3, I4; subst;
  unfold fm_row; do 15 step; apply wp_nil; fm_tac;
  clear Ha0 Ha1 Ha2 Ha3 Hb0 Hb1 Hb2 Hb3 Hinv;
  assert (Hm : l * P <= (W - 1) * P) by (apply Z.mul_le_mono_nonneg_r;
    [clear - Hp0 Hp1 Hp2 Hp3; rewrite W_val in *; lia|clear - H0; lia]);
  exists l, (E4 d1 d3 d5 d7); (split; [assumption|]);
  match goal with HB : ?T + (W - 1) * _ < _ |- _ =>
    assert (Q : W * (E4 d1 d3 d5 d7 + W * W * W * W * (k6 + k7)) = T + l * P)
      by (clear HB Hm; rewrite W_val in *; lia);
    assert (Z : k6 = 0 /\ k7 = 0)
      by (clear - Q HB Hm H15 H24 H33 H39 H37 H40; set (X := l * P) in *; rewrite W_val in *; lia)
  end;
  destruct Z as [-> ->]; (split; [clear - Q; lia|]);
  unfold fm_state, out4; sregs; cbv [Asm.f_cf Asm.f_of]; tauto.
Qed.

Lemma fm_bound T T' m : 0 < P -> T < P -> isw m -> W * T' = T + m * P -> T' < P.
Proof using All.
  clear Hneg. set (Q := P). clearbody Q. intros HQ HT Hm E.
  assert (m * Q <= (W - 1) * Q) by (apply Z.mul_le_mono_nonneg_r; lia).
  apply Z.mul_lt_mono_pos_l with W; [apply W_pos|].
  replace (W * Q) with (Q + (W - 1) * Q) by ring. lia.
Qed.
Lemma fm_fit T : 0 < P -> T < P -> T + (W - 1) * P < W * W * W * W * W.
Proof using All.
  clear Hneg. intros HP HT. assert (P < W * W * W * W) by (clear HT HP; rewrite W_val in *; lia).
  set (Q := P) in *. clearbody Q.
  assert (W * Q < W * (W * W * W * W)) by (apply Z.mul_lt_mono_pos_l; [apply W_pos|lia]).
  replace (W * Q) with (Q + (W - 1) * Q) in H0 by ring. lia.
Qed.

Lemma from_mont_code s : A < P ->
  wp mem1 asm_from_mont_code s (fun s' => exists V K, V < P /\
    W * W * W * W * V = A + K * P /\ out4 R8 R9 R10 R11 V s').
Proof using All.
  intros HA.
  assert (HA0 : 0 <= A) by (clear - Ha0 Ha1 Ha2 Ha3; rewrite W_val in *; lia).
  assert (HP0 : 0 < P) by (clear - HA HA0; lia).
  rewrite fm_code_split.
  apply wp_app. eapply wp_imp; [|apply fm_load_code]. cbv beta. intros s1 O1.
  apply wp_app. eapply wp_imp;
    [|apply (fm_row_gen R8 R9 R10 R11 A s1 ltac:(auto) O1 (fm_fit A HP0 HA))]. cbv beta.
  intros s2 (m0 & T1 & Hm0 & E1 & O2). pose proof (fm_bound A T1 m0 HP0 HA Hm0 E1) as L1.
  apply wp_app. eapply wp_imp;
    [|apply (fm_row_gen R9 R10 R11 R8 T1 s2 ltac:(auto) O2 (fm_fit T1 HP0 L1))]. cbv beta.
  intros s3 (m1 & T2 & Hm1 & E2 & O3). pose proof (fm_bound T1 T2 m1 HP0 L1 Hm1 E2) as L2.
  apply wp_app. eapply wp_imp;
    [|apply (fm_row_gen R10 R11 R8 R9 T2 s3 ltac:(auto) O3 (fm_fit T2 HP0 L2))]. cbv beta.
  intros s4 (m2 & T3 & Hm2 & E3 & O4). pose proof (fm_bound T2 T3 m2 HP0 L2 Hm2 E3) as L3.
  eapply wp_imp;
    [|apply (fm_row_gen R11 R8 R9 R10 T3 s4 ltac:(auto) O4 (fm_fit T3 HP0 L3))]. cbv beta.
  intros s5 (m3 & T4 & Hm3 & E4' & O5). pose proof (fm_bound T3 T4 m3 HP0 L3 Hm3 E4') as L4.
  exists T4, (E4 m0 m1 m2 m3). split; [exact L4|]. split; [|apply O5].
  set (PP := P) in *. set (AA := A) in *. clearbody PP AA. clear - E1 E2 E3 E4'.
  transitivity (W * W * W * (W * T4)); [ring|]. rewrite E4'.
  transitivity (W * W * (W * T3) + W * W * W * m3 * PP); [ring|]. rewrite E3.
  transitivity (W * (W * T2) + W * W * m2 * PP + W * W * W * m3 * PP); [ring|]. rewrite E2.
  transitivity (W * T1 + W * m1 * PP + W * W * m2 * PP + W * W * W * m3 * PP); [ring|].
  rewrite E1. ring.
Qed.

End Blocks.

(** * The code never gets stuck
    Whether a flag is defined does not depend on the data: [shape] follows it. *)
Definition shape : Type := (bool * bool * bool)%type.
Definition has (b : bool) (f : option Z) : Prop := b = true -> exists v, f = Some v.
Definition shaped (h : shape) (s : cpu) : Prop :=
  has (fst (fst h)) (f_cf s) /\ has (snd (fst h)) (f_of s) /\ has (snd h) (f_zf s).
Definition reads (nb : bool) (o : operand) : bool :=
  match o with
  | Mem p off => Nat.eqb (Nat.modulo off 8) 0 && Nat.ltb (Nat.div off 8) 4 &&
                 match p with Bptr => nb | _ => true end
  | _ => true
  end.
Definition sh_exec (nb : bool) (i : instr) (h : shape) : option shape :=
  let '(cf, o, z) := h in
  let ok (b : bool) (h' : shape) := if b then Some h' else None in
  match i with
  | MOV _ x => ok (reads nb x) h
  | ADD _ x | SUB _ x => ok (reads nb x) (true, false, false)
  | ADC _ x | SBB _ x => ok (reads nb x && cf) (true, false, false)
  | ADCX _ x => ok (reads nb x && cf) h
  | ADOX _ x => ok (reads nb x && o) h
  | MULX _ _ x => ok (reads nb x) h
  | IMUL _ x => ok (reads nb x) (false, false, false)
  | XOR _ x | AND _ x | OR _ x => ok (reads nb x) (true, true, true)
  | CMP _ x => ok (reads nb x) (true, false, true)
  | CMOVC _ x | CMOVNC _ x => ok (reads nb x && cf) h
  | CMOVE _ x => ok (reads nb x && z) h
  end.
Fixpoint sh_run (nb : bool) (code : list instr) (h : shape) : bool :=
  match code with
  | [] => true
  | i :: code' => match sh_exec nb i h with Some h' => sh_run nb code' h' | None => false end
  end.

Definition big_enough (nb : bool) (m : memory) : Prop :=
  length (at_a m) = 4%nat /\ length (at_m m) = 4%nat /\ (nb = true -> length (at_b m) = 4%nat).

Lemma reads_value nb m o s : big_enough nb m -> reads nb o = true -> exists v, value m o s = Some v.
Proof.
  intros (HA & HM & HB) H. destruct o as [r|p off|z|]; cbn [value]; eauto.
  cbn [reads] in H. apply andb_true_iff in H as [H Hp]. apply andb_true_iff in H as [H1 H2].
  unfold read_mem. rewrite H1. apply Nat.ltb_lt in H2.
  destruct (nth_error (array m p) (off / 8)) eqn:E; [eauto|]. exfalso.
  apply nth_error_None in E.
  assert (length (array m p) = 4%nat) by (destruct p; cbn [array]; auto). lia.
Qed.
Lemma shaped_setr h r v s : shaped h s -> shaped h (setr r v s).
Proof. destruct s, r; exact (fun H => H). Qed.

Lemma shaped_set_cf v b cf o z s : shaped (cf, o, z) s -> has b v -> shaped (b, o, z) (set_cf v s).
Proof. destruct s. intros (H1 & H2 & H3) H. repeat split; assumption. Qed.
Lemma shaped_set_of v b cf o z s : shaped (cf, o, z) s -> has b v -> shaped (cf, b, z) (set_of v s).
Proof. destruct s. intros (H1 & H2 & H3) H. repeat split; assumption. Qed.
Lemma shaped_set_zf v b cf o z s : shaped (cf, o, z) s -> has b v -> shaped (cf, o, b) (set_zf v s).
Proof. destruct s. intros (H1 & H2 & H3) H. repeat split; assumption. Qed.

Lemma sh_exec_sound nb m i h h' s : big_enough nb m -> shaped h s -> sh_exec nb i h = Some h' ->
  exists s', exec m i s = Some s' /\ shaped h' s'.
Proof.
  intros Hm Hs E. destruct h as [[cf o] z]. pose proof Hs as (S1 & S2 & S3). cbn [fst snd] in *.
  destruct i as [d x|d x|d x|d x|d x|d x|d x|hi lo x|d x|d x|d x|d x|d x|d x|d x|d x];
  cbn [sh_exec] in E;
  (destruct (reads nb x) eqn:R; [|discriminate E]); cbn [andb] in E;
  try (destruct cf; [|discriminate E]); try (destruct o; [|discriminate E]);
  try (destruct z; [|discriminate E]); injection E as <-;
  destruct (reads_value nb m x s Hm R) as [v V]; cbn [exec]; rewrite V;
  try (destruct (S1 eq_refl) as [vc ->]); try (destruct (S2 eq_refl) as [vo ->]);
  try (destruct (S3 eq_refl) as [vz ->]);
  (eexists; split; [reflexivity|]).
  all: unfold do_sum, do_dif, do_logic, do_cmov;
    repeat match goal with |- context [if ?b then _ else _] => destruct b end;
    repeat first [exact Hs | eapply shaped_set_cf | eapply shaped_set_of
                 | eapply shaped_set_zf | apply shaped_setr];
    try (intro; discriminate); try (intros _; eexists; reflexivity).
Qed.
Lemma sh_run_sound nb m code : forall h s, big_enough nb m -> shaped h s ->
  sh_run nb code h = true -> exists s', run m code s = Some s'.
Proof.
  induction code as [|i code IH]; intros h s Hm Hs H; cbn [run sh_run] in *; [eauto|].
  destruct (sh_exec nb i h) as [h'|] eqn:E; [|discriminate].
  destruct (sh_exec_sound nb m i h h' s Hm Hs E) as (s' & -> & Hs'). eauto.
Qed.
Lemma shaped_any s : shaped (false, false, false) s.
Proof. repeat split; intro; discriminate. Qed.

(** * Agreement with the portable code *)
Lemma wp_run m code s Q : wp m code s Q -> exists s', run m code s = Some s' /\ Q s'.
Proof. unfold wp. destruct (run m code s) as [s'|]; [eauto|contradiction]. Qed.

Lemma eval4 x0 x1 x2 x3 : eval [x0; x1; x2; x3] = E4 x0 x1 x2 x3.
Proof. cbn [eval]. ring. Qed.
Lemma list4 (l : list Z) : length l = 4%nat -> exists x0 x1 x2 x3, l = [x0; x1; x2; x3].
Proof. destruct l as [|x0 [|x1 [|x2 [|x3 [|? ?]]]]]; try discriminate. eauto. Qed.
Lemma words4 x0 x1 x2 x3 : words [x0; x1; x2; x3] <-> isw x0 /\ isw x1 /\ isw x2 /\ isw x3.
Proof.
  rewrite !words_cons. split; [tauto|]. intros (H0 & H1 & H2 & H3). repeat split; try lia. constructor.
Qed.
Lemma out4_list q0 q1 q2 q3 V s : out4 q0 q1 q2 q3 V s ->
  let r := [getr q0 s; getr q1 s; getr q2 s; getr q3 s] in
  length r = 4%nat /\ words r /\ eval r = V.
Proof.
  intros (H0 & H1 & H2 & H3 & E). cbn zeta. split; [reflexivity|]. split; [now apply words4|].
  now rewrite eval4.
Qed.

Section Agree.
Variable c : fconf.
Hypothesis Hc : odd_conf c.
Hypothesis Hu : uses_asm c = true.
Notation p := (modulus c).
Notation canon := (canonical (num_limbs c) p).

Lemma asm_limbs : num_limbs c = 4%nat.
Proof. apply andb_true_iff in Hu as [H _]. now apply Nat.eqb_eq. Qed.
Lemma asm_bits : 2 * p <= W * W * W * W.
Proof.
  apply andb_true_iff in Hu as [_ H]. apply Z.ltb_lt in H. unfold num_bits in H.
  pose proof (p_gt1 c Hc). destruct (Z.log2_spec p) as [_ L]; [lia|].
  assert (2 ^ Z.succ (Z.log2 p) <= 2 ^ 255) by (apply Z.pow_le_mono_r; lia).
  replace (W * W * W * W) with (2 * 2 ^ 255) by (rewrite W_val; reflexivity). lia.
Qed.
Lemma asm_modulus : exists p0 p1 p2 p3, modulus_limbs c = [p0; p1; p2; p3] /\
  (isw p0 /\ isw p1 /\ isw p2 /\ isw p3) /\ E4 p0 p1 p2 p3 = p /\
  (p0 * inv64 c) mod W = W - 1 /\ isw (inv64 c).
Proof.
  destruct (modulus_limbs_spec c Hc) as (L & Hw & E). rewrite asm_limbs in L.
  pose proof (inv64_spec c Hc) as I.
  destruct (list4 _ L) as (p0 & p1 & p2 & p3 & EQ). rewrite EQ in *.
  exists p0, p1, p2, p3. apply words4 in Hw. rewrite eval4 in E. cbn [hd] in I.
  repeat split; try tauto; try exact E; try exact I; try lia.
  - unfold inv64, wneg. apply Z.mod_pos_bound, W_pos.
  - unfold inv64, wneg. apply Z.mod_pos_bound, W_pos.
Qed.
Lemma canon4 a : canon a -> exists a0 a1 a2 a3, a = [a0; a1; a2; a3] /\
  (isw a0 /\ isw a1 /\ isw a2 /\ isw a3) /\ eval a = E4 a0 a1 a2 a3 /\ E4 a0 a1 a2 a3 < p.
Proof.
  intros (L & Hw & E). rewrite asm_limbs in L. destruct (list4 _ L) as (a0 & a1 & a2 & a3 & ->).
  exists a0, a1, a2, a3. apply words4 in Hw. rewrite eval4 in *. auto.
Qed.

(** The result of the code is the canonical list of value [V]. *)
Lemma result q0 q1 q2 q3 V s r : out4 q0 q1 q2 q3 V s -> V < p -> canon r -> eval r = V ->
  outputs q0 q1 q2 q3 (Some s) = Some r.
Proof.
  intros O HV Hr E. apply out4_list in O as (L & Hw & E'). cbn [outputs]. f_equal.
  apply (canon_inj c); [|exact Hr|congruence]. split; [rewrite asm_limbs; exact L|].
  split; [exact Hw|]. congruence.
Qed.

Lemma modulus_spec' : words (modulus_limbs c) /\ length (modulus_limbs c) = num_limbs c /\
  eval (modulus_limbs c) = p.
Proof. destruct (modulus_limbs_spec c Hc) as (H1 & H2 & H3). auto. Qed.

Ltac with_mod := destruct modulus_spec' as (M1 & M2 & M3);
  destruct asm_modulus as (p0 & p1 & p2 & p3 & EP & (P0 & P1 & P2 & P3) & VP & NI & WI);
  pose proof asm_bits as HB.
Ltac with_a a Ha := pose proof (canon_bound c _ Ha) as BA;
  destruct (canon4 a Ha) as (a0 & a1 & a2 & a3 & -> & (A0 & A1 & A2 & A3) & VA & LA).
Ltac with_b b Hb := pose proof (canon_bound c _ Hb) as BB;
  destruct (canon4 b Hb) as (b0 & b1 & b2 & b3 & -> & (B0 & B1 & B2 & B3) & VB & LB).

Lemma addmod x y : 0 <= x < p -> 0 <= y < p ->
  (x + y) mod p = (if x + y <? p then x + y else x + y - p).
Proof.
  clear. intros Hx Hy. destruct (Z.ltb_spec (x + y) p); [apply Z.mod_small; lia|].
  symmetry. apply Z.mod_unique_pos with 1; lia.
Qed.
Lemma submod x y : 0 <= x < p -> 0 <= y < p -> (x - y) mod p = (if x <? y then x - y + p else x - y).
Proof.
  clear. intros Hx Hy. destruct (Z.ltb_spec x y); [|apply Z.mod_small; lia].
  symmetry. apply Z.mod_unique_pos with (-1); lia.
Qed.
Lemma negmod x : 0 <= x < p -> (- x) mod p = (if x =? 0 then 0 else p - x).
Proof.
  clear. intros Hx. destruct (Z.eqb_spec x 0) as [->|N]; [reflexivity|].
  symmetry. apply Z.mod_unique_pos with (-1); lia.
Qed.

Lemma asm_add_eq s a b : canon a -> canon b -> asm_add c s a b = Some (fe_add c a b).
Proof.
  intros Ha Hb. with_mod.
  destruct (limbs_add_spec (modulus_limbs c) a b M1) as [R1 R2]; rewrite ?M2, ?M3; auto.
  rewrite M2, M3 in R1. rewrite M3 in R2. rewrite addmod in R2 by (apply canon_bound; auto).
  with_a a Ha. with_b b Hb. rewrite VA, VB in *. unfold fe_add.
  rewrite <- VP in LA, LB, HB, R2. unfold asm_add, asm_mem. rewrite EP in *.
  destruct (wp_run _ _ _ _ (add_code p0 p1 p2 p3 (inv64 c) a0 a1 a2 a3 b0 b1 b2 b3
    P0 P1 P2 P3 A0 A1 A2 A3 B0 B1 B2 B3 WI NI s LA LB HB)) as (s' & -> & O).
  refine (result _ _ _ _ _ _ _ O _ R1 R2). rewrite <- R2. now apply (canon_bound c).
Qed.
Lemma asm_double_eq s a : canon a -> asm_double c s a = Some (fe_double c a).
Proof.
  intros Ha. with_mod.
  destruct (limbs_add_spec (modulus_limbs c) a a M1) as [R1 R2]; rewrite ?M2, ?M3; auto.
  rewrite M2, M3 in R1. rewrite M3 in R2. rewrite addmod in R2 by (apply canon_bound; auto).
  with_a a Ha. rewrite VA in *. unfold fe_double, limbs_double.
  rewrite <- VP in LA, HB, R2. unfold asm_double, asm_mem. rewrite EP in *.
  destruct (wp_run _ _ _ _ (double_code p0 p1 p2 p3 (inv64 c) a0 a1 a2 a3 0 0 0 0
    P0 P1 P2 P3 A0 A1 A2 A3 isw0 isw0 isw0 isw0 WI NI s LA HB)) as (s' & -> & O).
  refine (result _ _ _ _ _ _ _ O _ R1 R2). rewrite <- R2. now apply (canon_bound c).
Qed.
Lemma asm_sub_eq s a b : canon a -> canon b -> asm_sub c s a b = Some (fe_sub c a b).
Proof.
  intros Ha Hb. with_mod.
  destruct (limbs_sub_spec (modulus_limbs c) a b M1) as [R1 R2]; rewrite ?M2, ?M3; auto.
  rewrite M2, M3 in R1. rewrite M3 in R2. rewrite submod in R2 by (apply canon_bound; auto).
  with_a a Ha. with_b b Hb. rewrite VA, VB in *. unfold fe_sub.
  rewrite <- VP in LA, LB, R2. unfold asm_sub, asm_mem. rewrite EP in *.
  destruct (wp_run _ _ _ _ (sub_code p0 p1 p2 p3 (inv64 c) a0 a1 a2 a3 b0 b1 b2 b3
    P0 P1 P2 P3 A0 A1 A2 A3 B0 B1 B2 B3 WI NI s LA LB)) as (s' & -> & O).
  refine (result _ _ _ _ _ _ _ O _ R1 R2). rewrite <- R2. now apply (canon_bound c).
Qed.
Lemma asm_neg_eq s a : canon a -> asm_neg c s a = Some (fe_neg c a).
Proof.
  intros Ha. with_mod. pose proof (p_gt1 c Hc) as G.
  destruct (limbs_neg_spec (modulus_limbs c) a M1) as [R1 R2]; rewrite ?M2, ?M3; auto; [lia|].
  rewrite M2, M3 in R1. rewrite M3 in R2. rewrite negmod in R2 by (apply canon_bound; auto).
  with_a a Ha. rewrite VA in *. unfold fe_neg.
  rewrite <- VP in LA, R2. unfold asm_neg, asm_mem. rewrite EP in *.
  destruct (wp_run _ _ _ _ (neg_code p0 p1 p2 p3 (inv64 c) a0 a1 a2 a3 0 0 0 0
    P0 P1 P2 P3 A0 A1 A2 A3 isw0 isw0 isw0 isw0 WI NI s LA)) as (s' & -> & O).
  refine (result _ _ _ _ _ _ _ O _ R1 R2). rewrite <- R2. now apply (canon_bound c).
Qed.

(** Two residues that agree after multiplication by 2^256. *)
Lemma W4 : W ^ Z.of_nat (num_limbs c) = W * W * W * W.
Proof. rewrite asm_limbs. change (Z.of_nat 4) with 4. rewrite W_val. reflexivity. Qed.
Lemma mont_unique V V' X K : 0 <= V < p -> 0 <= V' < p ->
  W * W * W * W * V = X + K * p -> (W * W * W * W * V') mod p = X mod p -> V' = V.
Proof.
  intros HV HV' E E'. pose proof (p_gt1 c Hc).
  apply (Zmod_small_unique V' V p); auto.
  apply mod_cancel with (W * W * W * W); [rewrite <- W4; apply R_coprime, Hc|lia|].
  rewrite E', E, Z_mod_plus_full. reflexivity.
Qed.

Lemma asm_mul_eq s a b : canon a -> length b = num_limbs c -> words b ->
  asm_mul c s a b = Some (fe_mul c a b).
Proof.
  intros Ha Lb Wb. with_mod.
  assert (Hlt : eval a * eval b < p * W ^ Z.of_nat (num_limbs c)).
  { pose proof (canon_bound c _ Ha). pose proof (eval_bound _ Wb). rewrite Lb in *.
    clear - H H0. set (R := W ^ Z.of_nat (num_limbs c)) in *. nia. }
  destruct (fe_mul_wide c Hc a b) as [R1 R2]; auto; [apply Ha|apply Ha|].
  rewrite W4 in R2. pose proof (canon_bound c _ R1) as BR.
  with_a a Ha. rewrite asm_limbs in Lb.
  destruct (list4 _ Lb) as (b0 & b1 & b2 & b3 & ->). apply words4 in Wb as (B0 & B1 & B2 & B3).
  rewrite VA, eval4 in *. rewrite <- VP in LA, HB. unfold asm_mul, asm_mem. rewrite EP.
  destruct (wp_run _ _ _ _ (mul_code p0 p1 p2 p3 (inv64 c) a0 a1 a2 a3 b0 b1 b2 b3
    P0 P1 P2 P3 A0 A1 A2 A3 B0 B1 B2 B3 WI NI s LA HB)) as (s' & -> & V & K & HV & E & O).
  rewrite VP in *.
  exact (result _ _ _ _ _ _ _ O (proj2 HV) R1 (mont_unique _ _ _ _ HV BR E R2)).
Qed.
Lemma asm_square_eq s a : canon a -> asm_square c s a = Some (fe_square c a).
Proof.
  intros Ha. unfold asm_square. rewrite asm_mul_eq; [|exact Ha|apply Ha|apply Ha].
  f_equal. symmetry. apply (fe_square_is_mul c Hc a Ha).
Qed.
Lemma asm_from_mont_eq s a : canon a -> asm_from_mont c s a = Some (fe_from_mont c a).
Proof.
  intros Ha. with_mod. pose proof (p_gt1 c Hc) as G.
  destruct (from_mont_spec (modulus_limbs c) (inv64 c) a M1 (ml_nonempty c Hc) (inv64_spec c Hc)) as [R1 R2];
    [lia|apply Ha|rewrite M2; apply Ha|].
  rewrite M2, M3, ?W4 in *. fold (fe_from_mont c a) in R1, R2.
  pose proof (canon_bound c _ R1) as BR.
  with_a a Ha. rewrite VA in *. rewrite <- VP in LA. unfold asm_from_mont, asm_mem. rewrite EP.
  destruct (wp_run _ _ _ _ (from_mont_code p0 p1 p2 p3 (inv64 c) a0 a1 a2 a3 0 0 0 0
    P0 P1 P2 P3 A0 A1 A2 A3 isw0 isw0 isw0 isw0 WI NI s LA)) as (s' & -> & V & K & HV & E & O).
  rewrite VP in *.
  assert (0 <= V).
  { destruct O as (Q1 & Q2 & Q3 & Q4 & <-). clear - Q1 Q2 Q3 Q4. rewrite W_val in *. lia. }
  exact (result _ _ _ _ _ _ _ O HV R1 (mont_unique _ _ _ _ (conj H HV) BR E R2)).
Qed.

(** * Never stuck, and the conversions *)
Lemma asm_mul_total s a b : length a = num_limbs c -> length b = num_limbs c ->
  exists r, asm_mul c s a b = Some r.
Proof.
  intros La Lb. rewrite asm_limbs in *. destruct modulus_spec' as (_ & M2 & _). rewrite asm_limbs in M2.
  destruct (sh_run_sound true (asm_mem c a b) asm_mul_code _ s
    ltac:(repeat split; auto) (shaped_any s) ltac:(vm_compute; reflexivity)) as [s' E].
  unfold asm_mul. rewrite E. cbn [outputs]. eauto.
Qed.
Lemma R2_canon' : canon (R2 c). Proof. apply R2_canon, Hc. Qed.

Lemma decode_eq s big l : is_bytes l -> length l = size c ->
  let el := endian_from_bytes big (num_limbs c) l in
  match asm_mul c s el (R2 c) with
  | Some v => Some (if is_less_than_modulus c el then Some v else None)
  | None => None
  end = Some (if is_less_than_modulus c el then Some (fe_mul c el (R2 c)) else None).
Proof.
  intros Hl HL. cbn zeta. unfold size in HL.
  destruct (endian_from_bytes_spec big (num_limbs c) l Hl HL) as (L & Hw & E & _).
  set (el := endian_from_bytes big (num_limbs c) l) in *.
  destruct (asm_mul_total s el (R2 c) L (proj1 R2_canon')) as [r Er].
  rewrite is_less_than_modulus_spec by assumption.
  destruct (Z.ltb_spec (eval el) p).
  - rewrite asm_mul_eq; [reflexivity|split; [exact L|split; assumption]|apply R2_canon'|apply R2_canon'].
  - rewrite Er. reflexivity.
Qed.

Lemma asm_from_bytes_eq s l : is_bytes l -> length l = size c ->
  asm_from_bytes c s l = Some (from_bytes c l).
Proof. exact (decode_eq s (big_endian c) l). Qed.
Lemma asm_from_repr_eq s l : is_bytes l -> length l = size c ->
  asm_from_repr c s l = Some (from_repr c l).
Proof. exact (decode_eq s false l). Qed.
Lemma asm_to_bytes_eq s a : canon a -> asm_to_bytes c s a = Some (to_bytes c a).
Proof. intros Ha. unfold asm_to_bytes. now rewrite asm_from_mont_eq. Qed.
Lemma asm_to_repr_eq s a : canon a -> asm_to_repr c s a = Some (to_repr c a).
Proof. intros Ha. unfold asm_to_repr. now rewrite asm_from_mont_eq. Qed.

Lemma asm_big : W * W < p.
Proof.
  pose proof asm_limbs as H. unfold num_limbs, num_bits in H.
  assert (HL : 3 * 64 <= Z.log2 p).
  { pose proof (Z.log2_nonneg p). set (L := Z.log2 p) in *. clearbody L. clear - H H0.
    assert ((L + 1 - 1) / 64 = 3) by lia. pose proof (Z.mul_div_le (L + 1 - 1) 64). lia. }
  pose proof (p_gt1 c Hc). destruct (Z.log2_spec p) as [Q _]; [lia|].
  assert (2 ^ (3 * 64) <= 2 ^ Z.log2 p) by (apply Z.pow_le_mono_r; lia).
  assert (W * W < 2 ^ (3 * 64)) by (rewrite W_val; reflexivity). lia.
Qed.
Lemma asm_from_u64_eq s v : 0 <= v < W -> asm_from_u64 c s v = Some (from_u64 c v).
Proof.
  intros Hv. unfold asm_from_u64, from_u64. apply asm_mul_eq; [|apply R2_canon'|apply R2_canon'].
  pose proof asm_big as G. rewrite asm_limbs. cbn [firstn repeat]. split; [reflexivity|]. split.
  - apply words4. pose proof isw0. auto.
  - rewrite eval4. pose proof W_pos. nia.
Qed.
Lemma asm_from_u128_eq s v : 0 <= v < W * W -> asm_from_u128 c s v = Some (from_u128 c v).
Proof.
  intros Hv. unfold asm_from_u128, from_u128. pose proof isw0 as Z0.
  assert (H1 : isw (Z.shiftr v 64)).
  { rewrite Z.shiftr_div_pow2 by lia. change (2 ^ 64) with W. pose proof W_pos.
    split; [apply Z.div_pos; lia|apply Z.div_lt_upper_bound; lia]. }
  apply asm_mul_eq; [apply R2_canon'| |]; rewrite asm_limbs; cbn [firstn repeat]; [reflexivity|].
  apply words4. pose proof (Z.mod_pos_bound v W W_pos). auto.
Qed.
Lemma asm_from_uniform_bytes_eq s l : is_bytes l -> (length l <= 2 * size c)%nat ->
  asm_from_uniform_bytes c s l = Some (from_uniform_bytes c l).
Proof.
  intros Hl HL. unfold asm_from_uniform_bytes, from_uniform_bytes. cbv zeta.
  set (wide := firstn (2 * size c) (l ++ repeat 0 (2 * size c))).
  assert (Hw : is_bytes wide).
  { apply is_bytes_firstn, is_bytes_app. split; auto. apply is_bytes_repeat0. }
  assert (LW : length wide = (2 * size c)%nat).
  { unfold wide. rewrite firstn_length_le; auto. rewrite app_length, repeat_length. lia. }
  destruct (le_chunks_spec (num_limbs c) (firstn (size c) wide)) as (A1 & A2 & A3 & _).
  { now apply is_bytes_firstn. } { rewrite firstn_length_le; unfold size in *; lia. }
  destruct (le_chunks_spec (num_limbs c) (skipn (size c) wide)) as (B1 & B2 & B3 & _).
  { now apply is_bytes_skipn. } { rewrite skipn_length; unfold size in *; lia. }
  apply asm_add_eq.
  - exact (repr_canon c _ _ (mul_R2_repr c Hc _ A1 A2)).
  - exact (repr_canon c _ _ (mul_R3_repr c Hc _ B1 B2)).
Qed.

End Agree.
