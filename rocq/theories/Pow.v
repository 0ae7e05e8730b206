(** Exponentiation in a ring given by a record of operations. *)
From Verif Require Import Base Algebra.

(** [x^e] for an integer [e >= 0] by binary recursion (computable). *)
Fixpoint fpow_pos {F} (o : fops F) (x : F) (e : positive) : F :=
  match e with
  | xH => x
  | xO e' => let y := fpow_pos o x e' in fmul o y y
  | xI e' => let y := fpow_pos o x e' in fmul o x (fmul o y y)
  end.
Definition fpowz {F} (o : fops F) (x : F) (e : Z) : F :=
  match e with Zpos e' => fpow_pos o x e' | _ => f1 o end.

(** Product of a list. *)
Definition fprod {F} (o : fops F) (l : list F) : F := fold_right (fmul o) (f1 o) l.

Section PowFacts.
Context {F : Type} (o : fops F) (H : ring_laws o).
Notation "0" := (f0 o). Notation "1" := (f1 o).
Infix "+" := (fadd o). Infix "-" := (fsub o). Infix "*" := (fmul o).
Notation "- x" := (fneg o x).
Add Ring FRp : (rl_ring _ H).

Lemma fpow_pos_nat x e : fpow_pos o x e = fpow_nat o x (Pos.to_nat e).
Proof.
  assert (A : forall a b, fpow_nat o x (a + b) = fpow_nat o x a * fpow_nat o x b).
  { induction a as [|a IH]; intros b; cbn [fpow_nat Nat.add]; [ring|]. rewrite IH. ring. }
  induction e as [e IH|e IH|].
  - rewrite Pos2Nat.inj_xI. cbn [fpow_pos fpow_nat Nat.mul]. rewrite Nat.add_0_r, A, IH. reflexivity.
  - rewrite Pos2Nat.inj_xO. cbn [fpow_pos Nat.mul]. rewrite Nat.add_0_r, A, IH. reflexivity.
  - change (x = x * 1). ring.
Qed.

Lemma fpowz_nat x e : (0 <= e)%Z -> fpowz o x e = fpow_nat o x (Z.to_nat e).
Proof.
  destruct e as [|e|e]; intros He; cbn [fpowz Z.to_nat].
  - reflexivity.
  - apply fpow_pos_nat.
  - reflexivity.
Qed.

Lemma fpowz_of_nat x k : fpowz o x (Z.of_nat k) = fpow_nat o x k.
Proof. rewrite fpowz_nat, Nat2Z.id by lia. reflexivity. Qed.

Lemma fpowz_0 x : fpowz o x 0%Z = 1.
Proof. reflexivity. Qed.

Lemma fpowz_1 x : fpowz o x 1%Z = x.
Proof. reflexivity. Qed.

Lemma fpowz_2 x : fpowz o x 2%Z = x * x.
Proof. reflexivity. Qed.

Lemma fpowz_succ x e : (0 <= e)%Z -> fpowz o x (e + 1)%Z = x * fpowz o x e.
Proof.
  intros He. rewrite !fpowz_nat by lia. replace (Z.to_nat (e + 1)) with (S (Z.to_nat e)) by lia.
  reflexivity.
Qed.

Lemma fpowz_add x a b : (0 <= a)%Z -> (0 <= b)%Z -> fpowz o x (a + b)%Z = fpowz o x a * fpowz o x b.
Proof.
  intros Ha Hb. revert a Ha. apply natlike_ind.
  - rewrite fpowz_0, Z.add_0_l. ring.
  - intros a Ha IH. unfold Z.succ. replace (a + 1 + b)%Z with (a + b + 1)%Z by lia.
    rewrite !fpowz_succ, IH by lia. ring.
Qed.

Lemma fpowz_one e : fpowz o 1 e = 1.
Proof.
  destruct (Z_lt_le_dec e 0) as [Hn|Hn]. { destruct e; try lia. reflexivity. }
  revert e Hn. apply natlike_ind; [reflexivity|]. intros e He IH. unfold Z.succ.
  rewrite fpowz_succ, IH by lia. ring.
Qed.

Lemma fpowz_zero e : (0 < e)%Z -> fpowz o 0 e = 0.
Proof.
  intros He. replace e with (e - 1 + 1)%Z by lia. rewrite fpowz_succ by lia. ring.
Qed.

Lemma fpowz_mul_base x y e : fpowz o (x * y) e = fpowz o x e * fpowz o y e.
Proof.
  destruct (Z_lt_le_dec e 0) as [Hn|Hn]. { destruct e; try lia. cbn. ring. }
  revert e Hn. apply natlike_ind; [cbn; ring|]. intros e He IH. unfold Z.succ.
  rewrite !fpowz_succ, IH by lia. ring.
Qed.

Lemma fpowz_mul x a b : (0 <= a)%Z -> (0 <= b)%Z -> fpowz o x (a * b)%Z = fpowz o (fpowz o x a) b.
Proof.
  intros Ha Hb. revert b Hb. apply natlike_ind.
  - rewrite Z.mul_0_r. reflexivity.
  - intros b Hb IH. unfold Z.succ. rewrite fpowz_succ by lia.
    replace (a * (b + 1))%Z with (a + a * b)%Z by lia. rewrite fpowz_add, IH by nia. reflexivity.
Qed.

Lemma fpowz_neg_even x e : (0 <= e)%Z -> fpowz o (- x) (2 * e)%Z = fpowz o x (2 * e)%Z.
Proof.
  intros He. rewrite !(fpowz_mul _ 2 e), !fpowz_2 by lia. f_equal. ring.
Qed.

(** ** The bit-serial [pow] *)
Definition bits_val (acc : Z) (bits : list bool) : Z :=
  fold_left (fun a (b : bool) => (2 * a + (if b then 1 else 0))%Z) bits acc.

Lemma bits_val_nonneg bits : forall a, (0 <= a)%Z -> (0 <= bits_val a bits)%Z.
Proof.
  induction bits as [|b l IH]; intros a Ha; cbn [bits_val fold_left]; [exact Ha|].
  apply IH. destruct b; lia.
Qed.

Lemma fpow_bits_spec x bits : forall a, (0 <= a)%Z ->
  fpow_bits o x (fpowz o x a) bits = fpowz o x (bits_val a bits).
Proof.
  induction bits as [|b l IH]; intros a Ha; cbn [fpow_bits bits_val fold_left]; [reflexivity|].
  rewrite (rl_sqr _ H), <- fpowz_add by lia. destruct b.
  - replace (fpowz o x (a + a)%Z * x) with (fpowz o x (2 * a + 1)%Z).
    + apply IH. lia.
    + rewrite fpowz_succ by lia. replace (2 * a)%Z with (a + a)%Z by lia. ring.
  - replace (a + a)%Z with (2 * a + 0)%Z by lia. apply IH. lia.
Qed.

Lemma fpow_bits_one x bits : fpow_bits o x 1 bits = fpowz o x (bits_val 0%Z bits).
Proof. exact (fpow_bits_spec x bits 0%Z (Z.le_refl 0)). Qed.

(** Products *)
Lemma fprod_app l1 l2 : fprod o (l1 ++ l2) = fprod o l1 * fprod o l2.
Proof.
  induction l1 as [|a l IH]; cbn [app]; [change (fprod o l2 = 1 * fprod o l2); ring|].
  change (a * fprod o (l ++ l2) = a * fprod o l * fprod o l2). rewrite IH. ring.
Qed.

Lemma fprod_perm l1 l2 : Permutation l1 l2 -> fprod o l1 = fprod o l2.
Proof.
  induction 1 as [|x l l' _ IH|x y l|l l' l'' _ IH1 _ IH2].
  - reflexivity.
  - change (x * fprod o l = x * fprod o l'). rewrite IH. reflexivity.
  - change (y * (x * fprod o l) = x * (y * fprod o l)). ring.
  - congruence.
Qed.

Lemma fprod_map_mul x l : fprod o (map (fmul o x) l) = fpowz o x (Z.of_nat (length l)) * fprod o l.
Proof.
  induction l as [|a l IH]; cbn [map length].
  - change (1 = 1 * 1). ring.
  - change (x * a * fprod o (map (fmul o x) l) = fpowz o x (Z.of_nat (S (length l))) * (a * fprod o l)).
    rewrite IH, Nat2Z.inj_succ. unfold Z.succ. rewrite fpowz_succ by lia. ring.
Qed.
End PowFacts.

(** Bits of limb arrays denote their value. *)
Lemma bits_val_app a l1 l2 : bits_val a (l1 ++ l2) = bits_val (bits_val a l1) l2.
Proof. apply fold_left_app. Qed.

Lemma bits_val_word w n : forall a, (0 <= w)%Z ->
  bits_val a (map (fun i => Z.testbit w (Z.of_nat i)) (rev (seq 0 n)))
  = (a * 2 ^ Z.of_nat n + w mod 2 ^ Z.of_nat n)%Z.
Proof.
  intros a Hw. revert a. induction n as [|n IH]; intros a.
  - cbn [seq rev map bits_val fold_left]. change (Z.of_nat 0) with 0%Z.
    rewrite Z.pow_0_r, Z.mod_1_r. lia.
  - rewrite seq_S, rev_app_distr, Nat.add_0_l. cbn [rev app map].
    change (bits_val a (?b :: ?l)) with (bits_val (2 * a + (if b then 1 else 0)) l).
    rewrite IH, Nat2Z.inj_succ, Z.pow_succ_r by lia.
    assert (E : (w mod (2 * 2 ^ Z.of_nat n)
              = w mod 2 ^ Z.of_nat n + (if Z.testbit w (Z.of_nat n) then 2 ^ Z.of_nat n else 0))%Z).
    { rewrite Z.mul_comm, Z.rem_mul_r by lia. f_equal.
      pose proof (Z.testbit_spec' w (Z.of_nat n) ltac:(lia)) as T.
      rewrite <- T. destruct (Z.testbit w (Z.of_nat n)); cbn [Z.b2z]; ring. }
    rewrite E. destruct (Z.testbit w (Z.of_nat n)); ring.
Qed.

From Verif Require Import Word SpecField LimbsFacts.

Lemma limbs_bits_val l : words l -> bits_val 0%Z (limbs_bits_be l) = eval l.
Proof.
  unfold limbs_bits_be. intros Hl.
  assert (G : forall m a, Forall (fun w => 0 <= w < W)%Z m ->
     bits_val a (flat_map (fun w : Z =>
       map (fun i : nat => Z.testbit w (Z.of_nat i)) (rev (seq 0 64))) m)
     = (a * Wn (length m) + eval (rev m))%Z).
  { clear l Hl. intros m a Hw. revert a. induction Hw as [|w m Hw Hm IH]; intros a.
    - cbn [flat_map bits_val fold_left rev eval length]. rewrite Wn_0. lia.
    - cbn [flat_map]. rewrite bits_val_app, bits_val_word by lia.
      replace (2 ^ Z.of_nat 64)%Z with W by reflexivity.
      rewrite Z.mod_small by lia.
      rewrite IH. cbn [rev length]. rewrite eval_app, rev_length, Wn_S.
      cbn [eval]. lia. }
  rewrite G.
  - rewrite rev_involutive. lia.
  - apply Forall_rev. exact Hl.
Qed.

Lemma fpow_spec {F} (o : fops F) (H : ring_laws o) x l : words l ->
  fpow o x l = fpowz o x (eval l).
Proof. intros Hl. unfold fpow. rewrite fpow_bits_one by exact H. rewrite limbs_bits_val by exact Hl. reflexivity. Qed.
