(** Property theorems C54: the table of small scalars of feature `bn256-table`. *)
From Verif Require Import Base Word Limbs Bytes Field SpecField Params LimbsFacts FieldFacts Asm AsmFacts Props_Field Props_Asm FrTable.
Local Open Scope Z_scope.

Lemma table_entry a : 0 <= a < script_modulus -> decompose_field_element a = to_token bn256_fr a.
Proof.
  intros Ha. assert (L : num_limbs bn256_fr = 4%nat) by (vm_compute; reflexivity).
  unfold to_token. rewrite L. unfold decompose_field_element. cbn [big_to_limbs].
  assert (M : forall e, Z.land e (W - 1) = e mod 2 ^ 64).
  { intros e. change (W - 1) with (Z.ones 64). apply Z.land_ones. lia. }
  assert (D : forall e, Z.shiftr e 64 = e / 2 ^ 64) by (intros e; apply Z.shiftr_div_pow2; lia).
  rewrite !M, !D. do 3 f_equal. f_equal. symmetry. apply Z.mod_small.
  rewrite !Z.div_div by lia. split; [apply Z.div_pos; lia|]. apply Z.div_lt_upper_bound; [lia|].
  apply Z.lt_trans with script_modulus; [apply Ha|]. vm_compute. reflexivity.
Qed.
Lemma script_consts : script_modulus = modulus bn256_fr /\ script_R = r1 bn256_fr /\ table_size = 65536
  /\ num_limbs bn256_fr = 4%nat /\ uses_asm bn256_fr = true.
Proof. vm_compute. auto. Qed.
Lemma bn256_fr_odd : odd_conf bn256_fr.
Proof. split; vm_compute; reflexivity. Qed.
Lemma table_nth v : 0 <= v < table_size -> nth_error FR_TABLE (Z.to_nat v) = Some (to_token bn256_fr (mont bn256_fr v)).
Proof.
  intros Hv. unfold FR_TABLE. generalize dependent table_size. intros n Hn.
  rewrite nth_error_map. rewrite (nth_error_nth' _ 0%nat) by (rewrite seq_length; lia).
  rewrite seq_nth by lia. cbn [option_map Nat.add]. rewrite Z2Nat.id by lia.
  destruct script_consts as (E1 & E2 & _). rewrite table_entry.
  - unfold mont. rewrite E1, E2. reflexivity.
  - apply Z.mod_pos_bound. vm_compute. reflexivity.
Qed.
(** Entry [i] of the generated table is the Montgomery form of [i], and there are 65536. *)
Theorem C54_table : length FR_TABLE = Z.to_nat 65536 /\
  forall i, 0 <= i < 65536 -> exists e, nth_error FR_TABLE (Z.to_nat i) = Some e
    /\ represents 4 (modulus bn256_fr) e i.
Proof.
  destruct script_consts as (E1 & _ & E3 & E4 & _). split.
  - unfold FR_TABLE. rewrite map_length, seq_length, E3. reflexivity.
  - intros i Hi. eexists. split; [apply table_nth; rewrite E3; exact Hi|].
    pose proof (token_mont_repr bn256_fr bn256_fr_odd i) as R. rewrite E4 in R.
    rewrite Z.mod_small in R; [exact R|]. split; [apply Hi|]. apply Z.lt_trans with 65536; [apply Hi|]. vm_compute. reflexivity.
Qed.
Print Assumptions C54_table.
(** With the table, [Fr::from(u64)] returns the same limbs as without it, and never panics;
    also with the assembly multiplication. *)
Theorem C54_from_u64 : forall v, 0 <= v < 2 ^ 64 ->
  table_from_u64 v = Some (from_u64 bn256_fr v)
  /\ forall s, table_from_u64_asm s v = Some (from_u64 bn256_fr v).
Proof.
  intros v Hv. destruct script_consts as (E1 & _ & E3 & E4 & E5). pose proof bn256_fr_odd as Hc.
  assert (S : v < 65536 -> nth_error FR_TABLE (Z.to_nat v) = Some (from_u64 bn256_fr v)).
  { intros L. rewrite table_nth by (rewrite E3; lia). f_equal.
    apply (repr_inj bn256_fr) with (v := v mod modulus bn256_fr); auto.
    - apply token_mont_repr; exact Hc.
    - apply C03_from_u64; assumption. }
  unfold table_from_u64, table_from_u64_asm. destruct (v <? 65536) eqn:L.
  - apply Z.ltb_lt in L. rewrite (S L). auto.
  - split.
    + unfold from_u64. rewrite E4. reflexivity.
    + intros s. exact (proj1 (C51_integers bn256_fr s Hc E5) v Hv).
Qed.
Print Assumptions C54_from_u64.
(** The last entry, computed. *)
Example ex_C54 : eval (fe_from_mont bn256_fr (decompose_field_element (65535 * script_R mod script_modulus))) = 65535.
Proof. vm_compute. reflexivity. Qed.
