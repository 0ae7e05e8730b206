(** [convert] of Inverse.v re-chunks an integer. *)
From Verif Require Import Base Word Limbs SpecField LimbsFacts Field Inverse InverseFacts.

Fixpoint beval (k : nat) (l : list Z) : Z :=
  match l with [] => 0 | x :: l' => x + 2 ^ Z.of_nat k * beval k l' end.
Definition bchunks (k : nat) (l : list Z) : Prop := Forall (fun x => 0 <= x < 2 ^ Z.of_nat k) l.

Lemma beval_64 : forall l, beval 64 l = eval l.
Proof. induction l as [|x l IH]; cbn [beval eval]; [|rewrite IH]; reflexivity. Qed.
Lemma beval_62 : forall l, beval 62 l = ceval l.
Proof. induction l as [|x l IH]; cbn [beval ceval]; [|rewrite IH]; reflexivity. Qed.
Lemma bchunks_64 : forall l, bchunks 64 l <-> words l.
Proof. reflexivity. Qed.
Lemma bchunks_62 : forall l, bchunks 62 l <-> chunks l.
Proof. reflexivity. Qed.
Lemma beval_bound : forall k l, bchunks k l -> 0 <= beval k l < 2 ^ Z.of_nat (length l * k).
Proof.
  induction l as [|x l IH]; intros H; cbn [beval length Nat.mul]; [cbn; lia|].
  inversion H as [|? ? Hx Hl]; subst. specialize (IH Hl).
  rewrite Nat2Z.inj_add, Z.pow_add_r by lia. nia.
Qed.
Definition cbit (k : nat) (l : list Z) (n : nat) : bool :=
  Z.testbit (nth (n / k) l 0) (Z.of_nat (n mod k)).
Lemma beval_bit : forall k l n, (1 <= k)%nat -> bchunks k l ->
  Z.testbit (beval k l) (Z.of_nat n) = cbit k l n.
Proof.
  intros k l. induction l as [|x l IH]; intros n Hk H; unfold cbit; cbn [beval].
  - rewrite Z.bits_0. destruct (n / k)%nat; cbn; now rewrite Z.bits_0.
  - inversion H as [|? ? Hx Hl]; subst.
    destruct (Nat.lt_ge_cases n k) as [Hn|Hn].
    + rewrite (Nat.div_small n k), (Nat.mod_small n k) by lia. cbn [nth].
      rewrite <- (Z.mod_pow2_bits_low _ (Z.of_nat k)) by lia.
      rewrite Z.mul_comm, Z_mod_plus_full, Z.mod_small by lia. reflexivity.
    + specialize (IH (n - k)%nat Hk Hl). unfold cbit in IH.
      assert (E1 : (n / k = S ((n - k) / k))%nat).
      { replace n with ((n - k) + 1 * k)%nat at 1 by lia. rewrite Nat.div_add by lia. lia. }
      assert (E2 : (n mod k = (n - k) mod k)%nat).
      { replace n with ((n - k) + 1 * k)%nat at 1 by lia. rewrite Nat.mod_add by lia. reflexivity. }
      rewrite E1, E2. cbn [nth]. rewrite <- IH.
      replace (Z.of_nat n) with (Z.of_nat (n - k) + Z.of_nat k) by lia.
      rewrite <- Z.div_pow2_bits by lia. f_equal.
      rewrite Z.mul_comm, Z.div_add, Z.div_small; [reflexivity|lia|apply Z.pow_nonzero; lia].
Qed.

Lemma set_nth_length : forall i x l, length (set_nth i x l) = length l.
Proof. induction i as [|i IH]; intros x [|y l]; cbn; auto. Qed.
Lemma nth_set_nth : forall i x l j, (i < length l)%nat ->
  nth j (set_nth i x l) 0 = if Nat.eqb j i then x else nth j l 0.
Proof.
  induction i as [|i IH]; intros x [|y l] j Hi; cbn [length] in Hi; try lia; cbn [set_nth].
  - destruct j; reflexivity.
  - destruct j; cbn [nth Nat.eqb]; [reflexivity|]. apply IH. lia.
Qed.

Section Convert.
Variables I O S : nat.
Hypothesis HI : (1 <= I <= 64)%nat.
Hypothesis HO : (1 <= O <= 64)%nat.
Variable input : list Z.
Hypothesis Hin : bchunks I input.
Notation total := (Nat.min (length input * I) (S * O)).

Definition cinv (bits : nat) (out : list Z) : Prop :=
  length out = S /\
  (forall j b, (b < O)%nat -> Z.testbit (nth j out 0) (Z.of_nat b) =
     Nat.ltb (j * O + b) bits && cbit I input (j * O + b)) /\
  (forall j, (bits <= j * O)%nat -> nth j out 0 = 0).

Lemma nth_input_bound : forall i, 0 <= nth i input 0 < 2 ^ Z.of_nat I.
Proof.
  intros i. destruct (nth_in_or_default i input 0) as [H|H].
  - unfold bchunks in Hin. rewrite Forall_forall in Hin. auto.
  - rewrite H. lia.
Qed.
Lemma div_split : forall n k, (1 <= k)%nat -> exists q r, (n / k = q /\ n mod k = r /\ n = q * k + r /\ r < k)%nat.
Proof.
  intros n k Hk. exists (n / k)%nat, (n mod k)%nat.
  pose proof (Nat.div_mod n k ltac:(lia)). pose proof (Nat.mod_upper_bound n k ltac:(lia)). lia.
Qed.
Lemma nat_div_mod_of : forall n k q r, (n = q * k + r -> r < k -> n / k = q /\ n mod k = r)%nat.
Proof.
  intros n k q r -> Hr. rewrite Nat.add_comm, Nat.div_add, Nat.mod_add, Nat.div_small, Nat.mod_small by lia. lia.
Qed.

Lemma word_bit : forall c i o b, 0 <= c -> (b < 64)%nat ->
  Z.testbit (Z.shiftl (Z.shiftr c (Z.of_nat i)) (Z.of_nat o) mod W) (Z.of_nat b) =
  Nat.leb o b && Z.testbit c (Z.of_nat (i + (b - o))).
Proof.
  intros c i o b Hc Hb. rewrite W_pow, Z.mod_pow2_bits_low by lia.
  destruct (Nat.leb_spec o b); cbn [andb].
  - rewrite Z.shiftl_spec, Z.shiftr_spec by lia. f_equal. lia.
  - apply Z.shiftl_spec_low. lia.
Qed.

Lemma cstep : forall bits out, (bits < total)%nat -> cinv bits out ->
  let i := (bits mod I)%nat in let o := (bits mod O)%nat in
  let word := Z.shiftl (Z.shiftr (nth (bits / I) input 0) (Z.of_nat i)) (Z.of_nat o) mod W in
  let bits' := (bits + Nat.min (I - i) (O - o))%nat in
  cinv bits' (set_nth (bits / O) (Z.lor (nth (bits / O) out 0) word) out) /\
  (bits < bits' <= total)%nat.
Proof.
  intros bits out Hb (C1 & C2 & C3) i o word bits'. subst i o word bits'.
  destruct (div_split bits I ltac:(lia)) as (qi & ri & -> & -> & EI & Hri).
  destruct (div_split bits O ltac:(lia)) as (qo & ro & -> & -> & EO & Hro).
  assert (Hqi : (qi < length input)%nat) by nia. assert (Hqo : (qo < S)%nat) by nia.
  set (step := Nat.min (I - ri) (O - ro)).
  assert (Hbits : (bits < bits + step <= total)%nat).
  { unfold step. split; [lia|]. apply Nat.min_glb; nia. }
  split; auto. split; [now rewrite set_nth_length|]. split.
  - intros j b Hbo. rewrite nth_set_nth by lia.
    destruct (Nat.eqb_spec j qo) as [->|Hj].
    + rewrite Z.lor_spec, C2, word_bit by (try lia; apply nth_input_bound).
      destruct (Nat.leb_spec ro b) as [Hob|Hob]; cbn [andb].
      * replace (Nat.ltb (qo * O + b) bits) with false by (symmetry; apply Nat.ltb_ge; lia).
        cbn [andb orb]. destruct (Nat.ltb_spec (qo * O + b) (bits + step)) as [Hs|Hs]; cbn [andb].
        -- unfold cbit. destruct (nat_div_mod_of (qo * O + b) I qi (ri + (b - ro))) as [-> ->]; [lia|lia|reflexivity].
        -- rewrite <- (Z.mod_small (nth qi input 0) (2 ^ Z.of_nat I)) by apply nth_input_bound.
           apply Z.mod_pow2_bits_high. lia.
      * replace (Nat.ltb (qo * O + b) bits) with true by (symmetry; apply Nat.ltb_lt; lia).
        replace (Nat.ltb (qo * O + b) (bits + step)) with true by (symmetry; apply Nat.ltb_lt; lia).
        now rewrite orb_false_r.
    + rewrite C2 by auto. f_equal.
      destruct (Nat.lt_ge_cases j qo).
      * assert (j * O + b < bits)%nat by nia.
        destruct (Nat.ltb_spec (j * O + b) bits); destruct (Nat.ltb_spec (j * O + b) (bits + step)); lia.
      * assert (bits + step <= j * O + b)%nat by (unfold step; nia).
        destruct (Nat.ltb_spec (j * O + b) bits); destruct (Nat.ltb_spec (j * O + b) (bits + step)); lia.
  - intros j Hj. rewrite nth_set_nth by lia. destruct (Nat.eqb_spec j qo) as [->|Hjq]; [exfalso; lia|].
    apply C3. lia.
Qed.

Lemma cloop : forall fuel bits out, (bits <= total)%nat -> (total - bits <= fuel)%nat -> cinv bits out ->
  cinv total (convert_loop fuel I O total input out bits).
Proof.
  induction fuel as [|fuel IH]; intros bits out Hb Hf HC; cbn [convert_loop].
  - replace total with bits by lia. exact HC.
  - destruct (Nat.ltb_spec bits total) as [Hlt|Hge].
    + destruct (cstep bits out Hlt HC) as [A B].
      apply IH; auto; lia.
    + now replace total with bits by lia.
Qed.

Lemma cinv0 : cinv 0 (repeat 0 S).
Proof.
  split; [apply repeat_length|].
  assert (E : forall j, nth j (repeat 0 S) 0 = 0).
  { intros j. destruct (nth_in_or_default j (repeat 0 S) 0) as [H|H]; [now apply repeat_spec in H|auto]. }
  split; intros; rewrite E; [apply Z.bits_0|reflexivity].
Qed.

Lemma nth_masked : forall f m l j, f 0 = 0 ->
  nth j (map f (firstn m l) ++ skipn m l) 0 = if Nat.ltb j m then f (nth j l 0) else nth j l 0.
Proof.
  induction m as [|m IH]; intros l j Hf; [reflexivity|].
  destruct l as [|x l]; cbn [firstn skipn map app].
  - destruct j; destruct (Nat.ltb _ _); rewrite ?Hf; auto.
  - destruct j; [reflexivity|]. cbn [nth]. rewrite IH by auto.
    destruct (Nat.ltb_spec j m); destruct (Nat.ltb_spec (Datatypes.S j) (Datatypes.S m)); auto; lia.
Qed.

Lemma convert_spec :
  length (convert I O S input) = S /\ bchunks O (convert I O S input) /\
  beval O (convert I O S input) = beval I input mod 2 ^ Z.of_nat (S * O).
Proof.
  destruct (cloop total 0 (repeat 0 S) ltac:(lia) ltac:(lia) cinv0) as (C1 & C2 & C3).
  unfold convert. set (out := convert_loop total I O total input (repeat 0 S) 0) in *.
  set (filled := (total / O + if Nat.ltb 0 (total mod O) then 1 else 0)%nat).
  set (res := map (fun x => Z.land x (Z.ones (Z.of_nat O))) (firstn filled out) ++ skipn filled out).
  assert (Hlen : length res = S).
  { unfold res. rewrite app_length, map_length, <- C1. rewrite <- (firstn_skipn filled out) at 3.
    now rewrite app_length. }
  assert (Hnth : forall j, nth j res 0 = if Nat.ltb j filled then nth j out 0 mod 2 ^ Z.of_nat O else 0).
  { intros j. unfold res. rewrite nth_masked by apply Z.land_0_l.
    destruct (Nat.ltb_spec j filled) as [H|H].
    - rewrite Z.land_ones by lia. reflexivity.
    - apply C3. unfold filled in H. destruct (div_split total O ltac:(lia)) as (q & r & Eq & Er & E & Hr).
      rewrite Eq, Er in H. rewrite E. destruct (Nat.ltb_spec 0 r); nia. }
  assert (Hb : forall j b, (b < O)%nat -> Z.testbit (nth j res 0) (Z.of_nat b) =
     Nat.ltb (j * O + b) total && cbit I input (j * O + b)).
  { intros j b Hbo. rewrite Hnth. destruct (Nat.ltb_spec j filled) as [H|H].
    - rewrite Z.mod_pow2_bits_low by lia. now apply C2.
    - rewrite <- C2 by auto. rewrite C3; [reflexivity|].
      unfold filled in H. destruct (div_split total O ltac:(lia)) as (q & r & Eq & Er & E & Hr).
      rewrite Eq, Er in H. rewrite E. destruct (Nat.ltb_spec 0 r); nia. }
  assert (Hch : bchunks O res).
  { apply Forall_forall. intros x Hx. apply In_nth with (d := 0) in Hx as (j & Hj & <-). rewrite Hnth.
    assert (0 < 2 ^ Z.of_nat O) by (apply Z.pow_pos_nonneg; lia).
    destruct (Nat.ltb j filled); [apply Z.mod_pos_bound|]; lia. }
  split; auto. split; auto.
  apply Z.bits_inj'. intros z Hz. rewrite <- (Z2Nat.id z Hz). set (n := Z.to_nat z).
  rewrite beval_bit by (auto; lia). unfold cbit at 1.
  rewrite Hb by (apply Nat.mod_upper_bound; lia).
  replace (n / O * O + n mod O)%nat with n by (rewrite (Nat.div_mod n O) at 1; lia).
  destruct (Nat.lt_ge_cases n (S * O)) as [H|H].
  - rewrite Z.mod_pow2_bits_low, beval_bit by (auto; lia).
    destruct (Nat.ltb_spec n total) as [H'|H']; [reflexivity|]. cbn [andb].
    unfold cbit. rewrite nth_overflow; [symmetry; apply Z.bits_0|].
    apply Nat.div_le_lower_bound; lia.
  - rewrite Z.mod_pow2_bits_high by lia.
    destruct (Nat.ltb_spec n total); [lia|reflexivity].
Qed.
End Convert.

Lemma to_chunks_spec : forall L l, words l -> eval l < T L -> cin L (convert 64 62 L l) (eval l).
Proof.
  intros L l Hw Hl. destruct (convert_spec 64 62 L ltac:(lia) ltac:(lia) l Hw) as (A & B & C).
  rewrite beval_62, beval_64 in C. split; auto. split; [exact B|]. rewrite C, T_pow. do 2 f_equal. lia.
Qed.
Lemma of_chunks_spec : forall L S a v, cin L a v -> 0 <= v < T L -> v < W ^ Z.of_nat S ->
  length (convert 62 64 S a) = S /\ words (convert 62 64 S a) /\ eval (convert 62 64 S a) = v.
Proof.
  intros L S a v (La & Ca & Ea) Hv HS.
  destruct (convert_spec 62 64 S ltac:(lia) ltac:(lia) a Ca) as (A & B & C).
  rewrite beval_62, beval_64 in C. split; auto. split; [exact B|]. rewrite C, Ea, (Z.mod_small v (T L)) by lia.
  apply Z.mod_small. split; [lia|]. rewrite W_pow, <- Z.pow_mul_r in HS by lia.
  replace (Z.of_nat (S * 64)) with (64 * Z.of_nat S) by lia. lia.
Qed.
