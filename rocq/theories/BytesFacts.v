(** Facts about byte strings and their limb conversions. *)
From Verif Require Import Base Word Limbs Bytes Field SpecField LimbsFacts FieldFacts.

Lemma from_le_bytes_le_int : forall l, from_le_bytes l = le_int l.
Proof. induction l as [|b l IH]; cbn; [auto|now rewrite IH]. Qed.
Lemma from_be_bytes_be_int : forall l, from_be_bytes l = be_int l.
Proof. intro l. apply from_le_bytes_le_int. Qed.

Lemma is_bytes_cons : forall x l, is_bytes (x :: l) <-> 0 <= x < 256 /\ is_bytes l.
Proof. intros; split; [now inversion 1|intros []; now constructor]. Qed.
Lemma is_bytes_app : forall a b, is_bytes (a ++ b) <-> is_bytes a /\ is_bytes b.
Proof. intros; apply Forall_app. Qed.
Lemma is_bytes_rev : forall l, is_bytes l -> is_bytes (rev l).
Proof. intros l H. apply Forall_rev. exact H. Qed.
Lemma is_bytes_firstn : forall k l, is_bytes l -> is_bytes (firstn k l).
Proof. intros k l H. rewrite <- (firstn_skipn k l) in H. now apply is_bytes_app in H. Qed.
Lemma is_bytes_skipn : forall k l, is_bytes l -> is_bytes (skipn k l).
Proof. intros k l H. rewrite <- (firstn_skipn k l) in H. now apply is_bytes_app in H. Qed.
Lemma is_bytes_repeat0 : forall k, is_bytes (repeat 0 k).
Proof. induction k; cbn; [constructor|apply is_bytes_cons; split; [lia|auto]]. Qed.

Lemma le_int_app : forall a b, le_int (a ++ b) = le_int a + 256 ^ Z.of_nat (length a) * le_int b.
Proof.
  induction a as [|x a IH]; intro b; cbn [app le_int length].
  - change (256 ^ Z.of_nat 0) with 1. lia.
  - rewrite IH, Nat2Z.inj_succ, Z.pow_succ_r by lia. ring.
Qed.
Lemma le_int_bound : forall l, is_bytes l -> 0 <= le_int l < 256 ^ Z.of_nat (length l).
Proof.
  induction l as [|x l IH]; intro H; cbn [le_int length].
  - change (256 ^ Z.of_nat 0) with 1. lia.
  - apply is_bytes_cons in H as [Hx Hl]. specialize (IH Hl).
    rewrite Nat2Z.inj_succ, Z.pow_succ_r by lia. lia.
Qed.
Lemma le_int_repeat0 : forall k, le_int (repeat 0 k) = 0.
Proof. induction k; cbn [repeat le_int]; lia. Qed.

Lemma le_int_inj : forall a b, length a = length b -> is_bytes a -> is_bytes b ->
  le_int a = le_int b -> a = b.
Proof.
  induction a as [|x a IH]; intros [|y b] HL Ha Hb E; try discriminate; auto.
  apply is_bytes_cons in Ha as [Hx Ha]. apply is_bytes_cons in Hb as [Hy Hb].
  cbn [le_int length] in *. injection HL as HL.
  assert (x = y /\ le_int a = le_int b) as [-> E2] by lia.
  f_equal. auto.
Qed.

Lemma le_bytes_length : forall k x, length (le_bytes k x) = k.
Proof. induction k; intro x; cbn; auto. Qed.
Lemma le_bytes_bytes : forall k x, is_bytes (le_bytes k x).
Proof.
  induction k; intro x; cbn; [constructor|]. apply is_bytes_cons. split; auto.
  apply Z.mod_pos_bound. lia.
Qed.
Lemma le_bytes_int : forall k x, 0 <= x < 256 ^ Z.of_nat k -> le_int (le_bytes k x) = x.
Proof.
  induction k as [|k IH]; intros x Hx; cbn [le_bytes le_int].
  - change (256 ^ Z.of_nat 0) with 1 in Hx. lia.
  - rewrite Nat2Z.inj_succ, Z.pow_succ_r in Hx by lia.
    rewrite IH. { pose proof (Z.div_mod x 256). lia. }
    split; [apply Z.div_pos; lia|apply Z.div_lt_upper_bound; lia].
Qed.
Lemma W_256 : W = 256 ^ Z.of_nat 8. Proof. reflexivity. Qed.

(** * Limbs to bytes *)
Lemma flat_le_length : forall ws, length (flat_map (le_bytes 8) ws) = (8 * length ws)%nat.
Proof.
  induction ws as [|w ws IH]; cbn [flat_map length]; auto.
  rewrite app_length, le_bytes_length, IH. lia.
Qed.
Lemma flat_le_bytes : forall ws, is_bytes (flat_map (le_bytes 8) ws).
Proof.
  induction ws as [|w ws IH]; cbn [flat_map]; [constructor|].
  apply is_bytes_app. split; auto. apply le_bytes_bytes.
Qed.
Lemma flat_le_int : forall ws, words ws -> le_int (flat_map (le_bytes 8) ws) = eval ws.
Proof.
  induction ws as [|w ws IH]; intro H; cbn [flat_map eval]; auto.
  apply words_cons in H as [Hw H]. rewrite le_int_app, le_bytes_length, IH, le_bytes_int by
    (auto; rewrite <- W_256; auto).
  rewrite <- W_256. ring.
Qed.

Lemma flat_be_rev : forall ws, flat_map (be_bytes 8) (rev ws) = rev (flat_map (le_bytes 8) ws).
Proof.
  induction ws as [|w ws IH]; cbn [rev flat_map]; auto.
  rewrite flat_map_app, IH, rev_app_distr. cbn [flat_map]. now rewrite app_nil_r.
Qed.

(** * Bytes to limbs *)
Lemma skipn_skipn_add : forall (A : Type) a b (l : list A), skipn a (skipn b l) = skipn (b + a) l.
Proof.
  intros A a b. induction b as [|b IH]; intro l; cbn [Nat.add]; auto.
  destruct l as [|x l]; cbn [skipn]; auto. now rewrite skipn_nil.
Qed.
Lemma chunk8_S : forall l i, chunk8 l (S i) = chunk8 (skipn 8 l) i.
Proof.
  intros l i. unfold chunk8. rewrite skipn_skipn_add. do 2 f_equal. lia.
Qed.
Lemma chunk8_0 : forall l, chunk8 l 0 = firstn 8 l.
Proof. intro l. unfold chunk8. now rewrite Nat.mul_0_r. Qed.

Lemma map_seq_S : forall (A : Type) (f : nat -> A) n k, map f (seq (S k) n) = map (fun i => f (S i)) (seq k n).
Proof. intros A f n k. rewrite <- seq_shift, map_map. reflexivity. Qed.

Lemma chunks_cons : forall (A : Type) (f : list Z -> A) l n,
  map (fun i => f (chunk8 l i)) (seq 0 (S n)) =
  f (firstn 8 l) :: map (fun i => f (chunk8 (skipn 8 l) i)) (seq 0 n).
Proof.
  intros A f l n. cbn [seq map]. rewrite chunk8_0. f_equal.
  rewrite map_seq_S. apply map_ext. intro i. now rewrite chunk8_S.
Qed.

Lemma le_chunks_spec : forall n l, is_bytes l -> length l = (8 * n)%nat ->
  let ws := map (fun i => from_le_bytes (chunk8 l i)) (seq 0 n) in
  length ws = n /\ words ws /\ eval ws = le_int l /\ flat_map (le_bytes 8) ws = l.
Proof.
  induction n as [|n IH]; intros l Hl HL ws.
  - destruct l; [|cbn in HL; lia]. cbn. repeat split; constructor.
  - unfold ws. rewrite chunks_cons.
    destruct (IH (skipn 8 l)) as (I1 & I2 & I3 & I4).
    { now apply is_bytes_skipn. } { rewrite skipn_length. lia. }
    assert (H8 : length (firstn 8 l) = 8%nat) by (rewrite firstn_length_le; lia).
    pose proof (le_int_bound _ (is_bytes_firstn 8 l Hl)) as Hb. rewrite H8, <- W_256 in Hb.
    cbn [length eval flat_map]. rewrite from_le_bytes_le_int. repeat split.
    + now rewrite I1.
    + apply words_cons. auto.
    + rewrite I3. transitivity (le_int (firstn 8 l ++ skipn 8 l)); [|now rewrite firstn_skipn].
      rewrite le_int_app, H8, <- W_256. reflexivity.
    + rewrite I4. transitivity (firstn 8 l ++ skipn 8 l); [|apply firstn_skipn]. f_equal.
      apply le_int_inj.
      * rewrite le_bytes_length. auto.
      * apply le_bytes_bytes.
      * now apply is_bytes_firstn.
      * apply le_bytes_int. rewrite <- W_256. auto.
Qed.

Lemma be_chunks_flat : forall ws, words ws ->
  map (fun i => from_be_bytes (chunk8 (flat_map (be_bytes 8) ws) i)) (seq 0 (length ws)) = ws.
Proof.
  induction ws as [|w ws IH]; intro H; auto.
  apply words_cons in H as [Hw H]. cbn [length]. rewrite chunks_cons. cbn [flat_map].
  assert (H8 : length (be_bytes 8 w) = 8%nat) by (unfold be_bytes; now rewrite rev_length, le_bytes_length).
  rewrite firstn_app, skipn_app, H8, Nat.sub_diag, firstn_O, skipn_O.
  rewrite app_nil_r, firstn_all2, (skipn_all2 (be_bytes 8 w)) by lia. cbn [app].
  f_equal; [|now apply IH].
  unfold from_be_bytes, be_bytes. rewrite rev_involutive, from_le_bytes_le_int.
  apply le_bytes_int. rewrite <- W_256. auto.
Qed.

Lemma be_chunks_eq : forall n l, is_bytes l -> length l = (8 * n)%nat ->
  endian_from_bytes true n l = endian_from_bytes false n (rev l).
Proof.
  intros n l Hl HL. cbn [endian_from_bytes].
  destruct (le_chunks_spec n (rev l)) as (I1 & I2 & I3 & I4).
  { now apply is_bytes_rev. } { now rewrite rev_length. }
  set (ws := map (fun i => from_le_bytes (chunk8 (rev l) i)) (seq 0 n)) in *.
  assert (E : l = flat_map (be_bytes 8) (rev ws)).
  { rewrite flat_be_rev, I4. now rewrite rev_involutive. }
  rewrite E. transitivity (rev (rev ws)); [|apply rev_involutive]. f_equal.
  transitivity (map (fun i => from_be_bytes (chunk8 (flat_map (be_bytes 8) (rev ws)) i))
                  (seq 0 (length (rev ws)))).
  - now rewrite rev_length, I1.
  - apply be_chunks_flat. apply Forall_rev. exact I2.
Qed.

Lemma endian_from_bytes_spec : forall big n l, is_bytes l -> length l = (8 * n)%nat ->
  let ws := endian_from_bytes big n l in
  length ws = n /\ words ws /\ eval ws = bytes_int big l /\ endian_to_bytes big ws = l.
Proof.
  intros big n l Hl HL ws. unfold ws. destruct big.
  - rewrite be_chunks_eq by auto.
    destruct (le_chunks_spec n (rev l)) as (I1 & I2 & I3 & I4).
    { now apply is_bytes_rev. } { now rewrite rev_length. }
    cbn [endian_from_bytes endian_to_bytes bytes_int]. repeat split; auto.
    rewrite flat_be_rev, I4. apply rev_involutive.
  - apply (le_chunks_spec n l); auto.
Qed.

Lemma endian_to_bytes_spec : forall big ws, words ws ->
  length (endian_to_bytes big ws) = (8 * length ws)%nat /\
  is_bytes (endian_to_bytes big ws) /\ bytes_int big (endian_to_bytes big ws) = eval ws.
Proof.
  intros [|] ws H; cbn [endian_to_bytes bytes_int]; unfold be_int.
  - rewrite flat_be_rev, rev_length, flat_le_length, rev_involutive, flat_le_int by auto.
    repeat split; auto. apply is_bytes_rev, flat_le_bytes.
  - rewrite flat_le_length, flat_le_int by auto. repeat split; auto. apply flat_le_bytes.
Qed.

Lemma bytes_int_inj : forall big a b, length a = length b -> is_bytes a -> is_bytes b ->
  bytes_int big a = bytes_int big b -> a = b.
Proof.
  intros [|] a b HL Ha Hb E; cbn [bytes_int] in E.
  - rewrite <- (rev_involutive a), <- (rev_involutive b). f_equal.
    apply le_int_inj; auto using is_bytes_rev. now rewrite !rev_length.
  - now apply le_int_inj.
Qed.
