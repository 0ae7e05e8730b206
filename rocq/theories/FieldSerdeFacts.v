(** Byte-level facts of the prime-field model. *)
From Verif Require Import Base Word Limbs Bytes Field SpecField LimbsFacts FieldFacts BytesFacts.

Section Facts.
Variable c : fconf.
Hypothesis Hc : odd_conf c.
Notation p := (modulus c).
Notation n := (num_limbs c).
Notation canon := (canonical n p).
Notation repr := (represents n p).

(** Common part of [from_bytes] and [from_repr]. *)
Lemma decode_spec : forall big l, is_bytes l -> length l = size c ->
  let el := endian_from_bytes big n l in
  is_less_than_modulus c el = (bytes_int big l <? p) /\
  (bytes_int big l < p -> repr (fe_mul c el (R2 c)) (bytes_int big l)).
Proof.
  intros big l Hl HL el.
  destruct (endian_from_bytes_spec big n l) as (E1 & E2 & E3 & E4); auto.
  fold el in E1, E2, E3, E4. split.
  - rewrite is_less_than_modulus_spec by auto. now rewrite E3.
  - intro Hlt. pose proof (eval_bound _ E2).
    replace (bytes_int big l) with (eval el mod p).
    + now apply mul_R2_repr.
    + rewrite E3. apply Z.mod_small. lia.
Qed.

Lemma encode_spec : forall big a v, repr a v ->
  let l := endian_to_bytes big (fe_from_mont c a) in
  length l = size c /\ is_bytes l /\ bytes_int big l = v.
Proof.
  intros big a v Ha l.
  destruct (fe_from_mont_spec c Hc a v Ha) as (F1 & F2 & F3).
  destruct (endian_to_bytes_spec big _ F2) as (E1 & E2 & E3).
  fold l in E1, E2, E3. rewrite F1 in E1. rewrite F3 in E3. auto.
Qed.

Lemma to_bytes_spec : forall a v, repr a v ->
  length (to_bytes c a) = size c /\ is_bytes (to_bytes c a) /\
  bytes_int (big_endian c) (to_bytes c a) = v.
Proof. intros a v Ha. apply encode_spec; auto. Qed.
Lemma to_repr_spec : forall a v, repr a v ->
  length (to_repr c a) = size c /\ is_bytes (to_repr c a) /\ le_int (to_repr c a) = v.
Proof. intros a v Ha. apply (encode_spec false); auto. Qed.

Lemma from_bytes_spec : forall l, is_bytes l -> length l = size c ->
  match from_bytes c l with
  | Some a => repr a (bytes_int (big_endian c) l)
  | None => p <= bytes_int (big_endian c) l
  end.
Proof.
  intros l Hl HL. unfold from_bytes.
  destruct (decode_spec (big_endian c) l Hl HL) as [D1 D2]. rewrite D1.
  destruct (Z.ltb_spec (bytes_int (big_endian c) l) p); auto.
Qed.
Lemma from_repr_spec : forall l, is_bytes l -> length l = size c ->
  match from_repr c l with
  | Some a => repr a (le_int l)
  | None => p <= le_int l
  end.
Proof.
  intros l Hl HL. unfold from_repr.
  destruct (decode_spec false l Hl HL) as [D1 D2]. cbn [bytes_int] in *. rewrite D1.
  destruct (Z.ltb_spec (le_int l) p); auto.
Qed.

Lemma from_to_bytes : forall a, canon a -> from_bytes c (to_bytes c a) = Some a.
Proof.
  intros a Ha. destruct (canon_repr c Hc a Ha) as [v Hv].
  destruct (to_bytes_spec a v Hv) as (T1 & T2 & T3).
  pose proof (from_bytes_spec _ T2 T1) as F. rewrite T3 in F.
  pose proof (repr_bound c a v Hv).
  destruct (from_bytes c (to_bytes c a)) as [b|]; [|lia].
  f_equal. apply (repr_inj c) with (v := v); auto.
Qed.
Lemma from_to_repr : forall a, canon a -> from_repr c (to_repr c a) = Some a.
Proof.
  intros a Ha. destruct (canon_repr c Hc a Ha) as [v Hv].
  destruct (to_repr_spec a v Hv) as (T1 & T2 & T3).
  pose proof (from_repr_spec _ T2 T1) as F. rewrite T3 in F.
  pose proof (repr_bound c a v Hv).
  destruct (from_repr c (to_repr c a)) as [b|]; [|lia].
  f_equal. apply (repr_inj c) with (v := v); auto.
Qed.
Lemma to_from_bytes : forall l a, is_bytes l -> length l = size c ->
  from_bytes c l = Some a -> canon a /\ to_bytes c a = l.
Proof.
  intros l a Hl HL E. pose proof (from_bytes_spec l Hl HL) as F. rewrite E in F.
  split; [apply F|]. destruct (to_bytes_spec a _ F) as (T1 & T2 & T3).
  apply bytes_int_inj with (big_endian c); auto. congruence.
Qed.
Lemma to_from_repr : forall l a, is_bytes l -> length l = size c ->
  from_repr c l = Some a -> canon a /\ to_repr c a = l.
Proof.
  intros l a Hl HL E. pose proof (from_repr_spec l Hl HL) as F. rewrite E in F.
  split; [apply F|]. destruct (to_repr_spec a _ F) as (T1 & T2 & T3).
  apply le_int_inj; auto. congruence.
Qed.

(** * from_uniform_bytes *)
Lemma from_uniform_bytes_repr : forall l, is_bytes l -> (length l <= 2 * size c)%nat ->
  repr (from_uniform_bytes c l) (le_int l mod p).
Proof.
  intros l Hl HL. unfold from_uniform_bytes.
  set (wide := firstn (2 * size c) (l ++ repeat 0 (2 * size c))).
  assert (Hw : is_bytes wide).
  { apply is_bytes_firstn, is_bytes_app. split; auto. apply is_bytes_repeat0. }
  assert (LW : length wide = (2 * size c)%nat).
  { unfold wide. rewrite firstn_length_le; auto. rewrite app_length, repeat_length. lia. }
  assert (EW : le_int wide = le_int l).
  { unfold wide. rewrite firstn_app, firstn_all2 by lia.
    rewrite le_int_app.
    replace (firstn (2 * size c - length l) (repeat 0 (2 * size c)))
      with (repeat 0 (2 * size c - length l)).
    - rewrite le_int_repeat0. lia.
    - replace (repeat 0 (2 * size c)) with
        (repeat 0 (2 * size c - length l) ++ repeat 0 (length l)).
      + rewrite firstn_app, repeat_length, Nat.sub_diag, firstn_O, app_nil_r.
        symmetry. apply firstn_all2. rewrite repeat_length. lia.
      + rewrite <- repeat_app. f_equal. lia. }
  destruct (le_chunks_spec n (firstn (size c) wide)) as (A1 & A2 & A3 & _).
  { now apply is_bytes_firstn. } { rewrite firstn_length_le; unfold size in *; lia. }
  destruct (le_chunks_spec n (skipn (size c) wide)) as (B1 & B2 & B3 & _).
  { now apply is_bytes_skipn. } { rewrite skipn_length; unfold size in *; lia. }
  set (a0 := map (fun i => from_le_bytes (chunk8 (firstn (size c) wide) i)) (seq 0 n)) in *.
  set (a1 := map (fun i => from_le_bytes (chunk8 (skipn (size c) wide) i)) (seq 0 n)) in *.
  replace (le_int l mod p) with ((eval a0 mod p + (eval a1 * Wn n) mod p) mod p).
  - apply fe_add_repr; auto; [apply mul_R2_repr|apply mul_R3_repr]; auto.
  - rewrite <- Zplus_mod. f_equal. rewrite A3, B3, <- EW.
    assert (ES : le_int wide = le_int (firstn (size c) wide ++ skipn (size c) wide))
      by now rewrite firstn_skipn.
    rewrite ES, le_int_app, firstn_length_le by lia.
    change (Z.of_nat (size c)) with (Z.of_nat (8 * n)).
    replace (256 ^ Z.of_nat (8 * n)) with (Wn n); [ring|].
    rewrite W_256, <- Z.pow_mul_r by lia. f_equal. lia.
Qed.

(** * Order, parity, bits *)
Fixpoint cmp_ms (X Y : list Z) : comparison :=
  match X, Y with
  | x :: X', y :: Y' => match x ?= y with Eq => cmp_ms X' Y' | res => res end
  | _, _ => Eq
  end.
Lemma cmp_ms_snoc_spec : forall X Y, length X = length Y -> is_bytes X -> is_bytes Y ->
  cmp_ms X Y = (be_int X ?= be_int Y).
Proof.
  unfold be_int. induction X as [|x X IH]; intros [|y Y] HL HX HY; try discriminate; auto.
  apply is_bytes_cons in HX as [Hx HX]. apply is_bytes_cons in HY as [Hy HY].
  injection HL as HL. cbn [cmp_ms rev].
  rewrite !le_int_app, !rev_length, HL. cbn [le_int].
  rewrite IH by auto.
  pose proof (le_int_bound _ (is_bytes_rev _ HX)) as BX. rewrite rev_length, HL in BX.
  pose proof (le_int_bound _ (is_bytes_rev _ HY)) as BY. rewrite rev_length in BY.
  set (N := 256 ^ Z.of_nat (length Y)) in *.
  destruct (Z.compare_spec x y) as [E|E|E].
  - subst y. destruct (Z.compare_spec (le_int (rev X)) (le_int (rev Y)));
      symmetry; [apply Z.compare_eq_iff|apply Z.compare_lt_iff|apply Z.compare_gt_iff]; lia.
  - symmetry. apply Z.compare_lt_iff. nia.
  - symmetry. apply Z.compare_gt_iff. nia.
Qed.

Lemma rev_combine : forall (A B : list Z), length A = length B ->
  rev (combine A B) = combine (rev A) (rev B).
Proof.
  intros A. induction A as [|a A IH]; intros [|b B] HL; try discriminate; auto.
  injection HL as HL. cbn [combine rev]. rewrite IH by auto.
  assert (G : forall X Y, length X = length Y -> combine X Y ++ [(a, b)] = combine (X ++ [a]) (Y ++ [b])).
  { induction X as [|x X IX]; intros [|y Y] HXY; try discriminate; auto.
    cbn [combine app]. f_equal. apply IX. cbn in HXY; lia. }
  apply G. now rewrite !rev_length.
Qed.

Lemma fe_cmp_spec : forall a b x y, repr a x -> repr b y -> fe_cmp c a b = (x ?= y).
Proof.
  intros a b x y Ha Hb.
  destruct (to_repr_spec a x Ha) as (A1 & A2 & A3).
  destruct (to_repr_spec b y Hb) as (B1 & B2 & B3).
  transitivity (cmp_ms (rev (to_repr c a)) (rev (to_repr c b))).
  - unfold fe_cmp. rewrite rev_combine by congruence.
    generalize (rev (to_repr c a)) as X, (rev (to_repr c b)) as Y.
    induction X as [|u X IH]; intros [|v Y]; cbn [combine cmp_ms]; auto.
    destruct (u ?= v); auto.
  - rewrite cmp_ms_snoc_spec; auto using is_bytes_rev.
    + unfold be_int. now rewrite !rev_involutive, A3, B3.
    + rewrite !rev_length. congruence.
Qed.

Lemma is_odd_spec : forall a v, repr a v -> is_odd c a = Z.odd v.
Proof.
  intros a v Ha. destruct (to_repr_spec a v Ha) as (A1 & A2 & A3).
  unfold is_odd. pose proof (num_limbs_pos c Hc).
  destruct (to_repr c a) as [|b l]. { unfold size in A1. cbn in A1. lia. }
  cbn [hd le_int] in *. rewrite <- A3, Z.odd_add, Z.odd_mul. cbn [Z.odd].
  rewrite andb_false_l, xorb_false_r.
  change 1 with (Z.ones 1). rewrite Z.land_ones by lia. change (2 ^ 1) with 2.
  rewrite Zmod_odd. destruct (Z.odd b); reflexivity.
Qed.

Lemma flat_bits : forall ws, words ws ->
  flat_map (fun w => map (fun i => Z.testbit w (Z.of_nat i)) (seq 0 64)) ws =
  map (fun i => Z.testbit (eval ws) (Z.of_nat i)) (seq 0 (64 * length ws)).
Proof.
  induction ws as [|w ws IH]; intro H; auto.
  apply words_cons in H as [Hw H]. pose proof (eval_bound _ H).
  replace (64 * length (w :: ws))%nat with (64 + 64 * length ws)%nat by (cbn [length]; lia).
  rewrite seq_app, map_app. cbn [flat_map]. rewrite IH by auto.
  assert (Elo : forall i, 0 <= i < 64 -> Z.testbit (w + W * eval ws) i = Z.testbit w i).
  { intros i Hi. rewrite <- (Z.mod_pow2_bits_low (w + W * eval ws) 64 i) by lia.
    rewrite <- W_pow, Z.mul_comm, Z_mod_plus_full, Z.mod_small by auto. reflexivity. }
  assert (Ehi : forall i, 0 <= i -> Z.testbit (w + W * eval ws) (i + 64) = Z.testbit (eval ws) i).
  { intros i Hi. rewrite <- Z.div_pow2_bits by lia.
    rewrite <- W_pow, Z.mul_comm, Z_div_plus_full by (rewrite W_val; lia).
    now rewrite Z.div_small. }
  f_equal.
  - apply map_ext_in. intros i Hi. apply in_seq in Hi. cbn [eval]. symmetry. apply Elo. lia.
  - assert (G : forall m k, map (fun i => Z.testbit (eval ws) (Z.of_nat i)) (seq k m) =
       map (fun i => Z.testbit (eval (w :: ws)) (Z.of_nat i)) (seq (k + 64) m)).
    { induction m as [|m IHm]; intro k; auto.
      cbn [seq map]. f_equal.
      - cbn [eval]. rewrite <- Ehi by lia. f_equal. lia.
      - rewrite IHm. reflexivity. }
    apply (G (64 * length ws)%nat 0%nat).
Qed.

Lemma to_le_bits_spec : forall a v, repr a v ->
  to_le_bits c a = map (fun i => Z.testbit v (Z.of_nat i)) (seq 0 (64 * n)).
Proof.
  intros a v Ha. destruct (to_repr_spec a v Ha) as (A1 & A2 & A3).
  destruct (le_chunks_spec n (to_repr c a) A2 A1) as (E1 & E2 & E3 & _).
  unfold to_le_bits. rewrite flat_bits by auto. now rewrite E1, E3, A3.
Qed.

(** * Raw serialization *)
Lemma to_raw_bytes_spec : forall a, canon a ->
  length (to_raw_bytes a) = size c /\ is_bytes (to_raw_bytes a) /\ le_int (to_raw_bytes a) = eval a.
Proof.
  intros a (A1 & A2 & A3). unfold to_raw_bytes.
  rewrite flat_le_length, flat_le_int, A1 by auto. repeat split; auto. apply flat_le_bytes.
Qed.

Lemma from_raw_bytes_spec : forall l, is_bytes l ->
  match from_raw_bytes c l with
  | Some a => length l = size c /\ le_int l < p /\ canon a /\ to_raw_bytes a = l
  | None => length l <> size c \/ p <= le_int l
  end.
Proof.
  intros l Hl. unfold from_raw_bytes.
  destruct (Nat.eqb_spec (length l) (size c)) as [E|E]; cbn [negb]; [|left; auto].
  destruct (le_chunks_spec n l Hl E) as (E1 & E2 & E3 & E4).
  unfold from_raw_bytes_unchecked. set (ws := map _ _) in *.
  rewrite is_less_than_modulus_spec, E3 by auto.
  destruct (Z.ltb_spec (le_int l) p); [|right; lia].
  repeat split; auto. lia.
Qed.

Lemma from_to_raw_bytes : forall a, canon a -> from_raw_bytes c (to_raw_bytes a) = Some a.
Proof.
  intros a Ha. destruct (to_raw_bytes_spec a Ha) as (T1 & T2 & T3).
  pose proof (from_raw_bytes_spec _ T2) as F.
  destruct Ha as (A1 & A2 & A3).
  destruct (from_raw_bytes c (to_raw_bytes a)) as [b|]; [|destruct F; [contradiction|lia]].
  f_equal. destruct F as (_ & _ & (B1 & B2 & B3) & E).
  apply eval_inj; auto; [congruence|].
  unfold to_raw_bytes in E. rewrite <- (flat_le_int a), <- (flat_le_int b) by auto. now rewrite E.
Qed.

Lemma read_words_spec : forall k r, is_bytes r ->
  match read_words k r with
  | Some (ws, rest) => (8 * k <= length r)%nat /\ rest = skipn (8 * k) r /\
      length ws = k /\ words ws /\ flat_map (le_bytes 8) ws = firstn (8 * k) r
  | None => (length r < 8 * k)%nat
  end.
Proof.
  induction k as [|k IH]; intros r Hr; cbn [read_words].
  - rewrite Nat.mul_0_r, skipn_O, firstn_O. repeat split; auto; try lia. constructor.
  - destruct (Nat.ltb_spec (length r) 8) as [L|L]; [lia|].
    specialize (IH (skipn 8 r) (is_bytes_skipn 8 r Hr)).
    rewrite skipn_length in IH.
    destruct (read_words k (skipn 8 r)) as [[ws rest]|]; [|lia].
    destruct IH as (I1 & I2 & I3 & I4 & I5).
    assert (H8 : length (firstn 8 r) = 8%nat) by (rewrite firstn_length_le; lia).
    pose proof (le_int_bound _ (is_bytes_firstn 8 r Hr)) as Hb. rewrite H8, <- W_256 in Hb.
    replace (8 * S k)%nat with (8 + 8 * k)%nat by lia.
    repeat split.
    + lia.
    + rewrite I2, skipn_skipn_add. reflexivity.
    + cbn. lia.
    + apply words_cons. rewrite from_le_bytes_le_int. auto.
    + cbn [flat_map]. rewrite I5. rewrite from_le_bytes_le_int.
      transitivity (firstn 8 r ++ firstn (8 * k) (skipn 8 r)).
      * f_equal. apply le_int_inj.
        -- rewrite le_bytes_length. auto.
        -- apply le_bytes_bytes.
        -- now apply is_bytes_firstn.
        -- apply le_bytes_int. rewrite <- W_256. auto.
      * rewrite <- (firstn_skipn 8 r) at 3. rewrite firstn_app, H8.
        rewrite (firstn_all2 (n := 8 + 8 * k)) by lia.
        do 2 f_equal. lia.
Qed.

Lemma read_raw_spec : forall r, is_bytes r ->
  match read_raw c r with
  | Some (a, rest) => (size c <= length r)%nat /\ le_int (firstn (size c) r) < p /\
      canon a /\ r = to_raw_bytes a ++ rest
  | None => (length r < size c)%nat \/ p <= le_int (firstn (size c) r)
  end.
Proof.
  intros r Hr. unfold read_raw. pose proof (read_words_spec n r Hr) as F.
  destruct (read_words n r) as [[ws rest]|]; [|left; exact F].
  destruct F as (F1 & F2 & F3 & F4 & F5).
  rewrite is_less_than_modulus_spec by auto.
  assert (E : le_int (firstn (size c) r) = eval ws).
  { unfold size. rewrite <- F5. now apply flat_le_int. }
  rewrite E. destruct (Z.ltb_spec (eval ws) p); [|right; lia].
  repeat split; auto. unfold to_raw_bytes. rewrite F5, F2. symmetry. apply firstn_skipn.
Qed.

Lemma read_to_raw_bytes : forall a rest, canon a -> is_bytes rest ->
  read_raw c (to_raw_bytes a ++ rest) = Some (a, rest).
Proof.
  intros a rest Ha Hrest. destruct (to_raw_bytes_spec a Ha) as (T1 & T2 & T3).
  assert (HB : is_bytes (to_raw_bytes a ++ rest)) by (apply is_bytes_app; auto).
  pose proof (read_raw_spec _ HB) as F.
  assert (Efn : firstn (size c) (to_raw_bytes a ++ rest) = to_raw_bytes a).
  { rewrite firstn_app, T1, Nat.sub_diag, firstn_O, app_nil_r. apply firstn_all2. lia. }
  destruct (read_raw c (to_raw_bytes a ++ rest)) as [[b r]|].
  - destruct F as (F1 & F2 & F3 & F4).
    destruct (to_raw_bytes_spec b F3) as (U1 & U2 & U3).
    assert (to_raw_bytes a = to_raw_bytes b /\ rest = r) as [E1 E2].
    { split.
      - rewrite <- Efn, F4, firstn_app, U1, Nat.sub_diag, firstn_O, app_nil_r. apply firstn_all2. lia.
      - apply (f_equal (skipn (size c))) in F4.
        rewrite !skipn_app, T1, U1, Nat.sub_diag, !skipn_O in F4.
        rewrite (skipn_all2 (to_raw_bytes a)), (skipn_all2 (to_raw_bytes b)) in F4 by lia. exact F4. }
    subst r. do 2 f_equal. symmetry.
    apply (canon_inj c); auto. congruence.
  - rewrite Efn, app_length, T1, T3 in F. destruct Ha as (_ & _ & A3). lia.
Qed.
End Facts.
