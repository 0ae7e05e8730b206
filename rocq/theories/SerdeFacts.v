(** Facts about the encodings: laws of a base-field codec, the two instances,
    and the point encodings over any codec satisfying the laws. *)
From Verif Require Import Base Word Limbs Bytes Field SpecField LimbsFacts FieldFacts BytesFacts FieldSerdeFacts
  Algebra Pow Tower TowerFacts FiniteField PrimeField SpecCurve SpecCurveFacts Curve CurveFacts Inverse LimbField Sqrt SqrtFacts Sqrt2 Serde.

Record codec_laws {F : Type} (o : fops F) (k : codec F) : Prop := {
  kl_size : (0 < k_size k)%nat;
  kl_to : forall x, length (k_to_bytes k x) = k_size k /\ is_bytes (k_to_bytes k x);
  kl_from_to : forall x, k_from_bytes k (k_to_bytes k x) = SqRet (Some x);
  kl_from : forall l, is_bytes l -> length l = k_size k ->
    match k_from_bytes k l with
    | SqRet (Some x) => k_to_bytes k x = l
    | SqDiverge => False
    | _ => forall x, k_to_bytes k x <> l
    end;
  kl_sqrt : forall a, a <> f0 o -> exists r, k_sqrt k a = SqRet r /\
    match r with Some s => fmul o s s = a | None => ~ is_square o a end;
  kl_to_raw : forall x, length (k_to_raw k x) = k_size k /\ is_bytes (k_to_raw k x);
  kl_raw_from_to : forall x, k_from_raw k (k_to_raw k x) = Some x;
  kl_from_raw : forall l, is_bytes l ->
    match k_from_raw k l with Some x => k_to_raw k x = l | None => forall x, k_to_raw k x <> l end;
  kl_read_to : forall x rest, is_bytes rest -> k_read_raw k (k_to_raw k x ++ rest) = Some (x, rest);
  kl_read : forall r, is_bytes r ->
    match k_read_raw k r with
    | Some (x, rest) => r = k_to_raw k x ++ rest
    | None => forall x rest, r <> k_to_raw k x ++ rest
    end }.
(** [from_bytes] returns on every string of the right length. *)
Definition codec_total {F} (k : codec F) : Prop :=
  forall l, is_bytes l -> length l = k_size k -> exists r, k_from_bytes k l = SqRet r.
(** The byte that carries the flags has [s] clear bits at the top. *)
Definition codec_spare {F} (k : codec F) (s : Z) : Prop :=
  forall x, nth (if k_big k then 0 else k_size k - 1) (k_to_bytes k x) 0 < 2 ^ (8 - s).

Lemma nth0_skipn {A} (d : A) : forall m l, nth 0 (skipn m l) d = nth m l d.
Proof. induction m as [|m IH]; intros [|x l]; try reflexivity. apply IH. Qed.
Lemma top_byte l m : is_bytes l -> length l = S m -> forall s, 0 <= s <= 8 ->
  le_int l < 2 ^ (8 * Z.of_nat (S m) - s) -> nth m l 0 < 2 ^ (8 - s).
Proof.
  intros Hl HL s Hs' Hb. assert (E : l = firstn m l ++ [nth m l 0]).
  { rewrite <- (firstn_skipn m l) at 1. f_equal.
    assert (L1 : length (skipn m l) = 1%nat) by (rewrite skipn_length; lia).
    replace (nth m l 0) with (nth 0 (skipn m l) 0) by apply nth0_skipn.
    destruct (skipn m l) as [|y [|z t]]; try discriminate. reflexivity. }
  rewrite E, le_int_app in Hb. cbn [le_int] in Hb.
  assert (Lf : length (firstn m l) = m) by (rewrite firstn_length; lia). rewrite Lf in Hb.
  pose proof (le_int_bound _ (is_bytes_firstn m l Hl)) as [B0 _].
  change 256 with (2 ^ 8) in Hb. rewrite <- Z.pow_mul_r in Hb by lia.
  replace (8 * Z.of_nat (S m) - s) with (8 * Z.of_nat m + (8 - s)) in Hb by lia.
  rewrite Z.pow_add_r in Hb by lia.
  assert (0 < 2 ^ (8 * Z.of_nat m)) by (apply Z.pow_pos_nonneg; lia). nia.
Qed.

(** ** The generated prime fields *)
Section Fp.
Variable c : fconf.
Hypothesis Hc : odd_conf c.
Notation p := (modulus c).
Notation n := (num_limbs c).
Let k := fp_codec c Hc.

Lemma lf_canon (x : lf c) : canonical n p (limbs x).
Proof. apply canonb_spec. exact (proj2_sig x). Qed.
Lemma lf_up l : canonical n p l -> limbs (lf_of (lf0 c Hc) l) = l.
Proof. intros H. apply lf_of_limbs. apply canonb_spec. exact H. Qed.
Lemma lf_up_limbs (x : lf c) : lf_of (lf0 c Hc) (limbs x) = x.
Proof. apply lf_ext. apply lf_up. apply lf_canon. Qed.

Theorem fp_codec_laws : (forall x, match fp_sqrt (lf_ops c Hc) (lf_inj c Hc) c x with
    | Some r => fmul (lf_ops c Hc) r r = x | None => ~ is_square (lf_ops c Hc) x end) ->
  codec_laws (lf_ops c Hc) k.
Proof.
  intros Hsqrt.
  constructor; unfold k, fp_codec; cbn [k_size k_to_bytes k_from_bytes k_sqrt k_to_raw k_from_raw k_read_raw].
  - unfold size. pose proof (num_limbs_pos c Hc). lia.
  - intros x. destruct (to_bytes_spec c Hc _ _ (lf_repr c Hc x)) as (A & B & _). auto.
  - intros x. rewrite (from_to_bytes c Hc _ (lf_canon x)). cbn [option_map]. rewrite lf_up_limbs. reflexivity.
  - intros l Hl HL. destruct (from_bytes c l) as [a|] eqn:E; cbn [option_map].
    + destruct (to_from_bytes c Hc l a Hl HL E) as [A B]. rewrite lf_up by exact A. exact B.
    + intros x Ex. rewrite <- Ex, (from_to_bytes c Hc _ (lf_canon x)) in E. discriminate.
  - intros a _. eexists. split; [reflexivity|]. exact (Hsqrt a).
  - intros x. destruct (to_raw_bytes_spec c _ (lf_canon x)) as (A & B & _). auto.
  - intros x. rewrite (from_to_raw_bytes c Hc _ (lf_canon x)). cbn [option_map]. rewrite lf_up_limbs. reflexivity.
  - intros l Hl. pose proof (from_raw_bytes_spec c Hc l Hl) as S.
    destruct (from_raw_bytes c l) as [a|] eqn:E; cbn [option_map].
    + destruct S as (_ & _ & A & B). rewrite lf_up by exact A. exact B.
    + intros x Ex. rewrite <- Ex, (from_to_raw_bytes c Hc _ (lf_canon x)) in E. discriminate.
  - intros x rest Hr. rewrite (read_to_raw_bytes c Hc _ rest (lf_canon x) Hr). cbn [option_map fst snd].
    rewrite lf_up_limbs. reflexivity.
  - intros r Hr. pose proof (read_raw_spec c Hc r Hr) as S.
    destruct (read_raw c r) as [[a rest]|] eqn:E; cbn [option_map fst snd].
    + destruct S as (_ & _ & A & B). rewrite lf_up by exact A. exact B.
    + intros x rest Ex. assert (Hr' : is_bytes rest) by (rewrite Ex in Hr; apply is_bytes_app in Hr; tauto).
      rewrite Ex, (read_to_raw_bytes c Hc _ rest (lf_canon x) Hr') in E. discriminate.
Qed.

Lemma fp_codec_total : codec_total k.
Proof. intros l _ _. eexists. reflexivity. Qed.

Lemma fp_codec_spare s : 0 <= s <= 8 -> p < 2 ^ (64 * Z.of_nat n - s) -> codec_spare k s.
Proof.
  intros H1 H2 x. unfold k, fp_codec. cbn [k_big k_size k_to_bytes].
  destruct (to_bytes_spec c Hc _ _ (lf_repr c Hc x)) as (A & B & C).
  pose proof (repr_bound c _ _ (lf_repr c Hc x)) as Hb. set (l := to_bytes c (limbs x)) in *.
  pose proof (num_limbs_pos c Hc) as Hn.
  destruct (size c) as [|m] eqn:Em; [unfold size in Em; lia|].
  assert (Esz : 8 * Z.of_nat (S m) = 64 * Z.of_nat n) by (rewrite <- Em; unfold size; lia).
  replace (S m - 1)%nat with m by lia.
  unfold bytes_int in C. destruct (big_endian c).
  - replace (nth 0 l 0) with (nth m (rev l) 0).
    + apply top_byte; auto; [apply is_bytes_rev; exact B|rewrite rev_length; exact A|].
      unfold be_int in C. rewrite C, Esz. lia.
    + rewrite rev_nth by lia. f_equal. lia.
  - apply top_byte; auto. rewrite C, Esz. lia.
Qed.

(** ** Signs *)
Hypothesis Hp : prime (modulus c).
Hypothesis Hs : sized c.
Lemma fp_parity (x : lf c) : Z.land (hd 0 (k_to_repr k x)) 1 =? 1 = Z.odd (lf_val c x).
Proof. exact (is_odd_spec c Hc _ _ (lf_repr c Hc x)). Qed.
Lemma fp_neg_val (x : lf c) : x <> f0 (lf_ops c Hc) -> lf_val c (fneg (lf_ops c Hc) x) = p - lf_val c x /\ 0 < lf_val c x < p.
Proof.
  intros Hx. pose proof (lf_zrep c Hc Hs Hp) as Z. pose proof (repr_bound c _ _ (lf_repr c Hc x)) as B.
  assert (N : lf_val c x <> 0).
  { intros E. apply Hx. rewrite <- (zr_inj_val _ _ _ _ Z x), E, <- (zr_inj_val _ _ _ _ Z (f0 (lf_ops c Hc))).
    rewrite (zr_0 _ _ _ _ Z). reflexivity. }
  split; [|lia]. rewrite (zr_neg _ _ _ _ Z).
  replace (- lf_val c x) with ((p - lf_val c x) + (-1) * p) by lia. rewrite Z_mod_plus_full. apply Z.mod_small. lia.
Qed.
Lemma fp_parity_neg (x : lf c) : x <> f0 (lf_ops c Hc) ->
  Z.odd (lf_val c (fneg (lf_ops c Hc) x)) = negb (Z.odd (lf_val c x)).
Proof.
  intros Hx. destruct (fp_neg_val x Hx) as [-> _]. rewrite Z.odd_sub, (proj2 Hc). destruct (Z.odd (lf_val c x)); reflexivity.
Qed.
Lemma fp_lex (x : lf c) : k_lex k x = ((p - 1) / 2 <=? lf_val c x).
Proof. exact (lexicographically_largest_spec c Hc _ _ (lf_repr c Hc x)). Qed.
Lemma fp_lex_neg (x : lf c) : x <> f0 (lf_ops c Hc) ->
  lf_val c x <> (p - 1) / 2 -> lf_val c x <> (p + 1) / 2 ->
  k_lex k (fneg (lf_ops c Hc) x) = negb (k_lex k x).
Proof.
  intros Hx N1 N2. rewrite !fp_lex. destruct (fp_neg_val x Hx) as [-> B].
  pose proof (proj2 Hc) as Ho. rewrite Zodd_mod in Ho. apply Zeq_bool_eq in Ho.
  pose proof (Z.div_mod p 2 ltac:(lia)) as D.
  assert (D1 : (p - 1) / 2 = p / 2) by (replace (p - 1) with (p / 2 * 2) by lia; apply Z.div_mul; lia).
  assert (D2 : (p + 1) / 2 = p / 2 + 1) by (replace (p + 1) with ((p / 2 + 1) * 2) by lia; apply Z.div_mul; lia).
  rewrite D1, D2 in *.
  destruct (Z.leb_spec (p / 2) (p - lf_val c x)); destruct (Z.leb_spec (p / 2) (lf_val c x)); cbn; auto; lia.
Qed.
End Fp.

(** ** [impl_tower2] *)
Section T2.
Context {F : Type} (o : fops F) (k : codec F) (HL : codec_laws o k).
Lemma t2_spare sqrt2 s : codec_spare k s -> codec_spare (t2_codec o k sqrt2) s.
Proof.
  intros Hsp x. unfold codec_spare in *. cbn [t2_codec k_big k_size k_to_bytes]. unfold t2_to_bytes.
  pose proof (proj1 (kl_to _ _ HL (q0 x))) as L0. pose proof (kl_size _ _ HL) as Z.
  destruct (k_big k) eqn:Eb.
  - rewrite app_nth1 by lia. exact (Hsp (q0 x)).
  - rewrite app_nth2 by lia. rewrite L0.
    replace (2 * k_size k - 1 - k_size k)%nat with (k_size k - 1)%nat by lia. exact (Hsp (q1 x)).
Qed.

Variables (o2 : fops (quad F)) (sqrt2 : quad F -> sq_out (quad F)).
Hypothesis Hsq2 : forall a, a <> f0 o2 -> exists r, sqrt2 a = SqRet r /\
  match r with Some s => fmul o2 s s = a | None => ~ is_square o2 a end.
Let n := k_size k.

Lemma cut (a b : list Z) : length a = n -> firstn n (a ++ b) = a /\ skipn n (a ++ b) = b.
Proof.
  intros E. rewrite firstn_app, skipn_app, E, Nat.sub_diag, firstn_O, skipn_O, app_nil_r.
  rewrite firstn_all2, skipn_all2 by lia. auto.
Qed.

Theorem t2_laws : codec_laws o2 (t2_codec o k sqrt2).
Proof.
  constructor; cbn [t2_codec k_size k_to_bytes k_from_bytes k_sqrt k_to_raw k_from_raw k_read_raw].
  - pose proof (kl_size _ _ HL). lia.
  - intros x. destruct (kl_to _ _ HL (q0 x)), (kl_to _ _ HL (q1 x)). unfold t2_to_bytes.
    rewrite app_length. split; [lia|]. apply is_bytes_app. auto.
  - intros x. unfold t2_from_bytes, t2_to_bytes. fold n.
    destruct (cut (k_to_bytes k (q0 x)) (k_to_bytes k (q1 x)) (proj1 (kl_to _ _ HL _))) as [-> ->].
    rewrite firstn_all2 by (rewrite (proj1 (kl_to _ _ HL _)); reflexivity).
    rewrite !(kl_from_to _ _ HL). cbn [unwrap_pair]. destruct x; reflexivity.
  - intros l Hl Hn. unfold t2_from_bytes. fold n. fold n in Hn.
    set (a := firstn n l). set (b := firstn n (skipn n l)).
    assert (La : length a = n) by (unfold a; rewrite firstn_length; lia).
    assert (Eb : b = skipn n l) by (unfold b; apply firstn_all2; rewrite skipn_length; lia).
    assert (Lb : length b = n) by (rewrite Eb, skipn_length; lia).
    assert (El : l = a ++ b) by (rewrite Eb; symmetry; apply firstn_skipn).
    pose proof (kl_from _ _ HL a ltac:(unfold a; apply is_bytes_firstn; exact Hl) La) as Fa.
    pose proof (kl_from _ _ HL b ltac:(rewrite Eb; apply is_bytes_skipn; exact Hl) Lb) as Fb.
    assert (Sp : forall x, t2_to_bytes k x = l -> k_to_bytes k (q0 x) = a /\ k_to_bytes k (q1 x) = b).
    { intros x Ex. rewrite El in Ex. unfold t2_to_bytes in Ex.
      destruct (cut (k_to_bytes k (q0 x)) (k_to_bytes k (q1 x)) (proj1 (kl_to _ _ HL _))) as [C1 C2].
      destruct (cut a b La) as [D1 D2]. rewrite Ex in C1, C2. split; congruence. }
    destruct (k_from_bytes k a) as [| |[xa|]], (k_from_bytes k b) as [| |[xb|]]; cbn [unwrap_pair]; auto;
      try (intros x Ex; destruct (Sp x Ex) as [S1 S2]; (exact (Fa _ S1) || exact (Fb _ S2))).
    unfold t2_to_bytes. cbn [q0 q1]. rewrite Fa, Fb. symmetry. exact El.
  - exact Hsq2.
  - intros x. destruct (kl_to_raw _ _ HL (q0 x)), (kl_to_raw _ _ HL (q1 x)). unfold t2_to_raw.
    rewrite app_length. split; [lia|]. apply is_bytes_app. auto.
  - intros x. unfold t2_from_raw, t2_to_raw. fold n.
    rewrite app_length, !(proj1 (kl_to_raw _ _ HL _)). fold n.
    replace (n + n =? 2 * n)%nat with true by (symmetry; apply Nat.eqb_eq; lia). cbn [negb].
    destruct (cut (k_to_raw k (q0 x)) (k_to_raw k (q1 x)) (proj1 (kl_to_raw _ _ HL _))) as [-> ->].
    rewrite firstn_all2 by (rewrite (proj1 (kl_to_raw _ _ HL _)); reflexivity).
    rewrite !(kl_raw_from_to _ _ HL). destruct x; reflexivity.
  - intros l Hl. unfold t2_from_raw. fold n.
    destruct (Nat.eqb_spec (length l) (2 * n)) as [Hn|Hn]; cbn [negb].
    2: { intros x Ex. apply Hn. rewrite <- Ex. unfold t2_to_raw. rewrite app_length, !(proj1 (kl_to_raw _ _ HL _)).
         fold n. lia. }
    set (a := firstn n l). set (b := firstn n (skipn n l)).
    assert (La : length a = n) by (unfold a; rewrite firstn_length; lia).
    assert (Eb : b = skipn n l) by (unfold b; apply firstn_all2; rewrite skipn_length; lia).
    assert (El : l = a ++ b) by (rewrite Eb; symmetry; apply firstn_skipn).
    pose proof (kl_from_raw _ _ HL a ltac:(unfold a; apply is_bytes_firstn; exact Hl)) as Fa.
    pose proof (kl_from_raw _ _ HL b ltac:(rewrite Eb; apply is_bytes_skipn; exact Hl)) as Fb.
    assert (Sp : forall x, t2_to_raw k x = l -> k_to_raw k (q0 x) = a /\ k_to_raw k (q1 x) = b).
    { intros x Ex. rewrite El in Ex. unfold t2_to_raw in Ex.
      destruct (cut (k_to_raw k (q0 x)) (k_to_raw k (q1 x)) (proj1 (kl_to_raw _ _ HL _))) as [C1 C2].
      destruct (cut a b La) as [D1 D2]. rewrite Ex in C1, C2. split; congruence. }
    destruct (k_from_raw k a) as [xa|], (k_from_raw k b) as [xb|];
      try (intros x Ex; destruct (Sp x Ex) as [S1 S2]; (exact (Fa _ S1) || exact (Fb _ S2))).
    unfold t2_to_raw. cbn [q0 q1]. rewrite Fa, Fb. symmetry. exact El.
  - intros x rest Hr. unfold t2_read_raw, t2_to_raw. rewrite <- app_assoc.
    rewrite (kl_read_to _ _ HL) by (apply is_bytes_app; split; [apply (kl_to_raw _ _ HL)|exact Hr]).
    rewrite (kl_read_to _ _ HL) by exact Hr. destruct x; reflexivity.
  - intros r Hr. unfold t2_read_raw. pose proof (kl_read _ _ HL r Hr) as R1.
    destruct (k_read_raw k r) as [[a r']|].
    + assert (Hr' : is_bytes r') by (rewrite R1 in Hr; apply is_bytes_app in Hr; tauto).
      pose proof (kl_read _ _ HL r' Hr') as R2. destruct (k_read_raw k r') as [[b r'']|].
      * unfold t2_to_raw. cbn [q0 q1]. rewrite R1, R2, app_assoc. reflexivity.
      * intros x rest Ex. rewrite R1 in Ex. unfold t2_to_raw in Ex. rewrite <- app_assoc in Ex.
        destruct (cut (k_to_raw k a) r' (proj1 (kl_to_raw _ _ HL _))) as [_ C].
        destruct (cut (k_to_raw k (q0 x)) (k_to_raw k (q1 x) ++ rest) (proj1 (kl_to_raw _ _ HL _))) as [_ D].
        apply (R2 (q1 x) rest). congruence.
    + intros x rest Ex. apply (R1 (q0 x) (k_to_raw k (q1 x) ++ rest)). rewrite Ex. unfold t2_to_raw. symmetry. apply app_assoc.
Qed.

End T2.

(** ** One flag byte *)
Definition enc_flags (cf : flag_conf) (id sg : bool) (b : Z) : Z :=
  let b := flag_set (pos_sign cf) sg (flag_set (pos_identity cf) id b) in
  match pos_compressed cf with Some pos => flag_set pos true b | None => b end.
Definition dec_flags (cf : flag_conf) (b : Z) : bool * bool * bool * Z :=
  let '(v, b) := match pos_compressed cf with Some pos => flag_get pos b | None => (true, b) end in
  let '(id, b) := flag_get (pos_identity cf) b in
  let '(sg, b) := flag_get (pos_sign cf) b in (v, id, sg, b).
Definition flag_bound (cf : flag_conf) : Z := match cf with Extra => 1 | TwoSpare => 64 | ThreeSpare => 32 end.
Definition spare_of (cf : flag_conf) : Z := match cf with Extra => 0 | TwoSpare => 2 | ThreeSpare => 3 end.

Definition bytes256 : list Z := map Z.of_nat (seq 0 256).
Lemma in_bytes256 b : 0 <= b < 256 -> In b bytes256.
Proof. intros H. apply in_map_iff. exists (Z.to_nat b). split; [lia|]. apply in_seq. lia. Qed.

Definition dec_enc_chk (cf : flag_conf) (b : Z) : bool :=
  negb (b <? flag_bound cf) ||
  forallb (fun id => forallb (fun sg =>
    let e := enc_flags cf id sg b in
    let '(v, id', sg', b') := dec_flags cf e in
    (0 <=? e) && (e <? 256) && v && Bool.eqb id' id && Bool.eqb sg' sg && (b' =? b)) [true; false]) [true; false].
Definition enc_dec_chk (cf : flag_conf) (e : Z) : bool :=
  let '(v, id, sg, b) := dec_flags cf e in
  (0 <=? b) && (b <? 256) && (negb v || (enc_flags cf id sg b =? e))
  && match cf with Extra => true | _ => b <? flag_bound cf end.

Lemma flags_chk : forallb (fun cf => forallb (fun b => dec_enc_chk cf b && enc_dec_chk cf b) bytes256) [Extra; TwoSpare; ThreeSpare] = true.
Proof. vm_compute. reflexivity. Qed.
Lemma flags_chk_at cf b : 0 <= b < 256 -> dec_enc_chk cf b = true /\ enc_dec_chk cf b = true.
Proof.
  intros Hb. apply andb_true_iff. pose proof (proj1 (forallb_forall _ _) flags_chk cf) as A.
  assert (I : In cf [Extra; TwoSpare; ThreeSpare]) by (destruct cf; cbn; auto).
  specialize (A I). cbv beta in A. exact (proj1 (forallb_forall _ _) A b (in_bytes256 b Hb)).
Qed.

Lemma dec_enc_flags cf id sg b : 0 <= b < flag_bound cf ->
  dec_flags cf (enc_flags cf id sg b) = (true, id, sg, b) /\ 0 <= enc_flags cf id sg b < 256.
Proof.
  intros Hb. assert (H : 0 <= b < 256) by (destruct cf; cbn in Hb; lia).
  destruct (flags_chk_at cf b H) as [E _]. unfold dec_enc_chk in E.
  replace (b <? flag_bound cf) with true in E by (symmetry; apply Z.ltb_lt; lia).
  cbn [negb orb] in E.
  assert (Ib : forall x : bool, In x [true; false]) by (intros []; cbn; auto).
  pose proof (proj1 (forallb_forall _ _) (proj1 (forallb_forall _ _) E id (Ib id)) sg (Ib sg)) as E'. cbv beta zeta in E'.
  destruct (dec_flags cf (enc_flags cf id sg b)) as [[[v id'] sg'] b'].
  rewrite !andb_true_iff in E'. destruct E' as (((((A & B) & C) & D) & G) & I).
  apply Z.leb_le in A. apply Z.ltb_lt in B. apply Bool.eqb_prop in D, G. apply Z.eqb_eq in I. subst. auto.
Qed.
Lemma enc_dec_flags cf e v id sg b : 0 <= e < 256 -> dec_flags cf e = (v, id, sg, b) ->
  0 <= b < 256 /\ (v = true -> enc_flags cf id sg b = e) /\ (cf <> Extra -> b < flag_bound cf).
Proof.
  intros He E. destruct (flags_chk_at cf e He) as [_ X]. unfold enc_dec_chk in X. rewrite E in X.
  rewrite !andb_true_iff in X. destruct X as (((A & B) & C) & D).
  apply Z.leb_le in A. apply Z.ltb_lt in B. split; [lia|]. split.
  - intros ->. cbn [negb orb] in C. apply Z.eqb_eq. exact C.
  - intros N. destruct cf; try contradiction; apply Z.ltb_lt; exact D.
Qed.

(** ** [upd_at] *)
Lemma upd_at_length i f l : (i < length l)%nat -> length (upd_at i f l) = length l.
Proof. intros H. unfold upd_at. rewrite app_length. cbn [length]. rewrite firstn_length, skipn_length. lia. Qed.
Lemma upd_at_nth i f l : (i < length l)%nat -> nth i (upd_at i f l) 0 = f (nth i l 0).
Proof.
  intros H. unfold upd_at. rewrite app_nth2 by (rewrite firstn_length; lia).
  rewrite firstn_length, Nat.min_l by lia. rewrite Nat.sub_diag. reflexivity.
Qed.
Lemma upd_at_comp i f g l : (i < length l)%nat -> upd_at i f (upd_at i g l) = upd_at i (fun b => f (g b)) l.
Proof.
  intros H. unfold upd_at at 1. rewrite upd_at_nth by exact H.
  unfold upd_at. f_equal; [|f_equal].
  - rewrite firstn_app, firstn_firstn, firstn_length, Nat.min_id, (Nat.min_l i) by lia.
    rewrite Nat.sub_diag. cbn [firstn]. apply app_nil_r.
  - rewrite skipn_app, firstn_length, (Nat.min_l i) by lia.
    rewrite skipn_all2 by (rewrite firstn_length; lia).
    replace (Datatypes.S i - i)%nat with 1%nat by lia. reflexivity.
Qed.
Lemma upd_at_ext i f g l : f (nth i l 0) = g (nth i l 0) -> upd_at i f l = upd_at i g l.
Proof. intros E. unfold upd_at. rewrite E. reflexivity. Qed.
Lemma upd_at_id i l : (i < length l)%nat -> upd_at i (fun _ => nth i l 0) l = l.
Proof.
  intros H. unfold upd_at. rewrite <- (firstn_skipn i l) at 4. f_equal.
  revert l H. induction i as [|i IH]; intros [|x l] H; cbn in *; try lia; [reflexivity|]. apply IH. lia.
Qed.
Lemma upd_at_bytes i f l : is_bytes l -> 0 <= f (nth i l 0) < 256 -> is_bytes (upd_at i f l).
Proof.
  intros Hl Hf. unfold upd_at. apply is_bytes_app. split; [apply is_bytes_firstn; exact Hl|].
  constructor; [exact Hf|]. apply is_bytes_skipn. exact Hl.
Qed.
Lemma nth_byte i l : is_bytes l -> 0 <= nth i l 0 < 256.
Proof.
  intros Hl. destruct (nth_in_or_default i l 0) as [I | ->]; [|lia].
  exact (proj1 (Forall_forall _ _) Hl _ I).
Qed.

(** ** Compressed points *)
Section Point.
Context {F : Type} (o : fops F) (c : cconf F) (k : codec F) (cf : flag_conf) (lex : bool).
Hypothesis HC : curve_laws o c.
Hypothesis HK : codec_laws o k.
Hypothesis Hsp : codec_spare k (spare_of cf).
Let H := cl_field _ _ HC.
Let HR := fl_rl _ H.
Add Field FS : (field_thy o H).
Notation "0" := (f0 o). Notation "1" := (f1 o).
Infix "+" := (fadd o). Infix "*" := (fmul o).
Notation "- x" := (fneg o x).
Notation a := (ca c). Notation b := (cb c).
Notation ysign := (y_sign k lex).
Notation idx := (flag_index k cf).

Lemma is0_iff x : fis0 o x = true <-> x = 0.
Proof. pose proof (cl_is0 _ _ HC x) as Z. exact Z. Qed.
Lemma is0_0 : fis0 o 0 = true. Proof. apply is0_iff. reflexivity. Qed.
Lemma is0_n x : x <> 0 -> fis0 o x = false.
Proof. intros N. destruct (fis0 o x) eqn:E; [|reflexivity]. apply is0_iff in E. contradiction. Qed.

Lemma y2_eq x : curve_y2 o c x = x * x * x + a * x + b.
Proof.
  unfold curve_y2, a_is_zero. cbv zeta. rewrite (rl_sqr _ HR).
  destruct (feqb o a 0) eqn:E; [|ring]. apply (fl_eqb _ H) in E. rewrite E. ring.
Qed.
Lemma y2_nz x : curve_y2 o c x <> 0.
Proof. rewrite y2_eq. apply (cl_no2 _ _ HC). Qed.
Lemma y2_on x y : y * y = curve_y2 o c x <-> on_curve o a b (Some (x, y)).
Proof. rewrite y2_eq. cbn [on_curve]. reflexivity. Qed.

Lemma sq_eq_cases x y : x * x = y * y -> x = y \/ x = - y.
Proof.
  intros E. assert (D : (x + - y) * (x + y) = 0) by (transitivity (x * x + - (y * y)); [ring|rewrite E; ring]).
  apply (mul_integral o H) in D. destruct D as [D|D]; [left|right].
  - transitivity (x + - y + y); [ring|]. rewrite D. ring.
  - transitivity (x + y + - y); [ring|]. rewrite D. ring.
Qed.

(** the byte string before the flags *)
Definition cz_base (x : F) : list Z := match cf with Extra => Z0 :: k_to_bytes k x | _ => k_to_bytes k x end.

Lemma idx_lt : (idx < csize k cf)%nat.
Proof. unfold flag_index, csize. pose proof (kl_size _ _ HK). destruct cf, (k_big k); lia. Qed.
Lemma cz_base_len x : length (cz_base x) = csize k cf.
Proof. unfold cz_base, csize. pose proof (proj1 (kl_to _ _ HK x)). destruct cf; cbn [length]; lia. Qed.
Lemma cz_base_bytes x : is_bytes (cz_base x).
Proof. unfold cz_base. pose proof (proj2 (kl_to _ _ HK x)). destruct cf; auto. constructor; [lia|assumption]. Qed.
Lemma cz_base_flag x : Z.le 0 (nth idx (cz_base x) Z0) /\ Z.lt (nth idx (cz_base x) Z0) (flag_bound cf).
Proof.
  split; [apply nth_byte; apply cz_base_bytes|]. unfold cz_base, flag_index, flag_bound, csize.
  pose proof (Hsp x) as S. destruct cf; cbn [spare_of] in S; [cbn; lia| |];
  rewrite Nat.add_0_r; exact S.
Qed.

Lemma cz_encode_eq P : aff_is_on_curve o c P = true ->
  cz_encode o c k cf lex P
  = Some (upd_at idx (enc_flags cf (aff_is_identity o P) (cz_sign o k lex P)) (cz_base (ax P))).
Proof.
  intros E. unfold cz_encode, from_xy.
  replace (mk_aff (ax P) (ay P)) with P by (destruct P; reflexivity). rewrite E. cbv zeta.
  fold (cz_base (ax P)).
  pose proof (cz_base_len (ax P)) as L. pose proof idx_lt as I.
  unfold enc_flags. destruct (pos_compressed cf) as [pos|].
  - rewrite !upd_at_comp by (rewrite ?upd_at_length; lia). reflexivity.
  - rewrite !upd_at_comp by lia. reflexivity.
Qed.

Lemma cz_encode_off P : aff_is_on_curve o c P = false -> cz_encode o c k cf lex P = None.
Proof.
  intros E. unfold cz_encode, from_xy.
  replace (mk_aff (ax P) (ay P)) with P by (destruct P; reflexivity). rewrite E. reflexivity.
Qed.

Definition cz_payload (l : list Z) : sq_out F :=
  match cf with Extra => k_from_bytes k (skipn 1 l) | _ => k_from_bytes k l end.
Definition cz_finish (v0 v1 id sg : bool) (x : F) : sq_out (aff F) :=
  let z := fis0 o x in
  let v2 := xorb (id && z && negb sg) (negb id && negb z) in
  let v := v0 && v1 && v2 in
  ct_or_else (ct_new (aff_identity o) (v && id))
    (ct_and_then (aff_identity o) (cz_resolve o c k lex x sg) (fun c => ct_new c v)).

Lemma cz_decode_eq l v id sg e : length l = csize k cf -> dec_flags cf (nth idx l Z0) = (v, id, sg, e) ->
  cz_decode o c k cf lex l
  = ct_and_then 0 (cz_payload (upd_at idx (fun _ => e) l))
      (cz_finish v (match cf with Extra => Z.eqb e Z0 | _ => true end) id sg).
Proof.
  intros Hn E. pose proof idx_lt as I. rewrite <- Hn in I.
  unfold dec_flags in E. unfold cz_decode, cz_get.
  destruct (pos_compressed cf) as [pos|] eqn:Ep.
  - destruct (flag_get pos (nth idx l Z0)) as [v' b0] eqn:E0.
    destruct (flag_get (pos_identity cf) b0) as [id' b1] eqn:E1.
    destruct (flag_get (pos_sign cf) b1) as [sg' b2] eqn:E2.
    injection E as <- <- <- <-.
    rewrite !upd_at_comp, !upd_at_nth by (rewrite ?upd_at_length; lia).
    rewrite ?E0. cbn [fst snd]. rewrite ?E0. cbn [fst snd]. rewrite ?E1. cbn [fst snd]. rewrite ?E2. cbn [fst snd].
    rewrite (upd_at_ext idx _ (fun _ => b2)) by (rewrite E0; cbn [snd]; rewrite E1; cbn [snd]; rewrite E2; reflexivity).
    unfold cz_payload, cz_finish. destruct cf; reflexivity.
  - destruct (flag_get (pos_identity cf) (nth idx l Z0)) as [id' b1] eqn:E1.
    destruct (flag_get (pos_sign cf) b1) as [sg' b2] eqn:E2.
    injection E as <- <- <- <-.
    rewrite !upd_at_comp, !upd_at_nth by (rewrite ?upd_at_length; lia).
    rewrite ?E1. cbn [fst snd]. rewrite ?E1. cbn [fst snd]. rewrite ?E2. cbn [fst snd].
    rewrite (upd_at_ext idx _ (fun _ => b2)) by (rewrite E1; cbn [snd]; rewrite E2; reflexivity).
    unfold cz_payload, cz_finish. destruct cf; reflexivity.
Qed.

Lemma cz_payload_base x : cz_payload (cz_base x) = SqRet (Some x).
Proof. unfold cz_payload, cz_base. destruct cf; cbn [skipn]; apply (kl_from_to _ _ HK). Qed.

(** What [resolve] gives *)
Lemma cz_resolve_cases x sg :
  (exists y, cz_resolve o c k lex x sg = SqRet (Some (mk_aff x y)) /\ on_curve o a b (Some (x, y))
     /\ (ysign (- y) = negb (ysign y) -> ysign y = sg))
  \/ (cz_resolve o c k lex x sg = SqRet None /\ forall y, ~ on_curve o a b (Some (x, y))).
Proof.
  unfold cz_resolve. destruct (kl_sqrt _ _ HK _ (y2_nz x)) as ([s|] & E & S); rewrite E; cbn [ct_map option_map].
  - left. eexists. split; [reflexivity|]. unfold select.
    destruct (xorb sg (ysign s)) eqn:X.
    + split; [apply y2_on; rewrite <- S; ring|].
      replace (- - s) with s by ring. intros N. rewrite N in X. destruct sg, (ysign (- s)); cbn in *; congruence.
    + split; [apply y2_on; exact S|]. intros _. destruct sg, (ysign s); cbn in *; congruence.
  - right. split; [reflexivity|]. intros y Hy. apply S. exists y. apply y2_on. exact Hy.
Qed.
Lemma cz_resolve_point x y : on_curve o a b (Some (x, y)) -> ysign (- y) = negb (ysign y) ->
  cz_resolve o c k lex x (ysign y) = SqRet (Some (mk_aff x y)).
Proof.
  intros Hy N. destruct (cz_resolve_cases x (ysign y)) as [(y' & -> & Hy' & S)|[_ X]]; [|exfalso; exact (X _ Hy)].
  do 3 f_equal. apply y2_on in Hy, Hy'. rewrite <- Hy in Hy'. apply sq_eq_cases in Hy'.
  destruct Hy' as [-> | ->]; [reflexivity|].
  assert (E : ysign (- - y) = negb (ysign (- y))).
  { replace (- - y) with y by ring. rewrite N, Bool.negb_involutive. reflexivity. }
  specialize (S E). rewrite N in S. destruct (ysign y); discriminate.
Qed.

Lemma arep_on A P : arep o c A P -> aff_is_on_curve o c A = true.
Proof. intros HA. apply (aff_on_curve_iff o c HC). eauto. Qed.

(** Round trip, for points on which the sign distinguishes y from -y *)
Theorem cz_roundtrip A P : arep o c A P ->
  match P with None => True | Some (x, y) => x <> 0 /\ ysign (- y) = negb (ysign y) end ->
  exists l, cz_encode o c k cf lex A = Some l /\ length l = csize k cf /\ is_bytes l
    /\ cz_decode o c k cf lex l = SqRet (Some A).
Proof.
  intros HA HP. rewrite (cz_encode_eq A (arep_on A P HA)). eexists. split; [reflexivity|].
  pose proof idx_lt as I. pose proof (cz_base_len (ax A)) as L. pose proof (cz_base_flag (ax A)) as Fl.
  destruct (dec_enc_flags cf (aff_is_identity o A) (cz_sign o k lex A) _ Fl) as [D B].
  assert (Lu : length (upd_at idx (enc_flags cf (aff_is_identity o A) (cz_sign o k lex A)) (cz_base (ax A))) = csize k cf).
  { rewrite upd_at_length by lia. exact L. }
  split; [exact Lu|]. split; [apply upd_at_bytes; [apply cz_base_bytes|exact B]|].
  rewrite (cz_decode_eq _ true (aff_is_identity o A) (cz_sign o k lex A) (nth idx (cz_base (ax A)) Z0) Lu)
    by (rewrite upd_at_nth by lia; exact D).
  rewrite upd_at_comp by lia. rewrite upd_at_id by lia.
  rewrite cz_payload_base. cbn [ct_and_then].
  assert (V1 : match cf with Extra => Z.eqb (nth idx (cz_base (ax A)) Z0) Z0 | _ => true end = true).
  { revert Fl. unfold flag_bound. destruct cf eqn:Ecf; intros Fl; try reflexivity. apply Z.eqb_eq. lia. }
  rewrite V1. unfold cz_finish. cbv zeta. cbn [andb].
  destruct HA as (On & HA). destruct P as [[x y]|].
  - destruct HA as [Ex Ey]. rewrite Ex. destruct HP as [Nx Ns].
    assert (Id : aff_is_identity o A = false) by (unfold aff_is_identity; rewrite Ex, is0_n by exact Nx; reflexivity).
    rewrite Id, (is0_n x Nx). unfold cz_sign. rewrite Id, Ey. cbn [andb negb xorb].
    rewrite Bool.andb_true_r. unfold ct_new at 1. cbn [ct_or_else].
    rewrite (cz_resolve_point x y On Ns). cbn [ct_and_then]. unfold ct_new.
    destruct A as [xa ya]; cbn [ax ay] in *; subst; reflexivity.
  - destruct HA as [Ex Ey].
    assert (Id : aff_is_identity o A = true) by (unfold aff_is_identity; rewrite Ex, Ey, is0_0; reflexivity).
    rewrite Ex, Id, is0_0. unfold cz_sign. rewrite Id. cbn [negb andb xorb].
    rewrite Bool.andb_false_r. cbn [negb andb xorb]. unfold ct_new at 1. cbn [ct_or_else].
    destruct (cz_resolve_cases 0 false) as [(y' & -> & _)|[-> _]]; cbn [ct_and_then]; unfold ct_new;
      destruct A as [xa ya]; cbn [ax ay] in *; subst; reflexivity.
Qed.

Theorem cz_roundtrip_proj p P : prep o c p P ->
  match P with None => True | Some (x, y) => x <> 0 /\ ysign (- y) = negb (ysign y) end ->
  exists l q, proj_to_bytes o c k cf lex p = Some l /\ length l = csize k cf /\ is_bytes l
    /\ proj_from_bytes o c k cf lex l = SqRet (Some q) /\ prep o c q P /\ proj_eq o p q = true.
Proof.
  intros Hp HP. pose proof (to_affine_repr o c HC _ _ Hp) as HA.
  destruct (cz_roundtrip _ _ HA HP) as (l & E1 & E2 & E3 & E4).
  pose proof (to_curve_repr o c HC _ _ HA) as Hq.
  exists l, (to_curve o (to_affine o p)). unfold proj_to_bytes, proj_from_bytes. rewrite E4. cbn [ct_map option_map].
  do 4 (split; [auto|]). split; [exact Hq|]. apply (proj_eq_repr o c HC p _ P P Hp Hq). reflexivity.
Qed.

(** Points with x = 0 are encoded to strings that are rejected. *)
Theorem cz_x0_rejected y : on_curve o a b (Some (0, y)) ->
  exists l, cz_encode o c k cf lex (mk_aff 0 y) = Some l /\ length l = csize k cf /\ is_bytes l
    /\ cz_decode o c k cf lex l = SqRet None.
Proof.
  intros On. assert (HA : arep o c (mk_aff 0 y) (Some (0, y))) by (split; [exact On|cbn; auto]).
  rewrite (cz_encode_eq _ (arep_on _ _ HA)). eexists. split; [reflexivity|]. cbn [ax].
  pose proof idx_lt as I. pose proof (cz_base_len 0) as L. pose proof (cz_base_flag 0) as Fl.
  set (A := mk_aff 0 y) in *.
  destruct (dec_enc_flags cf (aff_is_identity o A) (cz_sign o k lex A) _ Fl) as [D B].
  assert (Lu : length (upd_at idx (enc_flags cf (aff_is_identity o A) (cz_sign o k lex A)) (cz_base 0)) = csize k cf).
  { rewrite upd_at_length by lia. exact L. }
  split; [exact Lu|]. split; [apply upd_at_bytes; [apply cz_base_bytes|exact B]|].
  rewrite (cz_decode_eq _ true (aff_is_identity o A) (cz_sign o k lex A) (nth idx (cz_base 0) Z0) Lu)
    by (rewrite upd_at_nth by lia; exact D).
  rewrite upd_at_comp by lia. rewrite upd_at_id by lia.
  rewrite cz_payload_base. cbn [ct_and_then].
  assert (Id : aff_is_identity o A = false).
  { unfold aff_is_identity, A. cbn [ax ay]. rewrite (is0_n y) by exact (no_y0 o c HC _ _ On). apply Bool.andb_false_r. }
  unfold cz_finish. rewrite Id, is0_0. cbn [andb negb xorb]. rewrite !Bool.andb_false_r. cbn [andb].
  unfold ct_new at 1. cbn [ct_or_else].
  match goal with |- context[cz_resolve _ _ _ _ _ ?s] =>
    destruct (cz_resolve_cases 0 s) as [(y' & -> & _)|[-> _]] end; cbn [ct_and_then]; unfold ct_new; reflexivity.
Qed.

(** Two points with the same x and the same sign are encoded alike. *)
Theorem cz_collision x y : x <> 0 -> on_curve o a b (Some (x, y)) -> ysign (- y) = ysign y ->
  cz_encode o c k cf lex (mk_aff x y) = cz_encode o c k cf lex (mk_aff x (- y)) /\ y <> - y.
Proof.
  intros Nx On E.
  assert (On' : on_curve o a b (Some (x, - y))) by (exact (neg_on o a b H _ On)).
  assert (HA : arep o c (mk_aff x y) (Some (x, y))) by (split; [exact On|cbn; auto]).
  assert (HA' : arep o c (mk_aff x (- y)) (Some (x, - y))) by (split; [exact On'|cbn; auto]).
  split.
  - rewrite (cz_encode_eq _ (arep_on _ _ HA)), (cz_encode_eq _ (arep_on _ _ HA')).
    unfold cz_sign, aff_is_identity. cbn [ax ay]. rewrite (is0_n x Nx), E. reflexivity.
  - intros X. apply (dbl_nz o H (cl_two _ _ HC) y (no_y0 o c HC _ _ On)). rewrite X at 1. ring.
Qed.

(** With the sign bit flipped, the encoding of such a point is accepted and is not canonical. *)
Theorem cz_not_canonical x y : x <> 0 -> on_curve o a b (Some (x, y)) -> ysign (- y) = ysign y ->
  exists l A, length l = csize k cf /\ is_bytes l
    /\ cz_decode o c k cf lex l = SqRet (Some A) /\ cz_encode o c k cf lex A <> Some l.
Proof.
  intros Nx On E. set (sg := negb (ysign y)).
  exists (upd_at idx (enc_flags cf false sg) (cz_base x)).
  pose proof idx_lt as I. pose proof (cz_base_len x) as L. pose proof (cz_base_flag x) as Fl.
  destruct (dec_enc_flags cf false sg _ Fl) as [D B].
  assert (Lu : length (upd_at idx (enc_flags cf false sg) (cz_base x)) = csize k cf).
  { rewrite upd_at_length by lia. exact L. }
  destruct (cz_resolve_cases x sg) as [(y' & Er & On' & _)|[_ X]]; [|exfalso; exact (X _ On)].
  exists (mk_aff x y'). split; [exact Lu|]. split; [apply upd_at_bytes; [apply cz_base_bytes|exact B]|]. split.
  - rewrite (cz_decode_eq _ true false sg (nth idx (cz_base x) Z0) Lu) by (rewrite upd_at_nth by lia; exact D).
    rewrite upd_at_comp by lia. rewrite upd_at_id by lia.
    rewrite cz_payload_base. cbn [ct_and_then].
    assert (V1 : match cf with Extra => Z.eqb (nth idx (cz_base x) Z0) Z0 | _ => true end = true).
    { revert Fl. unfold flag_bound. destruct cf eqn:Ecf; intros Fl; try reflexivity. apply Z.eqb_eq. lia. }
    rewrite V1. unfold cz_finish. cbv zeta. cbn [andb]. rewrite (is0_n x Nx). cbn [andb negb xorb].
    unfold ct_new at 1. cbn [ct_or_else]. rewrite Er. cbn [ct_and_then]. reflexivity.
  - assert (HA : arep o c (mk_aff x y') (Some (x, y'))) by (split; [exact On'|cbn; auto]).
    rewrite (cz_encode_eq _ (arep_on _ _ HA)). cbn [ax]. intros X. injection X as X.
    apply (f_equal (fun l => dec_flags cf (nth idx l Z0))) in X.
    rewrite !upd_at_nth in X by lia. rewrite D in X.
    rewrite (proj1 (dec_enc_flags cf _ _ _ Fl)) in X. injection X as X0 X1.
    unfold cz_sign in X1. rewrite X0 in X1. cbn [ay negb] in X1. rewrite Bool.andb_true_r in X1.
    assert (Y : ysign y' = ysign y).
    { apply y2_on in On, On'. rewrite <- On in On'. apply sq_eq_cases in On'. destruct On' as [-> | ->]; auto. }
    rewrite Y in X1. unfold sg in X1. destruct (ysign y); discriminate.
Qed.

(** What the decoder accepts *)
Theorem cz_decode_spec l : is_bytes l -> length l = csize k cf ->
  match cz_decode o c k cf lex l with
  | SqRet (Some A) => exists P, arep o c A P
      /\ match P with
         | None => cz_encode o c k cf lex A = Some l
         | Some (x, y) => x <> 0 /\ (ysign (- y) = negb (ysign y) -> cz_encode o c k cf lex A = Some l)
         end
  | SqRet None => forall A P, arep o c A P ->
      match P with None => True | Some (x, y) => x <> 0 /\ ysign (- y) = negb (ysign y) end ->
      cz_encode o c k cf lex A <> Some l
  | SqPanic => ~ codec_total k
  | SqDiverge => False
  end.
Proof.
  intros Hl Hn. pose proof idx_lt as I. rewrite <- Hn in I.
  destruct (cz_decode o c k cf lex l) as [| |[A|]] eqn:ED.
  4: { intros A P HA HP E. destruct (cz_roundtrip A P HA HP) as (l' & E1 & _ & _ & E2). congruence. }
  all: destruct (dec_flags cf (nth idx l Z0)) as [[[v id] sg] e] eqn:Ef;
    rewrite (cz_decode_eq l v id sg e Hn Ef) in ED;
    destruct (enc_dec_flags cf (nth idx l Z0) v id sg e (nth_byte idx l Hl) Ef) as (Be & Ee & Bs).
  all: set (l1 := upd_at idx (fun _ => e) l) in *;
    assert (L1 : length l1 = csize k cf) by (unfold l1; rewrite upd_at_length by lia; exact Hn);
    assert (B1 : is_bytes l1) by (unfold l1; apply upd_at_bytes; assumption).
  all: assert (Pay : exists l2, is_bytes l2 /\ length l2 = k_size k /\ cz_payload l1 = k_from_bytes k l2
      /\ l1 = match cf with Extra => e :: l2 | _ => l2 end).
  1, 3, 5: unfold cz_payload; destruct cf eqn:Ecf;
    [ exists (skipn 1 l1); split; [apply is_bytes_skipn; exact B1|];
      split; [rewrite skipn_length, L1; unfold csize; lia|]; split; [reflexivity|];
      unfold l1; rewrite <- Ecf; unfold flag_index, upd_at; rewrite Ecf; reflexivity
    | exists l1; (split; [exact B1|]); split; [rewrite L1; unfold csize; lia|auto]
    | exists l1; (split; [exact B1|]); split; [rewrite L1; unfold csize; lia|auto] ].
  all: destruct Pay as (l2 & B2 & L2 & Ep & E12); rewrite Ep in ED;
    pose proof (kl_from _ _ HK l2 B2 L2) as KF.
  - (* diverge *)
    destruct (k_from_bytes k l2) as [| |[x|]]; cbn [ct_and_then] in ED; try discriminate; auto;
    unfold cz_finish in ED;
    match type of ED with context[cz_resolve _ _ _ _ ?x ?s] =>
      destruct (cz_resolve_cases x s) as [(y' & Er & _)|[Er _]]; rewrite Er in ED end;
    cbn in ED; discriminate.
  - (* panic *)
    intros T. destruct (T l2 B2 L2) as (r & Er'). rewrite Er' in ED.
    destruct r as [x|]; cbn [ct_and_then] in ED; unfold cz_finish in ED;
    match type of ED with context[cz_resolve _ _ _ _ ?x ?s] =>
      destruct (cz_resolve_cases x s) as [(y' & Er & _)|[Er _]]; rewrite Er in ED end;
    cbn in ED; discriminate.
  - (* accepted *)
    destruct (k_from_bytes k l2) as [| |[x|]] eqn:Ek; cbn [ct_and_then] in ED; try discriminate.
    2: { exfalso. unfold cz_finish in ED.
      match type of ED with context[cz_resolve _ _ _ _ ?x ?s] =>
        destruct (cz_resolve_cases x s) as [(y' & Er & _)|[Er _]]; rewrite Er in ED end;
      cbn in ED; discriminate. }
    assert (Acc : v = true /\ match cf with Extra => Z.eqb e Z0 | _ => true end = true
      /\ ((id = true /\ x = 0 /\ sg = false /\ A = aff_identity o)
       \/ (id = false /\ x <> 0 /\ cz_resolve o c k lex x sg = SqRet (Some A)))).
    { revert ED. unfold cz_finish. cbv zeta.
      set (v1 := match cf with Extra => Z.eqb e Z0 | _ => true end).
      destruct (fis0 o x) eqn:Z.
      - apply is0_iff in Z.
        destruct (cz_resolve_cases x sg) as [(y' & Er & _)|[Er _]]; rewrite Er;
        destruct v, v1, id, sg; cbn; intros ED; try discriminate; injection ED as <-; auto 10.
      - assert (Nx : x <> 0) by (intros E; apply is0_iff in E; congruence).
        destruct (cz_resolve_cases x sg) as [(y' & Er & _)|[Er _]]; rewrite Er;
        destruct v, v1, id, sg; cbn; intros ED; try discriminate; injection ED as <-; auto 10. }
    destruct Acc as (Ev & Ev1 & Acc).
    (* the string before the flags is the base string of x *)
    assert (Eb : cz_base x = l1).
    { unfold cz_base. rewrite E12, KF. destruct cf; try reflexivity. apply Z.eqb_eq in Ev1. rewrite Ev1. reflexivity. }
    assert (Re : upd_at idx (enc_flags cf id sg) (cz_base x) = l).
    { rewrite Eb. unfold l1. rewrite upd_at_comp by exact I. rewrite (Ee Ev). apply upd_at_id. exact I. }
    destruct Acc as [(Eid & Ex & Es & EA)|(Eid & Nx & Er)].
    + exists None. assert (HA : arep o c A None) by (rewrite EA; split; [exact Logic.I|cbn; auto]).
      split; [exact HA|]. rewrite (cz_encode_eq A (arep_on A None HA)).
      rewrite EA. unfold cz_sign, aff_is_identity, aff_identity. cbn [ax ay]. rewrite is0_0. cbn [andb negb].
      rewrite Bool.andb_false_r. rewrite <- Re, Eid, Es, Ex. reflexivity.
    + destruct (cz_resolve_cases x sg) as [(y' & Er' & On & Sg)|[Er' _]]; rewrite Er' in Er; [|discriminate].
      injection Er as <-. exists (Some (x, y')).
      assert (HA : arep o c (mk_aff x y') (Some (x, y'))) by (split; [exact On|cbn; auto]).
      split; [exact HA|]. split; [exact Nx|]. intros Ns. rewrite (cz_encode_eq _ (arep_on _ _ HA)).
      unfold cz_sign, aff_is_identity. cbn [ax ay]. rewrite (is0_n x Nx). cbn [andb negb].
      rewrite Bool.andb_true_r, (Sg Ns), <- Re, Eid. reflexivity.
Qed.

(** ** Uncompressed points *)
Notation ksz := (k_size k).
Lemma cut2 (u v : list Z) : length u = ksz -> length v = ksz ->
  firstn ksz (u ++ v) = u /\ firstn ksz (skipn ksz (u ++ v)) = v.
Proof.
  intros E1 E2. destruct (cut k u v E1) as [-> ->]. rewrite firstn_all2 by lia. auto.
Qed.
Lemma split2 (l : list Z) : length l = (2 * ksz)%nat -> l = firstn ksz l ++ firstn ksz (skipn ksz l)
  /\ length (firstn ksz l) = ksz /\ length (firstn ksz (skipn ksz l)) = ksz.
Proof.
  intros E. rewrite (firstn_all2 (skipn ksz l)) by (rewrite skipn_length; lia).
  rewrite firstn_skipn, firstn_length, skipn_length. split; [reflexivity|lia].
Qed.

Lemma to_uncompressed_eq A P : arep o c A P -> to_uncompressed o k A = k_to_bytes k (ax A) ++ k_to_bytes k (ay A).
Proof.
  intros HA. unfold to_uncompressed, select. destruct (aff_is_identity o A) eqn:E; [|reflexivity].
  unfold aff_is_identity in E. apply andb_true_iff in E. destruct E as [E1 E2].
  apply is0_iff in E1, E2. rewrite E1, E2. reflexivity.
Qed.
Lemma aff_id_or x y : (if (fis0 o x && fis0 o y)%bool then aff_identity o else mk_aff x y) = mk_aff x y.
Proof.
  destruct (fis0 o x && fis0 o y) eqn:E; [|reflexivity]. apply andb_true_iff in E. destruct E as [E1 E2].
  apply is0_iff in E1, E2. subst. reflexivity.
Qed.
Lemma from_unc_ret l x y : k_from_bytes k (firstn ksz l) = SqRet (Some x) ->
  k_from_bytes k (firstn ksz (skipn ksz l)) = SqRet (Some y) ->
  from_uncompressed o c k l = ct_new (mk_aff x y) (aff_is_on_curve o c (mk_aff x y)).
Proof.
  intros E1 E2. unfold from_uncompressed, from_uncompressed_unchecked. rewrite E1, E2. cbn [ct_and_then].
  pose proof (aff_id_or x y) as I. unfold ct_new at 1 2. destruct (fis0 o x && fis0 o y)%bool; cbn [ct_or_else ct_and_then].
  - rewrite I. reflexivity.
  - reflexivity.
Qed.

Theorem unc_roundtrip A P : arep o c A P ->
  length (to_uncompressed o k A) = (2 * ksz)%nat /\ is_bytes (to_uncompressed o k A)
  /\ from_uncompressed o c k (to_uncompressed o k A) = SqRet (Some A).
Proof.
  intros HA. rewrite (to_uncompressed_eq A P HA).
  pose proof (kl_to _ _ HK (ax A)) as [L1 B1]. pose proof (kl_to _ _ HK (ay A)) as [L2 B2].
  split; [rewrite app_length; lia|]. split; [apply is_bytes_app; auto|].
  destruct (cut2 _ _ L1 L2) as [C1 C2].
  rewrite (from_unc_ret _ (ax A) (ay A)) by (rewrite ?C1, ?C2; apply (kl_from_to _ _ HK)).
  replace (mk_aff (ax A) (ay A)) with A by (destruct A; reflexivity). rewrite (arep_on A P HA). reflexivity.
Qed.

Theorem unc_decode_spec l : is_bytes l -> length l = (2 * ksz)%nat ->
  match from_uncompressed o c k l with
  | SqRet (Some A) => (exists P, arep o c A P) /\ to_uncompressed o k A = l
  | SqRet None => forall A P, arep o c A P -> to_uncompressed o k A <> l
  | SqPanic => ~ codec_total k
  | SqDiverge => False
  end.
Proof.
  intros Hl Hn. destruct (split2 l Hn) as (El & L1 & L2).
  pose proof (is_bytes_firstn ksz l Hl) as B1. pose proof (is_bytes_firstn ksz _ (is_bytes_skipn ksz l Hl)) as B2.
  pose proof (kl_from _ _ HK _ B1 L1) as K1. pose proof (kl_from _ _ HK _ B2 L2) as K2.
  destruct (from_uncompressed o c k l) as [| |[A|]] eqn:E.
  4: { intros A P HA EA. destruct (unc_roundtrip A P HA) as (_ & _ & R). rewrite EA in R. congruence. }
  - unfold from_uncompressed, from_uncompressed_unchecked in E.
    destruct (k_from_bytes k (firstn ksz l)) as [| |[x|]]; auto;
    destruct (k_from_bytes k (firstn ksz (skipn ksz l))) as [| |[y|]]; auto; cbn in E; try discriminate;
    destruct (fis0 o x && fis0 o y)%bool; cbn in E; discriminate.
  - intros T. destruct (T _ B1 L1) as (r1 & E1). destruct (T _ B2 L2) as (r2 & E2).
    unfold from_uncompressed, from_uncompressed_unchecked in E. rewrite E1, E2 in E.
    destruct r1 as [x|], r2 as [y|]; cbn in E; try discriminate;
    destruct (fis0 o x && fis0 o y)%bool; cbn in E; discriminate.
  - assert (X : exists x y, k_from_bytes k (firstn ksz l) = SqRet (Some x)
      /\ k_from_bytes k (firstn ksz (skipn ksz l)) = SqRet (Some y)).
    { unfold from_uncompressed, from_uncompressed_unchecked in E.
      destruct (k_from_bytes k (firstn ksz l)) as [| |[x|]]; cbn in E; try discriminate;
      destruct (k_from_bytes k (firstn ksz (skipn ksz l))) as [| |[y|]]; cbn in E; try discriminate. eauto. }
    destruct X as (x & y & E1 & E2). rewrite (from_unc_ret l x y E1 E2) in E. unfold ct_new in E.
    destruct (aff_is_on_curve o c (mk_aff x y)) eqn:On; [|discriminate]. injection E as <-.
    apply (aff_on_curve_iff o c HC) in On. split; [exact On|]. destruct On as (P & HP).
    rewrite (to_uncompressed_eq _ P HP). cbn [ax ay]. rewrite E1 in K1. rewrite E2 in K2. rewrite K1, K2. symmetry. exact El.
Qed.

(** ** Raw points *)
Lemma slice0 (u v : list Z) : length u = ksz -> slice k 0 (u ++ v) = u.
Proof. intros E. unfold slice. cbn [Nat.mul skipn]. apply (cut k u v E). Qed.
Lemma slice_S i (u v : list Z) : length u = ksz -> slice k (Datatypes.S i) (u ++ v) = slice k i v.
Proof.
  intros E. unfold slice. f_equal. replace (Datatypes.S i * ksz)%nat with (length u + i * ksz)%nat by (cbn; lia).
  rewrite skipn_app. replace (length u + i * ksz - length u)%nat with (i * ksz)%nat by lia.
  rewrite skipn_all2 by lia. reflexivity.
Qed.
Lemma slice0_all (u : list Z) : length u = ksz -> slice k 0 u = u.
Proof. intros E. unfold slice. cbn [Nat.mul skipn]. apply firstn_all2. lia. Qed.
Lemma slice_join (l : list Z) : length l = (2 * ksz)%nat -> l = slice k 0 l ++ slice k 1 l.
Proof.
  intros E. unfold slice. rewrite Nat.mul_1_l. cbn [Nat.mul skipn]. apply split2. exact E.
Qed.
Lemma slice_join3 (l : list Z) : length l = (3 * ksz)%nat -> l = slice k 0 l ++ slice k 1 l ++ slice k 2 l.
Proof.
  intros E. rewrite <- (firstn_skipn ksz l) at 1. unfold slice at 1. cbn [Nat.mul skipn]. f_equal.
  assert (L : length (skipn ksz l) = (2 * ksz)%nat) by (rewrite skipn_length; lia).
  rewrite (slice_join _ L) at 1.
  rewrite <- (firstn_skipn ksz l) at 3 4.
  rewrite !slice_S by (rewrite firstn_length; lia). reflexivity.
Qed.
Lemma slice_bytes i l : is_bytes l -> is_bytes (slice k i l).
Proof. intros Hl. apply is_bytes_firstn, is_bytes_skipn. exact Hl. Qed.

Theorem aff_raw_roundtrip A P : arep o c A P -> aff_from_raw o c k (aff_to_raw k A) = Some A.
Proof.
  intros HA. unfold aff_from_raw, aff_to_raw.
  pose proof (kl_to_raw _ _ HK (ax A)) as [L1 B1]. pose proof (kl_to_raw _ _ HK (ay A)) as [L2 B2].
  rewrite app_length, L1, L2. replace (ksz + ksz =? 2 * ksz)%nat with true by (symmetry; apply Nat.eqb_eq; lia).
  cbn [negb]. rewrite slice_S, !slice0, slice0_all by assumption. rewrite !(kl_raw_from_to _ _ HK).
  replace (mk_aff (ax A) (ay A)) with A by (destruct A; reflexivity). rewrite (arep_on A P HA). reflexivity.
Qed.
Theorem aff_raw_spec l : is_bytes l ->
  match aff_from_raw o c k l with
  | Some A => (exists P, arep o c A P) /\ aff_to_raw k A = l
  | None => forall A P, arep o c A P -> aff_to_raw k A <> l
  end.
Proof.
  intros Hl. destruct (aff_from_raw o c k l) as [A|] eqn:E.
  2: { intros A P HA EA. rewrite <- EA, (aff_raw_roundtrip A P HA) in E. discriminate. }
  unfold aff_from_raw in E. destruct (Nat.eqb_spec (length l) (2 * ksz)) as [Hn|]; cbn [negb] in E; [|discriminate].
  pose proof (kl_from_raw _ _ HK _ (slice_bytes 0 l Hl)) as K1. pose proof (kl_from_raw _ _ HK _ (slice_bytes 1 l Hl)) as K2.
  destruct (k_from_raw k (slice k 0 l)) as [x|]; [|discriminate].
  destruct (k_from_raw k (slice k 1 l)) as [y|]; [|discriminate].
  destruct (aff_is_on_curve o c (mk_aff x y)) eqn:On; [|discriminate]. injection E as <-.
  split; [apply (aff_on_curve_iff o c HC); exact On|].
  unfold aff_to_raw. cbn [ax ay]. rewrite K1, K2. symmetry. apply slice_join. exact Hn.
Qed.

Lemma proj_eta (p : proj F) : mk_proj (px p) (py p) (pz p) = p. Proof. destruct p; reflexivity. Qed.
Lemma proj_raw_on p : proj_is_on_curve o c p = true -> proj_from_raw o c k (proj_to_raw k p) = Some p.
Proof.
  intros On. unfold proj_from_raw, proj_to_raw.
  pose proof (kl_to_raw _ _ HK (px p)) as [L1 B1]. pose proof (kl_to_raw _ _ HK (py p)) as [L2 B2].
  pose proof (kl_to_raw _ _ HK (pz p)) as [L3 B3].
  rewrite !app_length, L1, L2, L3. replace (ksz + (ksz + ksz) =? 3 * ksz)%nat with true by (symmetry; apply Nat.eqb_eq; lia).
  cbn [negb]. rewrite !slice_S, !slice0, slice0_all by assumption. rewrite !(kl_raw_from_to _ _ HK).
  cbv zeta. rewrite proj_eta, On. reflexivity.
Qed.
Lemma prep_on p P : prep o c p P -> proj_is_on_curve o c p = true.
Proof.
  intros Hp. apply (proj_on_curve_iff o c HC). destruct P as [[x y]|]; [right; eauto|left; apply Hp].
Qed.
Theorem proj_raw_roundtrip p P : prep o c p P -> proj_from_raw o c k (proj_to_raw k p) = Some p.
Proof. intros Hp. apply proj_raw_on. exact (prep_on p P Hp). Qed.
(** The accepted triples are the points off the line z = 0, and everything on that line. *)
Theorem proj_raw_spec l : is_bytes l ->
  match proj_from_raw o c k l with
  | Some p => proj_to_raw k p = l /\ (pz p = 0 \/ exists x y, prep o c p (Some (x, y)))
  | None => forall p P, prep o c p P -> proj_to_raw k p <> l
  end.
Proof.
  intros Hl. destruct (proj_from_raw o c k l) as [p|] eqn:E.
  2: { intros p P Hp Ep. rewrite <- Ep, (proj_raw_roundtrip p P Hp) in E. discriminate. }
  unfold proj_from_raw in E. destruct (Nat.eqb_spec (length l) (3 * ksz)) as [Hn|]; cbn [negb] in E; [|discriminate].
  pose proof (kl_from_raw _ _ HK _ (slice_bytes 0 l Hl)) as K1. pose proof (kl_from_raw _ _ HK _ (slice_bytes 1 l Hl)) as K2.
  pose proof (kl_from_raw _ _ HK _ (slice_bytes 2 l Hl)) as K3.
  destruct (k_from_raw k (slice k 0 l)) as [x|]; [|discriminate].
  destruct (k_from_raw k (slice k 1 l)) as [y|]; [|discriminate].
  destruct (k_from_raw k (slice k 2 l)) as [z|]; [|discriminate].
  destruct (proj_is_on_curve o c (mk_proj x y z)) eqn:On; [|discriminate]. injection E as <-.
  split; [|apply (proj_on_curve_iff o c HC); exact On].
  unfold proj_to_raw. cbn [px py pz]. rewrite K1, K2, K3. symmetry. apply slice_join3. exact Hn.
Qed.

(** [(0, 0, 0)] is accepted, is no point, and absorbs every sum. *)
Theorem proj_raw_bad : let p := mk_proj 0 0 0 in
  proj_from_raw o c k (proj_to_raw k p) = Some p
  /\ (forall P, ~ prep o c p P)
  /\ forall q, let s := proj_add o c p q in px s = 0 /\ py s = 0 /\ pz s = 0.
Proof.
  cbv zeta. split; [apply proj_raw_on; apply (proj_on_curve_iff o c HC); left; reflexivity|]. split.
  - intros [[x y]|] (_ & X); cbn [px py pz] in X; [apply X; reflexivity|apply X; reflexivity].
  - intros q. unfold proj_add, add_a0, add_gen.
    destruct (a_is_zero o c); cbv zeta; cbn [px py pz];
      rewrite ?(cl_3b _ _ HC); repeat split; ring.
Qed.

Theorem aff_read_roundtrip A rest : is_bytes rest -> aff_read_raw k (aff_to_raw k A ++ rest) = Some (A, rest).
Proof.
  intros Hr. unfold aff_read_raw, aff_to_raw. rewrite <- app_assoc.
  rewrite (kl_read_to _ _ HK) by (apply is_bytes_app; split; [apply (kl_to_raw _ _ HK)|exact Hr]).
  rewrite (kl_read_to _ _ HK) by exact Hr. destruct A; reflexivity.
Qed.
Theorem proj_read_roundtrip p rest : is_bytes rest -> proj_read_raw k (proj_to_raw k p ++ rest) = Some (p, rest).
Proof.
  intros Hr. unfold proj_read_raw, proj_to_raw. rewrite <- !app_assoc.
  rewrite (kl_read_to _ _ HK) by (repeat (apply is_bytes_app; split; [apply (kl_to_raw _ _ HK)|]); exact Hr).
  rewrite (kl_read_to _ _ HK) by (repeat (apply is_bytes_app; split; [apply (kl_to_raw _ _ HK)|]); exact Hr).
  rewrite (kl_read_to _ _ HK) by exact Hr. destruct p; reflexivity.
Qed.
Theorem aff_read_spec r : is_bytes r ->
  match aff_read_raw k r with
  | Some (A, rest) => r = aff_to_raw k A ++ rest
  | None => forall A rest, r <> aff_to_raw k A ++ rest
  end.
Proof.
  intros Hr. destruct (aff_read_raw k r) as [[A rest]|] eqn:E.
  2: { intros A rest Er. assert (Hr' : is_bytes rest) by (rewrite Er in Hr; apply is_bytes_app in Hr; tauto).
       rewrite Er, aff_read_roundtrip in E by exact Hr'. discriminate. }
  unfold aff_read_raw in E. pose proof (kl_read _ _ HK r Hr) as K1.
  destruct (k_read_raw k r) as [[x r1]|]; [|discriminate].
  assert (Hr1 : is_bytes r1) by (rewrite K1 in Hr; apply is_bytes_app in Hr; tauto).
  pose proof (kl_read _ _ HK r1 Hr1) as K2. destruct (k_read_raw k r1) as [[y r2]|]; [|discriminate].
  injection E as <- <-. unfold aff_to_raw. cbn [ax ay]. rewrite <- app_assoc, K1, K2. reflexivity.
Qed.
Theorem proj_read_spec r : is_bytes r ->
  match proj_read_raw k r with
  | Some (p, rest) => r = proj_to_raw k p ++ rest
  | None => forall p rest, r <> proj_to_raw k p ++ rest
  end.
Proof.
  intros Hr. destruct (proj_read_raw k r) as [[p rest]|] eqn:E.
  2: { intros p rest Er. assert (Hr' : is_bytes rest) by (rewrite Er in Hr; apply is_bytes_app in Hr; tauto).
       rewrite Er, proj_read_roundtrip in E by exact Hr'. discriminate. }
  unfold proj_read_raw in E. pose proof (kl_read _ _ HK r Hr) as K1.
  destruct (k_read_raw k r) as [[x r1]|]; [|discriminate].
  assert (Hr1 : is_bytes r1) by (rewrite K1 in Hr; apply is_bytes_app in Hr; tauto).
  pose proof (kl_read _ _ HK r1 Hr1) as K2. destruct (k_read_raw k r1) as [[y r2]|]; [|discriminate].
  assert (Hr2 : is_bytes r2) by (rewrite K2 in Hr1; apply is_bytes_app in Hr1; tauto).
  pose proof (kl_read _ _ HK r2 Hr2) as K3. destruct (k_read_raw k r2) as [[z r3]|]; [|discriminate].
  injection E as <- <-. unfold proj_to_raw. cbn [px py pz]. rewrite <- !app_assoc, K1, K2, K3. reflexivity.
Qed.
(** [read_raw] returns (1, 0), which is on no curve of odd order. *)
Theorem aff_read_bad : let A := mk_aff 1 0 in
  aff_read_raw k (aff_to_raw k A) = Some (A, []) /\ forall P, ~ arep o c A P.
Proof.
  cbv zeta. split.
  - rewrite <- (app_nil_r (aff_to_raw k (mk_aff 1 0))). apply aff_read_roundtrip. constructor.
  - intros [[x y]|] (On & X); cbn [ax ay] in X; destruct X as [X Y].
    + subst. apply (no_y0 o c HC _ _ On). reflexivity.
    + exact (fl_1_0 _ H X).
Qed.
End Point.
