(** Property theorems C55: the serde implementations (feature `derive_serde`). *)
From Verif Require Import Base Word Limbs Bytes Field SpecField Params LimbsFacts FieldFacts BytesFacts FieldSerdeFacts
  Algebra Pow Tower FiniteField PrimeField Primality Certs TowerParams TowerInst SpecCurve SpecCurveFacts Group
  Curve CurveFacts CurveGroup CurveParams CurveInst CrateCurves Inverse LimbField Props_Field Props_Field2 Sqrt2 Serde SerdeFacts SerdeInst
  Props_Serde SerdeText.
Local Open Scope Z_scope.

(** ** What a value of a format denotes *)
(** A hexadecimal digit, of either case. *)
Definition hex_digit (ch d : Z) : Prop :=
  (0 <= d <= 9 /\ ch = 48 + d) \/ (10 <= d <= 15 /\ (ch = 65 + (d - 10) \/ ch = 97 + (d - 10))).
(** The text [s] spells the bytes [l]. *)
Inductive hex_text : list Z -> list Z -> Prop :=
| ht_nil : hex_text [] []
| ht_cons h d b s l : 0 <= b < 256 -> hex_digit h (b / 16) -> hex_digit d (b mod 16) -> hex_text s l -> hex_text (h :: d :: s) (b :: l).
Definition lower (s : list Z) : Prop := Forall (fun ch => 48 <= ch <= 57 \/ 97 <= ch <= 102) s.
Definition wire (human : bool) (l : list Z) (v : sval) : Prop :=
  if human then exists s, v = VStr s /\ hex_text s l else v = VTuple l /\ is_bytes l.
(** A tuple holds bytes. *)
Definition sval_ok (v : sval) : Prop := match v with VTuple l => is_bytes l | _ => True end.

Lemma nibbles a b : 0 <= a < 16 -> 0 <= b < 16 -> Z.lor (Z.shiftl a 4) b = 16 * a + b.
Proof.
  intros Ha Hb.
  assert (E : forallb (fun i => forallb (fun j => Z.lor (Z.shiftl (Z.of_nat i) 4) (Z.of_nat j) =? 16 * Z.of_nat i + Z.of_nat j) (seq 0 16)) (seq 0 16) = true)
    by (vm_compute; reflexivity).
  assert (Ia : In (Z.to_nat a) (seq 0 16)) by (apply in_seq; lia). assert (Ib : In (Z.to_nat b) (seq 0 16)) by (apply in_seq; lia).
  pose proof (proj1 (forallb_forall _ _) (proj1 (forallb_forall _ _) E _ Ia) _ Ib) as X. cbv beta in X.
  rewrite !Z2Nat.id in X by lia. apply Z.eqb_eq. exact X.
Qed.
Lemma some_inj {A} (x y : A) : Some x = Some y -> x = y.
Proof. congruence. Qed.
Lemma hex_val_iff ch d : hex_val ch = Some d <-> hex_digit ch d.
Proof.
  unfold hex_val, hex_digit.
  destruct (Z.leb_spec 65 ch), (Z.leb_spec ch 70), (Z.leb_spec 97 ch), (Z.leb_spec ch 102), (Z.leb_spec 48 ch), (Z.leb_spec ch 57);
    cbn [andb]; (split; [intros E; first [discriminate | injection E as <-; lia] | intros E; first [f_equal; lia | exfalso; lia]]).
Qed.
Lemma hex_digit_range ch d : hex_digit ch d -> 0 <= d < 16.
Proof. unfold hex_digit. lia. Qed.
Lemma hex_pairs_iff s : forall l, hex_pairs s = Some l <-> hex_text s l.
Proof.
  enough (X : forall n s, (length s <= n)%nat -> forall l, hex_pairs s = Some l <-> hex_text s l) by (intros l; exact (X _ s (le_n _) l)).
  clear s. induction n as [|n IH]; intros s Hn l.
  - destruct s; [|cbn in Hn; lia]. cbn [hex_pairs]. split; [intros E; injection E as <-; constructor|intros E; inversion E; reflexivity].
  - destruct s as [|h [|d s]]; cbn [hex_pairs].
    + split; [intros E; injection E as <-; constructor|intros E; inversion E; reflexivity].
    + split; [discriminate|intros E; inversion E].
    + cbn [length] in Hn. specialize (IH s ltac:(lia)). split.
      * destruct (hex_val h) as [a|] eqn:Ea; [|discriminate]. destruct (hex_val d) as [b|] eqn:Eb; [|discriminate].
        destruct (hex_pairs s) as [r|]; [|discriminate]. intros E. apply some_inj in E. subst l.
        apply hex_val_iff in Ea, Eb. pose proof (hex_digit_range _ _ Ea). pose proof (hex_digit_range _ _ Eb). rewrite nibbles by assumption.
        rewrite (Z.mul_comm 16 a). constructor; [lia| | |apply IH; reflexivity].
        -- rewrite Z.div_add_l, (Z.div_small b), Z.add_0_r by lia. exact Ea.
        -- rewrite Z.add_comm, Z.mod_add, Z.mod_small by lia. exact Eb.
      * intros E. inversion E as [|h' d' b s' l' Hb Hh Hd Ht]; subst. apply hex_val_iff in Hh, Hd. rewrite Hh, Hd.
        apply IH in Ht. rewrite Ht. f_equal. f_equal.
        pose proof (Z.mod_pos_bound b 16 ltac:(lia)). pose proof (Z.div_mod b 16 ltac:(lia)).
        rewrite nibbles by lia. lia.
Qed.
Lemma hex_text_len s l : hex_text s l -> length s = (2 * length l)%nat.
Proof. induction 1; cbn [length]; lia. Qed.
Lemma hex_text_bytes s l : hex_text s l -> is_bytes l.
Proof. induction 1; constructor; auto. Qed.
Lemma hex_decode_iff n s l : hex_decode n s = Some l <-> hex_text s l /\ length l = n.
Proof.
  unfold hex_decode. rewrite <- hex_pairs_iff. split.
  - destruct (Nat.even (length s)) eqn:Ev; cbn [negb]; [|discriminate]. destruct (Nat.eqb_spec (Nat.div2 (length s)) n) as [D|D]; [|discriminate].
    intros E. split; [exact E|]. apply hex_pairs_iff, hex_text_len in E. rewrite E in D. rewrite Nat.div2_double in D. exact D.
  - intros (E & L). pose proof (proj1 (hex_pairs_iff _ _) E) as T. apply hex_text_len in T. rewrite T, Nat.div2_double, L.
    replace (Nat.even (2 * n)) with true by (symmetry; apply Nat.even_spec; exists n; reflexivity). cbn [negb]. rewrite Nat.eqb_refl. exact E.
Qed.
Lemma hex_char_digit d : 0 <= d < 16 -> hex_digit (hex_char d) d /\ (48 <= hex_char d <= 57 \/ 97 <= hex_char d <= 102).
Proof. unfold hex_digit, hex_char. intros Hd. destruct (Z.ltb_spec d 10); lia. Qed.
Lemma hex_encode_text l : is_bytes l -> hex_text (hex_encode l) l /\ lower (hex_encode l).
Proof.
  induction 1 as [|b l Hb H IH]; cbn [hex_encode flat_map]; [split; constructor|]. destruct IH as [I1 I2].
  destruct (hex_char_digit (b / 16)) as [A1 A2]; [split; [apply Z.div_pos; lia|apply Z.div_lt_upper_bound; lia]|].
  destruct (hex_char_digit (b mod 16)) as [B1 B2]; [apply Z.mod_pos_bound; lia|].
  split; [exact (ht_cons _ _ _ _ _ Hb A1 B1 I1)|]. constructor; [exact A2|constructor; [exact B2|exact I2]].
Qed.
Lemma wire_ser h l : is_bytes l -> wire h l (ser_bytes h l).
Proof. intros B. destruct h; cbn; [exists (hex_encode l); split; [reflexivity|apply hex_encode_text; exact B]|auto]. Qed.
Lemma wire_iff h n v l : sval_ok v -> de_bytes h n v = Some l <-> wire h l v /\ length l = n.
Proof.
  intros Hv. destruct h, v as [s|t|t]; cbn [de_bytes wire];
    try (split; [discriminate|intros [(? & E & _) _]; discriminate]); try (split; [discriminate|intros [[E _] _]; discriminate]).
  - rewrite hex_decode_iff. split; intros [X L]; (split; [|exact L]); [exists s; auto|]. destruct X as (s' & E & X). congruence.
  - destruct (Nat.eqb_spec (length t) n) as [D|D].
    + split; [intros E; injection E as <-; auto|]. intros [[E _] _]. congruence.
    + split; [discriminate|]. intros [[E _] L]. congruence.
Qed.
Lemma wire_none h n v : sval_ok v -> de_bytes h n v = None -> forall l, length l = n -> ~ wire h l v.
Proof. intros Hv E l L X. assert (Y : de_bytes h n v = Some l) by (apply wire_iff; auto). congruence. Qed.
Lemma de_ser h n l : is_bytes l -> length l = n -> de_bytes h n (ser_bytes h l) = Some l.
Proof. intros B L. apply wire_iff; [destruct h; cbn; auto|]. split; [apply wire_ser; exact B|exact L]. Qed.
Lemma wire_bytes h l v : wire h l v -> is_bytes l.
Proof. destruct h; cbn; [intros (s & _ & T); exact (hex_text_bytes _ _ T)|intros [_ B]; exact B]. Qed.
(** The text determines the bytes; the bytes determine the text up to the case of letters. *)
Lemma digit_fun ch d d' : hex_digit ch d -> hex_digit ch d' -> d = d'.
Proof. unfold hex_digit. lia. Qed.
Lemma hex_text_fun s l l' : hex_text s l -> hex_text s l' -> l = l'.
Proof.
  intros H. revert l'. induction H as [|h d b s l Hb Hh Hd H IH]; intros l' H'; inversion H' as [|? ? b' ? l'' Hb' Hh' Hd' Ht]; subst; [reflexivity|].
  f_equal; [|apply IH; assumption]. rewrite (Z.div_mod b 16), (Z.div_mod b' 16) by lia.
  rewrite (digit_fun _ _ _ Hh Hh'), (digit_fun _ _ _ Hd Hd'). reflexivity.
Qed.
Lemma hex_text_lower s s' l : lower s -> lower s' -> hex_text s l -> hex_text s' l -> s = s'.
Proof.
  intros L L' H. revert s' L'. induction H as [|h d b s l Hb Hh Hd H IH]; intros s' L' H'; inversion H' as [|h' d' ? s'' ? Hb' Hh' Hd' Ht]; subst; [reflexivity|].
  inversion L as [|? ? A1 A2]; subst. inversion A2 as [|? ? A3 A4]; subst.
  inversion L' as [|? ? B1 B2]; subst. inversion B2 as [|? ? B3 B4]; subst.
  assert (h = h') by (clear - Hh Hh' A1 B1; unfold hex_digit in *; lia). assert (d = d') by (clear - Hd Hd' A3 B3; unfold hex_digit in *; lia).
  subst. rewrite (IH A4 s'' B4 Ht). reflexivity.
Qed.

(** ** Field elements *)
(** The serialised value spells the canonical little-endian bytes of the integer; deserialisation accepts
    exactly the values that spell [SIZE] bytes of an integer below p, and returns its element. *)
Theorem C55_field : forall c, In c all_fields -> forall h,
  (forall a x, represents (num_limbs c) (modulus c) a x ->
     wire h (le_bytes (size c) x) (fe_serialize c h a) /\ fe_deserialize c h (fe_serialize c h a) = Some a)
  /\ (forall v, sval_ok v -> match fe_deserialize c h v with
       | Some a => exists x, represents (num_limbs c) (modulus c) a x /\ wire h (le_bytes (size c) x) v
       | None => forall l, length l = size c -> le_int l < modulus c -> ~ wire h l v
       end).
Proof.
  intros c I h. pose proof (field_odd c I) as Hc.
  assert (LB : forall l, is_bytes l -> length l = size c -> le_bytes (size c) (le_int l) = l).
  { intros l B L. apply le_int_inj; [rewrite le_bytes_length; auto|apply le_bytes_bytes|exact B|].
    apply le_bytes_int. rewrite <- L. apply le_int_bound. exact B. }
  split.
  - intros a x R. destruct (C04_to_repr c a x Hc R) as (T1 & T2 & T3). rewrite <- T3, LB by assumption. split; [apply wire_ser; exact T2|].
    unfold fe_serialize, fe_deserialize. rewrite de_ser by assumption. apply (from_to_repr c Hc). exact (proj1 R).
  - intros v Hv. unfold fe_deserialize. destruct (de_bytes h (size c) v) as [l|] eqn:E.
    + apply (wire_iff h _ v l Hv) in E as [W L]. pose proof (wire_bytes _ _ _ W) as B.
      pose proof (C04_from_repr c l Hc B L) as S. destruct (from_repr c l) as [a|].
      * exists (le_int l). split; [exact S|]. rewrite LB by assumption. exact W.
      * intros l' L' Hl' W'. assert (l = l').
        { destruct h; cbn in W, W'; [destruct W as (s & -> & W), W' as (s' & E' & W'); injection E' as <-; exact (hex_text_fun _ _ _ W W')|].
          destruct W as [-> _], W' as [E' _]. congruence. }
        subst l'. clear - S Hl'. lia.
    + intros l L _. exact (wire_none h _ v Hv E l L).
Qed.
Print Assumptions C55_field.
(** The string form is the only accepted one in lower case ... *)
Theorem C55_field_lower : forall c, In c all_fields -> forall s a, lower s -> canonical (num_limbs c) (modulus c) a ->
  (fe_deserialize c true (VStr s) = Some a <-> fe_serialize c true a = VStr s).
Proof.
  intros c I s a Ls Ca. pose proof (field_odd c I) as Hc. destruct (C55_field c I true) as [S1 S2].
  destruct (represents_total c a Hc Ca) as (x & R & _). split.
  - intros E. pose proof (S2 (VStr s) Logic.I) as X. rewrite E in X. destruct X as (x' & R' & s' & E' & T). injection E' as <-.
    assert (x = x') as <- by exact (repr_unique c Hc _ _ _ R R').
    destruct (C04_to_repr c a x Hc R) as (T1 & T2 & T3). unfold fe_serialize, ser_bytes. f_equal.
    destruct (hex_encode_text _ T2) as [H1 H2]. refine (hex_text_lower _ _ _ H2 Ls H1 _).
    replace (to_repr c a) with (le_bytes (size c) x); [exact T|].
    apply le_int_inj; [rewrite le_bytes_length; auto|apply le_bytes_bytes|exact T2|].
    rewrite T3. apply le_bytes_int. rewrite <- T3, <- T1. apply le_int_bound. exact T2.
  - intros <-. exact (proj2 (S1 a x R)).
Qed.
Print Assumptions C55_field_lower.
(** ... but letters in upper case are accepted too: the text is not canonical. *)
Theorem C55_text_refuted : forall c, In c all_fields -> exists s s' a, s <> s'
  /\ fe_deserialize c true (VStr s) = Some a /\ fe_deserialize c true (VStr s') = Some a.
Proof.
  assert (X : forallb (fun c => let z := repeat 48 (2 * size c - 2) in
    match fe_deserialize c true (VStr (48 :: 97 :: z)), fe_deserialize c true (VStr (48 :: 65 :: z)) with
    | Some a, Some b => fe_eqb a b | _, _ => false end) all_fields = true) by (vm_compute; reflexivity).
  intros c I. pose proof (proj1 (forallb_forall _ _) X c I) as Y. cbv beta zeta in Y.
  exists (48 :: 97 :: repeat 48 (2 * size c - 2)), (48 :: 65 :: repeat 48 (2 * size c - 2)).
  destruct (fe_deserialize c true (VStr (48 :: 97 :: _))) as [a|] eqn:E1; [|discriminate].
  destruct (fe_deserialize c true (VStr (48 :: 65 :: _))) as [b|] eqn:E2; [|discriminate].
  exists a. split; [congruence|]. split; [reflexivity|]. f_equal.
  pose proof (field_odd c I) as Hc. destruct (C55_field c I true) as [_ S2].
  pose proof (S2 (VStr (48 :: 65 :: repeat 48 (2 * size c - 2))) Logic.I) as P2. rewrite E2 in P2.
  pose proof (S2 (VStr (48 :: 97 :: repeat 48 (2 * size c - 2))) Logic.I) as P3. rewrite E1 in P3.
  destruct P2 as (x & Rx & _), P3 as (y & Ry & _). symmetry. apply (fe_eqb_spec c); [exact (proj1 (proj1 Ry))|exact (proj1 (proj1 Rx))|exact Y].
Qed.
Print Assumptions C55_text_refuted.

(** ** Elements of quadratic extensions *)
Theorem C55_quad : forall c, In c all_fields -> forall h,
  (forall a, canonical (num_limbs c) (modulus c) (q0 a) -> canonical (num_limbs c) (modulus c) (q1 a) ->
     quad_deserialize c h (quad_serialize c h a) = Some a)
  /\ (forall v a, quad_deserialize c h v = Some a -> exists v0 v1, v = VStruct [v0; v1]
       /\ fe_deserialize c h v0 = Some (q0 a) /\ fe_deserialize c h v1 = Some (q1 a)).
Proof.
  intros c I h. pose proof (field_odd c I) as Hc. destruct (C55_field c I h) as [S1 _]. split.
  - intros [a b] Ca Cb. cbn [q0 q1] in *. destruct (represents_total c a Hc Ca) as (x & Rx & _). destruct (represents_total c b Hc Cb) as (y & Ry & _).
    unfold quad_serialize, quad_deserialize. cbn [q0 q1]. rewrite (proj2 (S1 a x Rx)), (proj2 (S1 b y Ry)). reflexivity.
  - intros v a. unfold quad_deserialize. destruct v as [|?|[|v0 [|v1 [|]]]]; try discriminate.
    destruct (fe_deserialize c h v0) as [p|] eqn:E0; [|discriminate]. destruct (fe_deserialize c h v1) as [q|] eqn:E1; [|discriminate].
    intros E. apply some_inj in E. subst a. exists v0, v1. auto.
Qed.
Print Assumptions C55_quad.

(** ** Points *)
Definition c55_for {F} (o : fops F) (c : cconf F) (k : codec F) cf lex (A : aff F) : Prop :=
  forall h, exists v, aff_serialize o c k cf lex h A = Some v /\ aff_deserialize o c k cf lex h v = SqRet (Some A).
Definition c55_proj_for {F} (o : fops F) (c : cconf F) (k : codec F) cf lex (p : proj F) P : Prop :=
  forall h, exists v q, proj_serialize o c k cf lex h p = Some v /\ proj_deserialize o c k cf lex h v = SqRet (Some q)
    /\ prep o c q P /\ proj_eq o p q = true.
Lemma c55_of {F} (o : fops F) c k cf lex A : c29_for o c k cf lex A -> c55_for o c k cf lex A.
Proof.
  intros (l & E & L & B & D) h. exists (ser_bytes h l). unfold aff_serialize, aff_deserialize. rewrite E. split; [reflexivity|].
  rewrite de_ser by assumption. exact D.
Qed.
Lemma c55_proj_of {F} (o : fops F) c k cf lex p P : c29_proj_for o c k cf lex p P -> c55_proj_for o c k cf lex p P.
Proof.
  intros (l & q & E & L & B & D & R & Q) h. exists (ser_bytes h l), q. unfold proj_serialize, proj_deserialize. rewrite E. split; [reflexivity|].
  rewrite de_ser by assumption. auto.
Qed.
(** Round trip: every point of bn256 G1, grumpkin, secp256k1, secq256k1, pluto and eris. *)
Theorem C55_six : forall F (o : fops F) c g sc k cf lex, coded_six o c g sc k cf lex ->
  (forall A P, arep o c A P -> c55_for o c k cf lex A) /\ (forall p P, prep o c p P -> c55_proj_for o c k cf lex p P).
Proof.
  intros F o c g sc k cf lex X. destruct (C29_six _ _ _ _ _ _ _ _ X) as [R1 R2]. split.
  - intros A P HA. apply c55_of. exact (R1 A P HA).
  - intros p P Hp. apply c55_proj_of. exact (R2 p P Hp).
Qed.
Print Assumptions C55_six.
(** secp256r1 and bls12-381 G1: points with x <> 0. *)
Theorem C55_x0_partial : forall F (o : fops F) c g sc k cf lex, coded_x0 o c g sc k cf lex ->
  (forall A P, arep o c A P -> (forall y, P <> Some (f0 o, y)) -> c55_for o c k cf lex A)
  /\ (forall p P, prep o c p P -> (forall y, P <> Some (f0 o, y)) -> c55_proj_for o c k cf lex p P).
Proof.
  intros F o c g sc k cf lex X. destruct (C29_x0_partial _ _ _ _ _ _ _ _ X) as [R1 R2]. split.
  - intros A P HA N. apply c55_of. exact (R1 A P HA N).
  - intros p P Hp N. apply c55_proj_of. exact (R2 p P Hp N).
Qed.
Print Assumptions C55_x0_partial.
(** The G2 curves: points whose sign bit tells y from -y. *)
Theorem C55_g2_partial : forall fc Hc o c g sc k cf lex, coded_quad fc Hc o c g sc k cf lex ->
  (forall A P, arep o c A P -> match P with Some (_, y) => sign_clear (lf_ops fc Hc) lex y | None => True end -> c55_for o c k cf lex A)
  /\ (forall p P, prep o c p P -> match P with Some (_, y) => sign_clear (lf_ops fc Hc) lex y | None => True end ->
       c55_proj_for o c k cf lex p P).
Proof.
  intros fc Hc o c g sc k cf lex X. destruct (C29_quad_partial _ _ _ _ _ _ _ _ _ X) as [R1 R2]. split.
  - intros A P HA N. apply c55_of. exact (R1 A P HA N).
  - intros p P Hp N. apply c55_proj_of. exact (R2 p P Hp N).
Qed.
Print Assumptions C55_g2_partial.
Lemma c29_len {F} (o : fops F) c g sc k cf lex : coded_prime o c g sc k cf lex -> forall A P, arep o c A P ->
  (forall y, P <> Some (f0 o, y)) -> exists l, aff_to_bytes o c k cf lex A = Some l /\ length l = csize k cf.
Proof.
  intros [X|X] A P HA N.
  - destruct (proj1 (C29_six _ _ _ _ _ _ _ _ X) A P HA) as (l & E & L & _). exists l. auto.
  - destruct (proj1 (C29_x0_partial _ _ _ _ _ _ _ _ X) A P HA N) as (l & E & L & _). exists l. auto.
Qed.
(** What is accepted, on the eight curves over prime fields: any value gives an answer; an accepted one
    is a point of the curve and spells its encoding; the encoding of a point with x <> 0 is not refused. *)
Theorem C55_accept : forall F (o : fops F) c g sc k cf lex, coded_prime o c g sc k cf lex -> forall h v, sval_ok v ->
  exists r, aff_deserialize o c k cf lex h v = SqRet r /\
    match r with
    | Some A => (exists P, arep o c A P) /\ exists l, aff_to_bytes o c k cf lex A = Some l /\ wire h l v
    | None => forall A P l, arep o c A P -> (forall y, P <> Some (f0 o, y)) -> aff_to_bytes o c k cf lex A = Some l -> ~ wire h l v
    end.
Proof.
  intros F o c g sc k cf lex X h v Hv. unfold aff_deserialize. destruct (de_bytes h (csize k cf) v) as [l|] eqn:E.
  - apply (wire_iff h _ v l Hv) in E as [W L]. pose proof (wire_bytes _ _ _ W) as B.
    destruct (C30_prime _ _ _ _ _ _ _ _ X l B L) as (r & E & S). exists r. split; [exact E|]. destruct r as [A|].
    + destruct S as [SA SB]. split; [exact SA|]. exists l. auto.
    + intros A P l' HA N T W'. apply (S A P HA N). rewrite T. f_equal.
      destruct h; cbn in W, W'; [destruct W as (s & -> & W), W' as (s' & E' & W'); injection E' as <-; exact (hex_text_fun _ _ _ W' W)|].
      destruct W as [-> _], W' as [E' _]. congruence.
  - exists None. split; [reflexivity|]. intros A P l HA N T. apply (wire_none h _ v Hv E).
    pose proof (c29_len _ _ _ _ _ _ _ X A P HA N) as (l' & T' & L). congruence.
Qed.
Print Assumptions C55_accept.
(** On the G2 curves deserialising an untrusted value can panic. *)
Theorem C55_g2_panic_refuted : forall fc Hc o c g sc k cf lex, coded_quad fc Hc o c g sc k cf lex -> forall h,
  exists v, sval_ok v /\ aff_deserialize o c k cf lex h v = SqPanic.
Proof.
  intros fc Hc o c g sc k cf lex X h. destruct (C30_quad_panic_refuted _ _ _ _ _ _ _ _ _ X) as (l & B & L & E).
  exists (ser_bytes h l). split; [destruct h; cbn; auto|]. unfold aff_deserialize. rewrite de_ser by assumption. exact E.
Qed.
Print Assumptions C55_g2_panic_refuted.
(** On bls12-381 G1 and the G2 curves points outside the group of order r are accepted. *)
Lemma outside_serde {F} (o : fops F) c sc k cf lex : outside o c sc k cf lex -> forall h,
  exists v A P, sval_ok v /\ aff_deserialize o c k cf lex h v = SqRet (Some A) /\ arep o c A P /\ pt_mulz o (ca c) (modulus sc) P <> None.
Proof.
  intros (l & A & P & B & L & D & HA & N) h. exists (ser_bytes h l), A, P. split; [destruct h; cbn; auto|].
  unfold aff_deserialize. rewrite de_ser by assumption. auto.
Qed.
Theorem C55_subgroup_refuted :
  (forall Hc h, let o := lf_ops bls12381_fq Hc in let c := curve_of o (lf_inj bls12381_fq Hc) bls_g1_consts in
     exists v A P, sval_ok v /\ aff_deserialize o c (fp_codec bls12381_fq Hc) ThreeSpare true h v = SqRet (Some A)
       /\ arep o c A P /\ pt_mulz o (ca c) (modulus bls12381_fr) P <> None)
  /\ forall fc Hc o c g sc k cf lex, coded_quad fc Hc o c g sc k cf lex -> forall h,
     exists v A P, sval_ok v /\ aff_deserialize o c k cf lex h v = SqRet (Some A) /\ arep o c A P /\ pt_mulz o (ca c) (modulus sc) P <> None.
Proof.
  split.
  - intros Hc h o c. exact (outside_serde _ _ _ _ _ _ (C33_bls_g1_refuted Hc) h).
  - intros fc Hc o c g sc k cf lex X h. exact (outside_serde _ _ _ _ _ _ (C33_quad_refuted _ _ _ _ _ _ _ _ _ X) h).
Qed.
Print Assumptions C55_subgroup_refuted.

(** ** Examples *)
(** 10 in bn256 Fr: "0a" followed by 62 zeros; and the same element from a tuple. *)
Example ex_C55_field :
  fe_serialize bn256_fr true (from_u64 bn256_fr 10) = VStr (48 :: 97 :: repeat 48 62)
  /\ fe_deserialize bn256_fr true (VStr (48 :: 65 :: repeat 48 62)) = Some (from_u64 bn256_fr 10)
  /\ fe_deserialize bn256_fr false (VTuple (10 :: repeat 0 31)) = Some (from_u64 bn256_fr 10)
  /\ fe_deserialize bn256_fr true (VStr (repeat 102 64)) = None
  /\ fe_deserialize bn256_fr true (VStr (48 :: 103 :: repeat 48 62)) = None.
Proof. vm_compute. repeat split. Qed.
Example ex_C55_point : forall Hc, let o := lf_ops bn256_fq Hc in let inj := lf_inj bn256_fq Hc in
  c55_for o (curve_of_bn256_g1 o inj bn256_g1_consts) (fp_codec bn256_fq Hc) TwoSpare false (mk_aff (inj 1) (inj 2)).
Proof.
  intros Hc o inj. pose proof (cs_bn256_g1 Hc) as X. pose proof (coded_six_facts _ _ _ _ _ _ _ X) as CF.
  refine (proj1 (C55_six _ _ _ _ _ _ _ _ X) _ (Some (inj 1, inj 2)) _).
  split; [|split; reflexivity]. exact (proj1 (cf_gen _ _ _ _ (crate_curve_facts _ _ _ _ (cd_crate _ _ _ _ _ _ CF)))).
Qed.
