(** [expand_message] computes expand_message_xmd. *)
From Verif Require Import Base Hash SpecField SpecHash BytesFacts.

Lemma zip_write_spec : forall dst src,
  zip_write dst src = firstn (length dst) src ++ skipn (length src) dst.
Proof.
  induction dst as [|a dst IH]; intros [|b src]; cbn [zip_write length firstn skipn app]; auto.
  now rewrite IH.
Qed.
Lemma zip_write_length : forall dst src, length (zip_write dst src) = length dst.
Proof. induction dst as [|a dst IH]; intros [|b src]; cbn [zip_write length]; auto. Qed.
Lemma write_skip_length : forall out k src, length (write_skip out k src) = length out.
Proof.
  intros. unfold write_skip. rewrite app_length, zip_write_length, firstn_length, skipn_length. lia.
Qed.
Lemma zip_xor_spec : forall a b, zip_xor a b = strxor a b.
Proof.
  unfold strxor. induction a as [|x a IH]; intros [|y b]; cbn [zip_xor combine map fst snd]; auto.
  now rewrite IH.
Qed.
(** Writing a block that fits right after the part already written. *)
Lemma write_block : forall out k src, (k + length src <= length out)%nat ->
  firstn (k + length src) (write_skip out k src) = firstn k out ++ src.
Proof.
  intros out k src H. unfold write_skip. rewrite zip_write_spec.
  assert (K : length (firstn k out) = k) by (rewrite firstn_length; lia).
  replace (k + length src)%nat with (length (firstn k out) + length src)%nat by lia.
  rewrite firstn_app_2. f_equal. rewrite firstn_app, (firstn_all2 src) by (rewrite skipn_length; lia).
  now rewrite firstn_all, Nat.sub_diag, firstn_O, app_nil_r.
Qed.
(** Writing the last block. *)
Lemma write_last : forall out k src, (k <= length out)%nat -> (length out - k <= length src)%nat ->
  write_skip out k src = firstn (length out) (firstn k out ++ src).
Proof.
  intros out k src H1 H2. unfold write_skip. rewrite zip_write_spec, skipn_length.
  rewrite (skipn_all2 (skipn k out)) by (rewrite skipn_length; lia). rewrite app_nil_r.
  rewrite firstn_app. f_equal; [symmetry; apply firstn_all2; rewrite firstn_length; lia|].
  f_equal. rewrite firstn_length. lia.
Qed.

Lemma I2OSP_1 : forall x, I2OSP x 1 = [x mod 256]. Proof. reflexivity. Qed.
Lemma I2OSP_0 : forall n, I2OSP 0 n = repeat 0 n.
Proof.
  induction n; [reflexivity|]. cbn [I2OSP]. rewrite Zdiv_0_l, Zmod_0_l, IHn.
  clear. induction n; [reflexivity|]. cbn [repeat app]. now rewrite IHn.
Qed.

Section Facts.
Variable D : digest.
Hypothesis Hlen : forall m, length (hash D m) = output_size D.
Hypothesis Hpos : (0 < output_size D)%nat.
Variables prefix domain : list Z.
Notation DST := (prefix ++ domain).
Notation os := (output_size D).
Notation b0_of := (xmd_b0 (hash D) (block_size D)).
Notation blk := (xmd_b (hash D)).

Lemma dst_tail_eq : dst_tail prefix domain = DST_prime DST.
Proof.
  unfold dst_tail, DST_prime. rewrite I2OSP_1, app_length, Nat.add_comm, <- app_assoc. reflexivity.
Qed.
Lemma blk_length : forall b0 i, length (blk b0 DST i) = os.
Proof. intros b0 [|i]; apply Hlen. Qed.
Lemma blocks_length : forall b0 l, length (concat (map (blk b0 DST) l)) = (length l * os)%nat.
Proof.
  intros b0. induction l as [|i l IH]; [reflexivity|]. cbn [map concat length].
  rewrite app_length, IH, blk_length. lia.
Qed.

Lemma expand_loop_spec : forall b0 m k out, (k + m <= 254)%nat ->
  ((k + m) * os < length out)%nat ->
  firstn (k * os) out = concat (map (blk b0 DST) (seq 0 k)) ->
  exists out', expand_loop D prefix domain b0 (seq (S k) m) (blk b0 DST k) out = Some (blk b0 DST (k + m), out') /\
  length out' = length out /\ firstn ((k + m) * os) out' = concat (map (blk b0 DST) (seq 0 (k + m))).
Proof.
  intros b0 m. induction m as [|m IH]; intros k out Hk Ho Hf.
  - exists out. rewrite Nat.add_0_r. cbn [seq expand_loop]. auto.
  - cbn [seq expand_loop].
    replace (256 <=? 1 + as_u8 (S k)) with false.
    2:{ symmetry. apply Z.leb_gt. unfold as_u8. rewrite Z.mod_small by lia. lia. }
    replace ((S k - 1) * os)%nat with (k * os)%nat by lia.
    replace (hash D (zip_xor b0 (blk b0 DST k) ++ [1 + as_u8 (S k)] ++ dst_tail prefix domain))
      with (blk b0 DST (S k)).
    2:{ cbn [xmd_b]. rewrite zip_xor_spec, dst_tail_eq, I2OSP_1. do 4 f_equal.
        unfold as_u8. rewrite !Z.mod_small by lia. lia. }
    destruct (IH (S k) (write_skip out (k * os) (blk b0 DST k))) as (out' & E1 & E2 & E3).
    + lia.
    + rewrite write_skip_length. replace (S k + m)%nat with (k + S m)%nat by lia. exact Ho.
    + replace (S k * os)%nat with (k * os + length (blk b0 DST k))%nat by (rewrite blk_length; lia).
      rewrite write_block by (rewrite blk_length; nia).
      rewrite Hf, seq_S, map_app, concat_app. cbn [map concat]. now rewrite app_nil_r.
    + replace (k + S m)%nat with (S k + m)%nat by lia.
      exists out'. split; [exact E1|]. split; [|exact E3]. now rewrite E2, write_skip_length.
Qed.

Lemma ell_eq : forall len, (0 < len)%nat ->
  ((len + os - 1) / os)%nat = xmd_ell os len /\ (1 <= xmd_ell os len)%nat /\
  ((xmd_ell os len - 1) * os < len <= xmd_ell os len * os)%nat.
Proof using Hpos.
  intros len Hl. clear - Hl Hpos. unfold xmd_ell.
  pose proof (Nat.div_mod len os ltac:(lia)) as DM. pose proof (Nat.mod_upper_bound len os ltac:(lia)) as MB.
  set (q := (len / os)%nat) in *. set (r := (len mod os)%nat) in *. clearbody q r.
  destruct (Nat.eqb_spec r 0) as [R|R].
  - assert (1 <= q)%nat by nia. split; [|split; nia].
    symmetry. apply Nat.div_unique with (os - 1)%nat; nia.
  - split; [|split; nia]. symmetry. apply Nat.div_unique with (r - 1)%nat; nia.
Qed.

Theorem expand_message_spec : forall msg len, (0 < len)%nat -> xmd_supported os DST len ->
  expand_message D prefix domain msg len =
  Some (expand_message_xmd (hash D) os (block_size D) msg DST len).
Proof.
  intros msg len Hl (S1 & S2 & S3). unfold expand_message.
  rewrite app_length in S3.
  replace (length prefix + length domain <? 256)%nat with true by (symmetry; apply Nat.ltb_lt; lia).
  replace (os =? 0)%nat with false by (symmetry; apply Nat.eqb_neq; lia).
  cbn [negb]. destruct (ell_eq len Hl) as (E & E1 & E2). rewrite E.
  set (ell := xmd_ell os len) in *.
  replace (hash D (repeat 0 (block_size D) ++ msg ++ [as_u8 (len / 256); as_u8 len; 0] ++ dst_tail prefix domain))
    with (b0_of msg DST len).
  2:{ unfold xmd_b0. rewrite I2OSP_0, dst_tail_eq. cbn [I2OSP app].
      unfold as_u8. rewrite Nat2Z.inj_div. reflexivity. }
  set (b0 := b0_of msg DST len).
  change (hash D (b0 ++ [1] ++ dst_tail prefix domain)) with (hash D (b0 ++ I2OSP 1 1 ++ dst_tail prefix domain)).
  rewrite dst_tail_eq. change (hash D (b0 ++ I2OSP 1 1 ++ DST_prime DST)) with (blk b0 DST 0).
  destruct (expand_loop_spec b0 (ell - 1) 0 (repeat 0 len)) as (out' & L1 & L2 & L3).
  - lia.
  - rewrite repeat_length. exact (proj1 E2).
  - reflexivity.
  - rewrite L1. replace (ell =? 0)%nat with false by (symmetry; apply Nat.eqb_neq; lia).
    f_equal. rewrite repeat_length in L2. cbn [Nat.add] in *.
    rewrite write_last; [|lia|rewrite blk_length; nia]. rewrite L2, L3.
    unfold expand_message_xmd. fold b0 ell. replace (seq 0 ell) with (seq 0 (S (ell - 1))) by (f_equal; lia).
    rewrite seq_S, map_app, concat_app. cbn [map concat Nat.add]. now rewrite app_nil_r.
Qed.

Lemma xmd_length : forall msg len, (0 < len)%nat ->
  length (expand_message_xmd (hash D) os (block_size D) msg DST len) = len.
Proof.
  intros msg len Hl. unfold expand_message_xmd. rewrite firstn_length, blocks_length, seq_length.
  destruct (ell_eq len Hl) as (_ & _ & E). lia.
Qed.

Hypothesis Hbytes : forall m, is_bytes (hash D m).
Lemma xmd_bytes : forall msg len, is_bytes (expand_message_xmd (hash D) os (block_size D) msg DST len).
Proof.
  intros msg len. unfold expand_message_xmd. generalize (b0_of msg DST len). intros b0.
  apply is_bytes_firstn. apply Forall_concat. apply Forall_map. apply Forall_forall. intros [|i] _; apply Hbytes.
Qed.

(** The two chunks of [hash_to_field]. *)
Theorem hash_to_field_spec : forall F (from_uniform : list Z -> F) L msg,
  (0 < L)%nat -> xmd_supported os DST (L * 2) ->
  let u := expand_message_xmd (hash D) os (block_size D) msg DST (L * 2) in
  hash_to_field D prefix domain from_uniform L msg =
  Some (from_uniform (rev (firstn L u)), from_uniform (rev (skipn L u))).
Proof.
  intros F fu L msg HL HS u. unfold hash_to_field.
  rewrite expand_message_spec by (auto; lia). fold u. do 2 f_equal.
  f_equal. f_equal. apply firstn_all2. rewrite skipn_length. unfold u. rewrite xmd_length by lia. lia.
Qed.
End Facts.

(** More than 255 blocks: the counter overflows. *)
Lemma expand_loop_overflow D prefix domain b0 : forall m k b out, (k <= 254 < k + m)%nat ->
  expand_loop D prefix domain b0 (seq (S k) m) b out = None.
Proof.
  induction m as [|m IH]; intros k b out H; [lia|]. cbn [seq expand_loop].
  destruct (Nat.eq_dec k 254) as [->|N].
  - reflexivity.
  - destruct (256 <=? 1 + as_u8 (S k)); [reflexivity|]. apply IH. lia.
Qed.
Theorem expand_message_panics D prefix domain msg len :
  (length prefix + length domain > 255)%nat \/ output_size D = 0%nat \/ len = 0%nat \/
  (255 < (len + output_size D - 1) / output_size D)%nat -> expand_message D prefix domain msg len = None.
Proof.
  unfold expand_message. intros H.
  destruct (Nat.ltb_spec (length prefix + length domain) 256) as [L|L]; [|reflexivity]. cbn [negb].
  destruct (Nat.eqb_spec (output_size D) 0) as [O|O]; [reflexivity|].
  destruct H as [H|[H|[H|H]]]; [lia|lia| |].
  - subst len. rewrite (Nat.div_small (0 + output_size D - 1)) by lia. reflexivity.
  - rewrite expand_loop_overflow by lia. reflexivity.
Qed.
