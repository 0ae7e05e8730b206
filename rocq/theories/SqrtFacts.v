(** Correctness of the square roots of prime fields. *)
From Verif Require Import Base Word Limbs SpecField LimbsFacts Bytes Field FieldFacts Algebra Pow TowerFacts FiniteField PrimeField.
From Verif Require Import Inverse LimbField Sqrt ConstFacts Compute.

(** ** Tonelli-Shanks over a field *)
Section TS.
Context {F : Type} (o : fops F) (H : field_laws o).
Notation "0" := (f0 o). Notation "1" := (f1 o).
Infix "+" := (fadd o). Infix "-" := (fsub o). Infix "*" := (fmul o).
Notation "- x" := (fneg o x).
Notation HR := (fl_rl o H).
Add Ring FRts : (rl_ring _ (fl_rl o H)).

Fixpoint sqn (n : nat) (x : F) : F := match n with O => x | S n' => sqn n' x * sqn n' x end.
Lemma sqn_in n x : sqn (S n) x = sqn n (x * x).
Proof. induction n as [|n IH]; [reflexivity|]. change (sqn (S n) x * sqn (S n) x = sqn (S n) (x * x)). rewrite IH. reflexivity. Qed.
Lemma sqn_add n m x : sqn (n + m) x = sqn n (sqn m x).
Proof. induction n as [|n IH]; [reflexivity|]. cbn [sqn Nat.add]. rewrite IH. reflexivity. Qed.
Lemma sqn_mul n x y : sqn n (x * y) = sqn n x * sqn n y.
Proof. induction n as [|n IH]; [reflexivity|]. cbn [sqn]. rewrite IH. ring. Qed.
Lemma sqn_one n : sqn n 1 = 1.
Proof. induction n as [|n IH]; [reflexivity|]. cbn [sqn]. rewrite IH. ring. Qed.
Lemma sqn_pow n x : sqn n x = fpowz o x (2 ^ Z.of_nat n)%Z.
Proof.
  induction n as [|n IH]; [reflexivity|]. cbn [sqn]. rewrite IH, Nat2Z.inj_succ, Z.pow_succ_r by lia.
  rewrite <- fpowz_add by (apply HR || apply Z.pow_nonneg; lia). f_equal. lia.
Qed.

Lemma eqb1 b : feqb o b 1 = true <-> b = 1.
Proof. apply (fl_eqb _ H). Qed.

(** The inner loop for a [b] whose least [k >= 1] with [b^(2^k) = 1] is [k0]. *)
Definition nsq (k0 v j : nat) : nat := Nat.min (j - 1) (v - 1) - k0.
Lemma inner_spec v b z k0 : (1 <= k0)%nat -> sqn k0 b = 1 -> (forall i, (1 <= i < k0)%nat -> sqn i b <> 1) ->
  (k0 < v \/ k0 = 1 /\ v = 1)%nat ->
  forall n, (2 <= v)%nat ->
  fold_left (ts_inner o (Z.of_nat v)) (map Z.of_nat (seq 2 n)) (1%Z, fsqr o b, z, true)
  = (Z.of_nat (Nat.min (S n) k0), sqn (Nat.min (S n) k0) b,
     sqn (nsq k0 v (S (S n))) z, Nat.ltb (S n) v).
Proof.
  intros Hk E N Hv n H2. induction n as [|n IH].
  - cbn [seq map fold_left]. rewrite (rl_sqr _ HR). replace (Nat.min 1 k0) with 1%nat by lia.
    cbn [sqn]. unfold nsq. replace (Nat.min (2 - 1) (v - 1) - k0)%nat with O by lia. cbn [sqn].
    destruct (Nat.ltb_spec 1 v); [reflexivity|lia].
  - rewrite seq_S, map_app, fold_left_app, IH. cbn [map fold_left ts_inner].
    assert (EL : (Nat.ltb (S n) v && negb (Z.of_nat (2 + n) =? Z.of_nat v))%bool = Nat.ltb (S (S n)) v).
    { destruct (Nat.ltb_spec (S n) v), (Z.eqb_spec (Z.of_nat (2 + n)) (Z.of_nat v)), (Nat.ltb_spec (S (S n)) v); cbn; auto; lia. }
    rewrite EL. destruct (feqb o (sqn (Nat.min (S n) k0) b) 1) eqn:Eq.
    + apply eqb1 in Eq. assert (K : (k0 <= S n)%nat).
      { destruct (Nat.le_gt_cases k0 (S n)); auto. exfalso. apply (N (S n)); [lia|].
        replace (S n) with (Nat.min (S n) k0) by lia. exact Eq. }
      replace (Nat.min (S (S n)) k0) with k0 by lia. replace (Nat.min (S n) k0) with k0 by lia.
      rewrite (rl_sqr _ HR). destruct (Nat.ltb_spec (S (S n)) v).
      * unfold nsq. replace (Nat.min (S (S (S n)) - 1) (v - 1) - k0)%nat with (S (Nat.min (S (S n) - 1) (v - 1) - k0)) by lia.
        reflexivity.
      * unfold nsq. replace (Nat.min (S (S (S n)) - 1) (v - 1) - k0)%nat with (Nat.min (S (S n) - 1) (v - 1) - k0)%nat by lia.
        reflexivity.
    + assert (K : (S n < k0)%nat).
      { destruct (Nat.le_gt_cases k0 (S n)); auto. exfalso.
        replace (Nat.min (S n) k0) with k0 in Eq by lia. rewrite E in Eq.
        rewrite (proj2 (eqb1 1) eq_refl) in Eq. discriminate. }
      replace (Nat.min (S (S n)) k0) with (S (S n)) by lia. replace (Nat.min (S n) k0) with (S n) by lia.
      rewrite (rl_sqr _ HR). unfold nsq.
      replace (Nat.min (S (S (S n)) - 1) (v - 1) - k0)%nat with O by lia.
      replace (Nat.min (S (S n) - 1) (v - 1) - k0)%nat with O by lia.
      destruct (Nat.ltb (S (S n)) v); reflexivity.
Qed.
(** Whatever the state, the inner loop only squares [z] a number of times. *)
Lemma inner_squares v l : forall st, exists n,
  snd (fst (fold_left (ts_inner o v) l st)) = sqn n (snd (fst st)).
Proof.
  induction l as [|j l IH]; intros [[[k b2k] z] less]; cbn [fold_left fst snd].
  - exists O. reflexivity.
  - destruct (IH (ts_inner o v (k, b2k, z, less) j)) as [n ->].
    cbn [ts_inner]. cbn [fst snd]. destruct (less && _)%bool, (feqb o b2k 1); try (exists n; reflexivity).
    exists (S n). rewrite (rl_sqr _ HR), <- sqn_in. reflexivity.
Qed.

Lemma least_k b : forall v, (1 <= v)%nat -> sqn (v - 1) b = 1 -> b <> 1 ->
  exists k0, (1 <= k0 < v)%nat /\ sqn k0 b = 1 /\ sqn (k0 - 1) b <> 1 /\ (forall i, (1 <= i < k0)%nat -> sqn i b <> 1).
Proof.
  assert (G : forall n, sqn n b = 1 -> b <> 1 ->
    exists k0, (1 <= k0 <= n)%nat /\ sqn k0 b = 1 /\ (forall i, (i < k0)%nat -> sqn i b <> 1)).
  { induction n as [|n IH]; intros E Nb; [contradiction|].
    destruct (feqb_dec o H (sqn n b) 1) as [E'|N'].
    - destruct (IH E' Nb) as (k0 & K1 & K2 & K3). exists k0. repeat split; auto; lia.
    - exists (S n). split; [lia|]. split; [exact E|]. intros i Hi Ei.
      apply N'. replace n with (n - i + i)%nat by lia. rewrite sqn_add, Ei. apply sqn_one. }
  intros v Hv E Nb. destruct (G _ E Nb) as (k0 & K1 & K2 & K3). exists k0.
  split; [lia|]. split; [exact K2|]. split; [apply K3; lia|]. intros i Hi. apply K3. lia.
Qed.

Variable f : F.
Hypothesis Hf : f <> 0.
(** Main state of the algorithm, and the state after the root is found. *)
Definition ts_A (m : nat) (st : Z * F * F * F) : Prop :=
  let '(v, x, b, z) := st in exists v', v = Z.of_nat v' /\ (1 <= v' <= m)%nat /\
    x * x = f * b /\ sqn (v' - 1) z = - (1) /\ sqn (v' - 1) b = 1.
Definition ts_B (st : Z * F * F * F) : Prop :=
  let '(v, x, b, z) := st in x * x = f /\ z * z = 1.

Lemma neg1_sq : - (1) * - (1) = 1. Proof. ring. Qed.

Lemma pm_one y : sqn 1 y = 1 -> y <> 1 -> y = - (1).
Proof.
  cbn [sqn]. intros E N. destruct (sqr_eq_cases o H y 1) as [K|K]; auto; [|contradiction].
  rewrite E. ring.
Qed.
Lemma ts_outer_B m st : ts_B st -> ts_B (ts_outer o st m).
Proof.
  destruct st as [[[v x] b] z]. intros [B1 B2]. unfold ts_outer.
  pose proof (inner_squares v (ts_range m) (1%Z, fsqr o b, z, true)) as (n & E).
  destruct (fold_left _ _ _) as [[[k bb] z'] less]. cbn [fst snd] in E. subst z'.
  assert (Z2 : sqn n z * sqn n z = 1).
  { rewrite <- sqn_mul, B2. apply sqn_one. }
  cbn [ts_B]. rewrite (rl_sqr _ HR). split.
  - destruct (feqb o b 1); [exact B1|]. transitivity ((x * x) * (sqn n z * sqn n z)); [ring|]. rewrite B1, Z2. ring.
  - rewrite Z2. ring.
Qed.
Lemma ts_outer_A m st : ts_A (S m) st -> ts_A m (ts_outer o st (S m)) \/ ts_B (ts_outer o st (S m)).
Proof.
  destruct st as [[[v x] b] z]. intros (v' & -> & Hv & A1 & A2 & A3). unfold ts_outer.
  destruct (feqb_dec o H b 1) as [Eb|Nb].
  - (* b = 1: the root is found; z becomes a square root of one *)
    right. subst b. rewrite (proj2 (eqb1 1) eq_refl).
    destruct (Nat.eq_dec v' 1) as [->|Nv].
    + pose proof (inner_squares (Z.of_nat 1) (ts_range (S m)) (1%Z, fsqr o 1, z, true)) as (n & E).
      destruct (fold_left _ _ _) as [[[k bb] z'] less]. cbn [fst snd] in E. subst z'.
      cbn [ts_B]. rewrite (rl_sqr _ HR). cbn [sqn Nat.sub] in A2. subst z.
      assert (Z2 : sqn n (- (1)) * sqn n (- (1)) = 1) by (rewrite <- sqn_mul, neg1_sq; apply sqn_one).
      rewrite Z2. split; [rewrite A1|]; ring.
    + unfold ts_range. rewrite (inner_spec v' 1 z 1); try lia; try (intros; lia).
      2:{ cbn [sqn]. ring. }
      cbn [ts_B]. rewrite (rl_sqr _ HR). split; [rewrite A1; ring|].
      unfold nsq. replace (Nat.min (S (S (S m - 2)) - 1) (v' - 1) - 1)%nat with (v' - 2)%nat by lia.
      change (sqn 2 (sqn (v' - 2) z) = 1). rewrite <- sqn_add.
      replace (2 + (v' - 2))%nat with (S (v' - 1)) by lia. cbn [sqn]. rewrite A2. ring.
  - destruct (least_k b v') as (k0 & K1 & K2 & K3 & K4); try lia; auto.
    left. unfold ts_range. rewrite (inner_spec v' b z k0); try lia; auto.
    destruct (feqb o b 1) eqn:Q; [apply eqb1 in Q; contradiction|].
    unfold nsq. replace (Nat.min (S (S (S m - 2)) - 1) (v' - 1) - k0)%nat with (v' - 1 - k0)%nat by lia.
    replace (Nat.min (S (S m - 2)) k0) with k0 by lia.
    cbn [ts_A]. exists k0. rewrite (rl_sqr _ HR).
    assert (Z1 : sqn (k0 - 1) (sqn (v' - 1 - k0) z * sqn (v' - 1 - k0) z) = - (1)).
    { rewrite <- sqn_in, <- sqn_add. replace (S (k0 - 1) + (v' - 1 - k0))%nat with (v' - 1)%nat by lia. exact A2. }
    split; [reflexivity|]. split; [lia|]. split.
    { transitivity ((x * x) * (sqn (v' - 1 - k0) z * sqn (v' - 1 - k0) z)); [ring|]. rewrite A1. ring. }
    split; [exact Z1|].
    rewrite sqn_mul, Z1.
    assert (B1 : sqn (k0 - 1) b = - (1)).
    { apply pm_one; auto. rewrite <- sqn_add. replace (1 + (k0 - 1))%nat with k0 by lia. exact K2. }
    rewrite B1. ring.
Qed.
Lemma ts_loop m : forall st, ts_A m st \/ ts_B st -> ts_B (fold_left (ts_outer o) (rev (seq 1 m)) st).
Proof.
  induction m as [|m IH]; intros st Hst.
  - cbn [seq rev fold_left]. destruct Hst as [A|B]; [|exact B]. exfalso.
    destruct st as [[[v x] b] z]. destruct A as (v' & _ & Hv & _). lia.
  - rewrite seq_S, rev_app_distr. cbn [rev app fold_left Nat.add]. apply IH.
    destruct Hst as [A|B]; [apply ts_outer_A; exact A|right; apply ts_outer_B; exact B].
Qed.
End TS.

Section TSfinal.
Context {F : Type} (o : fops F) (H : field_laws o) (q : Z) (HF : finite_field o q).
Hypothesis H2 : fadd o (f1 o) (f1 o) <> f0 o.
Notation HR := (fl_rl o H).
Add Ring FRtf : (rl_ring _ (fl_rl o H)).

Lemma ts_zero l : forall st, (let '(v, x, b, z) := st in x = f0 o) ->
  let '(v, x, b, z) := fold_left (ts_outer o) l st in x = f0 o.
Proof.
  induction l as [|m l IH]; intros [[[v x] b] z] E; cbn [fold_left]; [exact E|].
  apply IH. unfold ts_outer. destruct (fold_left (ts_inner o v) _ _) as [[[k bb] z'] less].
  rewrite E. destruct (feqb o b (f1 o)); [reflexivity|ring].
Qed.

Theorem tonelli_shanks_spec s root tm1d2 t f : (1 <= s)%nat ->
  (q - 1 = 2 ^ Z.of_nat s * t)%Z -> words tm1d2 -> (0 <= eval tm1d2)%Z -> (t = 2 * eval tm1d2 + 1)%Z ->
  sqn o (s - 1) root = fneg o (f1 o) ->
  match sqrt_tonelli_shanks o s root tm1d2 f with
  | Some r => fmul o r r = f
  | None => ~ is_square o f
  end.
Proof.
  intros Hs Hq Wt Ht Et Hroot. unfold sqrt_tonelli_shanks.
  set (w := fpow o f tm1d2).
  destruct (fold_left _ _ _) as [[[v x] b] z] eqn:E.
  destruct (feqb o (fmul o x x) f) eqn:Q; [apply (fl_eqb _ H); exact Q|].
  intros Hsq.
  assert (N : fmul o x x <> f). { intros K. apply (fl_eqb _ H) in K. congruence. }
  apply N. destruct (feqb_dec o H f (f0 o)) as [Z0|NZ].
  - pose proof (ts_zero (rev (seq 1 s)) (Z.of_nat s, fmul o w f, fmul o (fmul o w f) w, root)) as K.
    rewrite E in K. rewrite K, Z0; [ring|]. rewrite Z0. ring.
  - assert (W1 : w = fpowz o f (eval tm1d2)) by (apply fpow_spec; auto; apply HR).
    assert (B : fmul o (fmul o w f) w = fpowz o f t).
    { rewrite W1, Et. replace (2 * eval tm1d2 + 1)%Z with (eval tm1d2 + (eval tm1d2 + 1))%Z by lia.
      rewrite fpowz_add, fpowz_succ by (apply HR || lia). ring. }
    pose proof (ts_loop o H f s (Z.of_nat s, fmul o w f, fmul o (fmul o w f) w, root)) as K.
    rewrite E in K. destruct K as [K _]; [|exact K]. left. exists s.
    split; [reflexivity|]. split; [lia|]. split; [ring|]. split; [exact Hroot|].
    rewrite B, sqn_pow by exact H. rewrite <- fpowz_mul by (apply HR || (try apply Z.pow_nonneg; lia)).
    replace (t * 2 ^ Z.of_nat (s - 1))%Z with ((q - 1) / 2)%Z.
    + apply (proj2 (euler o H q HF H2 f NZ)). exact Hsq.
    + rewrite Hq. replace (Z.of_nat s) with (Z.of_nat (s - 1) + 1)%Z by lia.
      rewrite Z.pow_add_r, Z.pow_1_r by lia.
      replace (2 ^ Z.of_nat (s - 1) * 2 * t)%Z with (t * 2 ^ Z.of_nat (s - 1) * 2)%Z by ring.
      apply Z.div_mul. lia.
Qed.

Theorem sqrt_3mod4_spec e f : (q mod 4 = 3)%Z -> words e -> (eval e = (q + 1) / 4)%Z ->
  let t := fpow o f e in
  match (if feqb o (fsqr o t) f then Some t else None) with
  | Some r => fmul o r r = f
  | None => ~ is_square o f
  end.
Proof.
  intros Hq We Ee t. destruct (feqb o (fsqr o t) f) eqn:Q.
  - apply (fl_eqb _ H) in Q. rewrite (rl_sqr _ HR) in Q. exact Q.
  - intros Hsq. assert (N : fmul o t t <> f).
    { intros K. rewrite <- (rl_sqr _ HR) in K. apply (fl_eqb _ H) in K. congruence. }
    apply N. unfold t. rewrite fpow_spec by (auto; apply HR). rewrite Ee.
    pose proof (card_gt_1 o H q HF) as Q1. pose proof (Z.div_mod q 4 ltac:(lia)) as D. rewrite Hq in D.
    set (k := (q / 4)%Z) in *. assert (0 <= k)%Z by (unfold k; apply Z.div_pos; lia).
    replace ((q + 1) / 4)%Z with (k + 1)%Z.
    2:{ rewrite D. replace (4 * k + 3 + 1)%Z with ((k + 1) * 4)%Z by ring. symmetry. apply Z.div_mul. lia. }
    destruct (feqb_dec o H f (f0 o)) as [Z0|NZ].
    + rewrite Z0, fpowz_zero by (apply HR || lia). ring.
    + apply (proj2 (euler o H q HF H2 f NZ)) in Hsq.
      replace ((q - 1) / 2)%Z with (2 * k + 1)%Z in Hsq.
      2:{ rewrite D. replace (4 * k + 3 - 1)%Z with ((2 * k + 1) * 2)%Z by ring. symmetry. apply Z.div_mul. lia. }
      rewrite <- fpowz_add by (apply HR || lia).
      replace (k + 1 + (k + 1))%Z with (2 * k + 1 + 1)%Z by lia.
      rewrite fpowz_succ, Hsq by (apply HR || lia). ring.
Qed.
End TSfinal.

(** ** Transport along embeddings of operation records *)
Record fembed {F G : Type} (o : fops F) (o' : fops G) (phi : F -> G) : Prop := {
  fe_hom : fhom o o' phi;
  fe_eqb_ : forall a b, feqb o' (phi a) (phi b) = feqb o a b;
  fe_is0_ : forall a, fis0 o' (phi a) = fis0 o a;
  fe_inv_ : forall a, finv o' (phi a) = option_map phi (finv o a) }.

Section Embed.
Context {F G : Type} (o : fops F) (o' : fops G) (phi : F -> G) (HE : fembed o o' phi).
Notation Hf := (fe_hom _ _ _ HE).

Lemma embed_fpow_bits x l : forall acc, phi (fpow_bits o x acc l) = fpow_bits o' (phi x) (phi acc) l.
Proof.
  induction l as [|b l IH]; intros acc; cbn [fpow_bits]; [reflexivity|]. cbv zeta.
  rewrite IH. destruct b; rewrite ?(fh_mul _ _ _ Hf), (fh_sqr _ _ _ Hf); reflexivity.
Qed.
Lemma embed_fpow x l : phi (fpow o x l) = fpow o' (phi x) l.
Proof. unfold fpow. rewrite embed_fpow_bits, (fh_1 _ _ _ Hf). reflexivity. Qed.

Definition imap (st : Z * F * F * bool) : Z * G * G * bool :=
  let '(k, b, z, l) := st in (k, phi b, phi z, l).
Lemma embed_inner v l : forall st, fold_left (ts_inner o' v) l (imap st) = imap (fold_left (ts_inner o v) l st).
Proof.
  induction l as [|j l IH]; intros st; cbn [fold_left]; [reflexivity|]. rewrite <- IH. f_equal.
  destruct st as [[[k b] z] less]. cbn [imap ts_inner]. rewrite <- (fh_1 _ _ _ Hf), (fe_eqb_ _ _ _ HE).
  destruct (feqb o b (f1 o)); rewrite <- (fh_sqr _ _ _ Hf); destruct (less && _)%bool; reflexivity.
Qed.
Definition omap (st : Z * F * F * F) : Z * G * G * G :=
  let '(v, x, b, z) := st in (v, phi x, phi b, phi z).
Lemma embed_outer l : forall st, fold_left (ts_outer o') l (omap st) = omap (fold_left (ts_outer o) l st).
Proof.
  induction l as [|j l IH]; intros st; cbn [fold_left]; [reflexivity|]. rewrite <- IH. f_equal.
  destruct st as [[[v x] b] z]. cbn [omap ts_outer].
  rewrite <- (fh_sqr _ _ _ Hf). change (1, phi (fsqr o b), phi z, true) with (imap (1, fsqr o b, z, true)).
  rewrite embed_inner. destruct (fold_left (ts_inner o v) _ _) as [[[k bb] z'] less]. cbn [imap].
  rewrite <- (fh_1 _ _ _ Hf), (fe_eqb_ _ _ _ HE), <- (fh_sqr _ _ _ Hf), <- !(fh_mul _ _ _ Hf).
  destruct (feqb o b (f1 o)); reflexivity.
Qed.
Lemma embed_ts s root e f :
  sqrt_tonelli_shanks o' s (phi root) e (phi f) = option_map phi (sqrt_tonelli_shanks o s root e f).
Proof.
  unfold sqrt_tonelli_shanks. rewrite <- embed_fpow, <- !(fh_mul _ _ _ Hf).
  match goal with |- context [fold_left (ts_outer o') ?l (?v, phi ?x, phi ?b, phi ?z)] =>
    change (v, phi x, phi b, phi z) with (omap (v, x, b, z)) end.
  rewrite embed_outer. destruct (fold_left (ts_outer o) _ _) as [[[v x] b] z]. cbn [omap].
  rewrite <- (fh_mul _ _ _ Hf), (fe_eqb_ _ _ _ HE). destruct (feqb o _ f); reflexivity.
Qed.
Lemma embed_sqrt_with c root f :
  sqrt_with c o' (phi root) (phi f) = option_map (option_map phi) (sqrt_with c o root f).
Proof.
  unfold sqrt_with. destruct (_ =? 1).
  - rewrite embed_ts. reflexivity.
  - destruct (_ =? 3); [|reflexivity]. cbv zeta. rewrite <- embed_fpow, <- (fh_sqr _ _ _ Hf), (fe_eqb_ _ _ _ HE).
    destruct (feqb o _ f); reflexivity.
Qed.
End Embed.

Section LFembed.
Variable c : fconf.
Hypothesis Hc : odd_conf c.
Hypothesis Hs : sized c.
Lemma lf_embed : prime (modulus c) -> fembed (lf_ops c Hc) (fe_ops c) limbs.
Proof.
  intros Hp. constructor; [constructor|..]; intros; cbn [f0 f1 fadd fsub fmul fneg fsqr fdbl finv feqb fis0 lf_ops fe_ops].
  - reflexivity.
  - eapply repr_val; auto. apply (fe_one_repr c Hc).
  - eapply repr_val; auto. apply (fe_add_repr c Hc); apply (lf_repr c Hc).
  - eapply repr_val; auto. apply (fe_sub_repr c Hc); apply (lf_repr c Hc).
  - eapply repr_val; auto. apply (fe_mul_repr c Hc); apply (lf_repr c Hc).
  - eapply repr_val; auto. apply (fe_neg_repr c Hc); apply (lf_repr c Hc).
  - eapply repr_val; auto. apply (fe_square_repr c Hc); apply (lf_repr c Hc).
  - eapply repr_val; auto. apply (fe_double_repr c Hc); apply (lf_repr c Hc).
  - reflexivity.
  - reflexivity.
  - destruct (fe_invert_prime c Hc Hs Hp _ _ (lf_repr c Hc a)) as [I0 I1].
    destruct (Z.eq_dec (lf_val c a) 0) as [E|E].
    + rewrite (I0 E). reflexivity.
    + destruct (I1 E) as (i & y & -> & Hy & _). cbn [option_map]. f_equal. symmetry. eapply repr_val; eauto.
Qed.

(** ** [sqrt] of the generated fields *)
Definition sqrt_supported : Prop := modulus c mod 16 = 1 \/ modulus c mod 4 = 3.
Hypothesis Hp : prime (modulus c).
Hypothesis Hg : mul_gen c ^ ((modulus c - 1) / 2) mod modulus c = modulus c - 1.
Hypothesis Hsup : sqrt_supported.
Notation p := (modulus c).
Notation repr := (represents (num_limbs c) (modulus c)).

Lemma tm1o2_spec : tm1o2 c = (odd_part c - 1) / 2 /\ 0 <= tm1o2 c < p /\ odd_part c = 2 * tm1o2 c + 1.
Proof.
  destruct (adicity c Hc) as (A1 & A2 & A3 & A4). pose proof (p_gt2 c Hc) as P2.
  pose proof (two_inverse c Hc Hp) as T2.
  assert (O : odd_part c = 2 * ((odd_part c - 1) / 2) + 1).
  { assert (M : odd_part c mod 2 = 1) by (rewrite Zmod_odd, A4; reflexivity).
    pose proof (Z.div_mod (odd_part c) 2 ltac:(lia)) as D. rewrite M in D.
    rewrite D at 2. replace (2 * (odd_part c / 2) + 1 - 1) with (odd_part c / 2 * 2) by ring. rewrite Z.div_mul by lia. lia. }
  set (h := (odd_part c - 1) / 2) in *.
  assert (Hh : 0 <= h < p).
  { split; [apply Z.div_pos; lia|]. assert (odd_part c <= p - 1); [|lia].
    rewrite A3. assert (0 < 2 ^ two_adicity c) by (apply Z.pow_pos_nonneg; lia). nia. }
  assert (E : tm1o2 c = h).
  { unfold tm1o2. rewrite O. replace ((2 * h + 1 - 1) * two_inv_int c) with (h * (2 * two_inv_int c)) by ring.
    rewrite Zmult_mod, T2, Z.mul_1_r, Zmod_mod. apply Z.mod_small. lia. }
  rewrite E. repeat split; try lia.
Qed.
Lemma sqrt_with_spec {F} (o : fops F) inj : prime_field p o inj -> forall root f,
  root = inj (root_of_unity_int c) ->
  exists r, sqrt_with c o root f = Some r /\
  match r with Some r => fmul o r r = f | None => ~ is_square o f end.
Proof.
  intros HF root f ->. pose proof (pf_laws _ _ _ HF) as HL. pose proof (prime_field_finite _ _ _ HF) as FF.
  pose proof (p_gt2 c Hc) as P2. pose proof (pf_two _ _ _ HF P2) as H2.
  destruct (adicity c Hc) as (A1 & A2 & A3 & A4). destruct tm1o2_spec as (T1 & T2 & T3).
  unfold sqrt_with. destruct (Z.eqb_spec (p mod 16) 1) as [E16|N16].
  - eexists. split; [reflexivity|].
    destruct (token_canon c Hc (tm1o2 c) T2) as [(C1 & C2 & C3) C4].
    apply (tonelli_shanks_spec o HL p FF H2 (Z.to_nat (two_adicity c)) _ _ (odd_part c)); auto; try lia.
    + rewrite Z2Nat.id by lia. exact A3.
    + rewrite sqn_pow by exact HL. rewrite pf_pow with (p := p) by (auto; apply Z.pow_nonneg; lia).
      replace (Z.of_nat (Z.to_nat (two_adicity c) - 1)) with (two_adicity c - 1) by lia.
      rewrite (root_half c Hc Hg). rewrite <- (pf_mod _ _ _ HF).
      replace ((p - 1) mod p) with ((- (1)) mod p).
      * rewrite (pf_mod _ _ _ HF), (inj_neg o (fl_rl _ HL) inj (pf_hom _ _ _ HF)), (zh_1 _ _ (pf_hom _ _ _ HF)). reflexivity.
      * replace (p - 1) with (- (1) + 1 * p) by lia. rewrite Z_mod_plus_full. reflexivity.
  - destruct Hsup as [|E4]; [contradiction|]. rewrite E4. cbn [Z.eqb]. change (3 =? 3) with true. cbv iota.
    eexists. split; [reflexivity|].
    assert (B : Z.shiftr (p + 1) 2 = (p + 1) / 4) by (rewrite Z.shiftr_div_pow2 by lia; reflexivity).
    assert (B2 : 0 <= (p + 1) / 4 < p).
    { split; [apply Z.div_pos; lia|apply Z.div_lt_upper_bound; lia]. }
    rewrite B. destruct (token_canon c Hc ((p + 1) / 4) B2) as [(C1 & C2 & C3) C4].
    exact (sqrt_3mod4_spec o HL p FF H2 _ f E4 C2 C4).
Qed.

Theorem fe_sqrt_spec : forall a x, repr a x ->
  exists r, fe_sqrt c a = Some r /\
  match r with
  | Some s => exists y, repr s y /\ (y * y) mod p = x
  | None => forall y, (y * y) mod p <> x
  end.
Proof.
  intros a x Ha. pose proof (lf_embed Hp) as HE.
  pose proof (lf_prime_field c Hc Hs Hp) as HF.
  destruct (repr_val c Hc (lf0 c Hc) a x Ha) as [V1 V2]. set (f := lf_of (lf0 c Hc) a) in *.
  pose proof (const_repr c Hc (root_of_unity_int c)) as HRt.
  destruct (repr_val c Hc (lf0 c Hc) _ _ HRt) as [W1 W2].
  destruct (sqrt_with_spec (lf_ops c Hc) (lf_inj c Hc) HF (lf_inj c Hc (root_of_unity_int c)) f eq_refl) as (r & E & R).
  unfold fe_sqrt. rewrite <- V2. change (ROOT_OF_UNITY c) with (to_token c (mont c (root_of_unity_int c))).
  rewrite <- W2. fold (lf_inj c Hc (root_of_unity_int c)).
  rewrite (embed_sqrt_with _ _ _ HE), E. cbn [option_map]. eexists. split; [reflexivity|].
  pose proof (lf_zrep c Hc Hs Hp) as ZR. pose proof (repr_bound c _ _ Ha) as Bx.
  destruct r as [s|]; cbn [option_map].
  - exists (lf_val c s). split; [apply (lf_repr c Hc)|].
    rewrite <- (zr_mul _ _ _ _ ZR), R. exact V1.
  - intros y Ey. apply R. exists (lf_inj c Hc y).
    apply (zr_ext _ _ _ _ ZR). rewrite (zr_mul _ _ _ _ ZR), (zr_val_inj _ _ _ _ ZR).
    rewrite <- Zmult_mod, Ey, V1. reflexivity.
Qed.
End LFembed.
