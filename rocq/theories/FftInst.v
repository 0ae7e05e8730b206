(** [best_fft] on the limb representation of the prime fields and on projective
    curve points. *)
From Verif Require Import Base Algebra TowerFacts Pow PrimeField SpecField Limbs Word Field FieldFacts LimbField Group Fft FftFacts.
From Verif Require Import SpecCurve SpecCurveFacts Curve CurveFacts CurveGroup BytesFacts.
From Coq Require Import Arith Lia.
Local Open Scope nat_scope.

(** ** The transform commutes with any representation of the elements *)
Definition orel {A B} (R : A -> B -> Prop) (x : option A) (y : option B) : Prop :=
  match x, y with Some a, Some b => R a b | None, None => True | _, _ => False end.
Lemma orel_bind {A B A' B'} (R : A -> A' -> Prop) (Q : B -> B' -> Prop) x x' f f' :
  orel R x x' -> (forall a a', R a a' -> orel Q (f a) (f' a')) -> orel Q (bindo x f) (bindo x' f').
Proof. destruct x, x'; cbn; intros E K; auto; contradiction. Qed.

Section Refine.
Context {G Sc M T : Type} (o : fft_ops G Sc) (o' : fft_ops M T) (RG : G -> M -> Prop) (RS : Sc -> T -> Prop).
Hypothesis Ra : forall a a' b b', RG a a' -> RG b b' -> RG (tadd o a b) (tadd o' a' b').
Hypothesis Rs : forall a a' b b', RG a a' -> RG b b' -> RG (tsub o a b) (tsub o' a' b').
Hypothesis Rsc : forall a a' s s', RG a a' -> RS s s' -> RG (tscale o a s) (tscale o' a' s').
Hypothesis R1 : RS (sone o) (sone o').
Hypothesis Rm : forall s s' t t', RS s s' -> RS t t' -> RS (smul o s t) (smul o' s' t').
Notation RL := (Forall2 RG).

Lemma f2_nth {A B} (R : A -> B -> Prop) l l' i : Forall2 R l l' -> orel R (nth_error l i) (nth_error l' i).
Proof. intros F. revert i. induction F; intros [|i]; cbn; auto. Qed.
Lemma f2_set {A B} (R : A -> B -> Prop) l l' x x' : Forall2 R l l' -> R x x' -> forall i, Forall2 R (set_nth l i x) (set_nth l' i x').
Proof. intros F X. induction F; intros [|i]; cbn; constructor; auto. Qed.
Lemma f2_firstn {A B} (R : A -> B -> Prop) l l' : Forall2 R l l' -> forall i, Forall2 R (firstn i l) (firstn i l').
Proof. intros F. induction F; intros [|i]; cbn; constructor; auto. Qed.
Lemma f2_skipn {A B} (R : A -> B -> Prop) l l' : Forall2 R l l' -> forall i, Forall2 R (skipn i l) (skipn i l').
Proof. intros F. induction F; intros [|i]; cbn; try constructor; auto. Qed.
Lemma f2_len {A B} (R : A -> B -> Prop) l l' : Forall2 R l l' -> length l = length l'.
Proof. induction 1; cbn; auto. Qed.

Lemma r_swap l l' i j : RL l l' -> orel RL (swap l i j) (swap l' i j).
Proof.
  intros F. unfold swap. pose proof (f2_nth RG _ _ i F) as E1. pose proof (f2_nth RG _ _ j F) as E2.
  destruct (nth_error l i), (nth_error l' i); cbn in E1; try contradiction; cbn; auto.
  destruct (nth_error l j), (nth_error l' j); cbn in E2; try contradiction; cbn; auto.
  apply f2_set; auto. apply f2_set; auto.
Qed.
Lemma r_permute l l' k : RL l l' -> orel RL (permute l k) (permute l' k).
Proof.
  intros F. unfold permute. rewrite (f2_len _ _ _ F).
  assert (A : forall is x x', orel RL x x' ->
    orel RL (fold_left (fun acc k0 => bindo acc (fun l0 => if Nat.ltb k0 (bitreverse k0 k) then swap l0 (bitreverse k0 k) k0 else Some l0)) is x)
            (fold_left (fun acc k0 => bindo acc (fun l0 => if Nat.ltb k0 (bitreverse k0 k) then swap l0 (bitreverse k0 k) k0 else Some l0)) is x')).
  { induction is as [|i is IH]; intros x x' X; [exact X|]. cbn [fold_left]. apply IH. apply (orel_bind RL); [exact X|].
    intros a a' Ea. destruct (Nat.ltb _ _); [apply r_swap; exact Ea|exact Ea]. }
  apply A. exact F.
Qed.
Lemma r_twiddles w w' n : RS w w' -> Forall2 RS (twiddles o w n) (twiddles o' w' n).
Proof.
  intros Hw. unfold twiddles. generalize (n / 2) as m.
  assert (A : forall m x x', RS x x' -> Forall2 RS (twiddles_from o w x m) (twiddles_from o' w' x' m)).
  { induction m as [|m IH]; intros x x' X; cbn; constructor; auto. }
  intros m. apply A. exact R1.
Qed.
Definition rel2 (x : list G * list G) (y : list M * list M) : Prop := RL (fst x) (fst y) /\ RL (snd x) (snd y).
Lemma r_zip tw tw' tc : Forall2 RS tw tw' -> forall lo lo', RL lo lo' -> forall hi hi' i, RL hi hi' ->
  orel rel2 (zip_butterfly o tw tc i lo hi) (zip_butterfly o' tw' tc i lo' hi').
Proof.
  intros Ht lo lo' Hl. induction Hl as [|a a' lo lo' Ea Hl IH]; intros hi hi' i Hh.
  - cbn. split; cbn; auto.
  - destruct Hh as [|b b' hi hi' Eb Hh]; cbn [zip_butterfly]; [split; cbn; auto|].
    pose proof (f2_nth RS _ _ ((i + 1) * tc) Ht) as Et.
    destruct (nth_error tw _), (nth_error tw' _); cbn in Et; try contradiction; cbn; auto.
    specialize (IH hi hi' (i + 1) Hh).
    destruct (zip_butterfly o tw tc (i + 1) lo hi) as [[l r]|], (zip_butterfly o' tw' tc (i + 1) lo' hi') as [[l' r']|]; cbn in IH; try contradiction; cbn; auto.
    destruct IH as [I1 I2]. split; cbn; constructor; auto.
Qed.
Lemma r_butterfly tw tw' tc half l l' : Forall2 RS tw tw' -> RL l l' ->
  orel RL (butterfly o tw tc half l) (butterfly o' tw' tc half l').
Proof.
  intros Ht F. unfold butterfly. rewrite (f2_len _ _ _ F). destruct (Nat.ltb _ _); [exact I|].
  pose proof (f2_firstn RG _ _ F half) as F1. pose proof (f2_skipn RG _ _ F half) as F2.
  destruct F1 as [|a a' lo lo' Ea Hl]; [exact I|]. destruct F2 as [|b b' hi hi' Eb Hh]; [exact I|].
  pose proof (r_zip tw tw' tc Ht lo lo' Hl hi hi' 0 Hh) as Z.
  destruct (zip_butterfly o tw tc 0 lo hi) as [[l1 r1]|], (zip_butterfly o' tw' tc 0 lo' hi') as [[l2 r2]|]; cbn in Z; try contradiction; cbn; auto.
  destruct Z as [Z1 Z2]. constructor; auto. apply Forall2_app; auto.
Qed.
Lemma r_rec tw tw' : Forall2 RS tw tw' -> forall fuel l l' n tc, RL l l' ->
  orel RL (recursive_butterfly o fuel l n tc tw) (recursive_butterfly o' fuel l' n tc tw').
Proof.
  intros Ht. induction fuel as [|fuel IH]; intros l l' n tc F; cbn [recursive_butterfly]; [exact I|].
  destruct (Nat.eqb n 2).
  - destruct F as [|a a' lo lo' Ea [|b b' hi hi' Eb Hh]]; cbn; auto.
  - rewrite (f2_len _ _ _ F). destruct (Nat.ltb _ _); [exact I|].
    apply (orel_bind RL); [apply IH, f2_firstn, F|]. intros x x' X. apply (orel_bind RL); [apply IH, f2_skipn, F|].
    intros y y' Y. rewrite (f2_len _ _ _ X). apply r_butterfly; auto. apply Forall2_app; auto.
Qed.
Lemma r_chunks chunk f f' : (forall l l', RL l l' -> orel RL (f l) (f' l')) -> forall fuel l l', RL l l' ->
  orel RL (map_chunks fuel chunk f l) (map_chunks fuel chunk f' l').
Proof.
  intros Hf. induction fuel as [|fuel IH]; intros l l' F; cbn [map_chunks]; [exact F|].
  destruct F as [|a a' lo lo' Ea Hl]; [constructor|].
  assert (F : RL (a :: lo) (a' :: lo')) by (constructor; auto).
  apply (orel_bind RL); [apply Hf, f2_firstn, F|]. intros x x' X. apply (orel_bind RL); [apply IH, f2_skipn, F|].
  intros y y' Y. cbn. apply Forall2_app; auto.
Qed.
Lemma r_iter tw tw' : Forall2 RS tw tw' -> forall rounds chunk tc l l', RL l l' ->
  orel RL (iterative o rounds chunk tc tw l) (iterative o' rounds chunk tc tw' l').
Proof.
  intros Ht. induction rounds as [|r IH]; intros chunk tc l l' F; cbn [iterative]; [exact F|].
  rewrite (f2_len _ _ _ F). apply (orel_bind RL); [|intros; apply IH; auto].
  apply r_chunks; auto. intros; apply r_butterfly; auto.
Qed.
Theorem best_fft_refine threads a a' w w' k : RL a a' -> RS w w' ->
  orel RL (best_fft o threads a w k) (best_fft o' threads a' w' k).
Proof.
  intros F Hw. unfold best_fft. rewrite (f2_len _ _ _ F). destruct (negb _); [exact I|].
  apply (orel_bind RL); [apply r_permute; exact F|]. intros x x' X.
  destruct (Nat.leb _ _); [apply r_iter|apply r_rec]; auto; apply r_twiddles; exact Hw.
Qed.
End Refine.

(** ** Fields *)
Definition field_fft {F} (o : fops F) : fft_ops F F :=
  {| tadd := fadd o; tsub := fsub o; tscale := fmul o; sone := f1 o; smul := fmul o |}.
Definition field_grp {F} (o : fops F) : gops F := {| g0 := f0 o; gadd := fadd o; gneg := fneg o |}.
Section FieldModule.
Context {F : Type} (o : fops F) (HR : ring_laws o).
Add Ring FRfm : (rl_ring _ HR).
Lemma field_grp_laws : grp_laws (field_grp o).
Proof. constructor; intros; cbn; ring. Qed.
Lemma field_module : module_laws o (field_grp o) (fun s a => fmul o a s).
Proof. constructor; try exact field_grp_laws; try exact HR; intros; cbn; ring. Qed.
Lemma field_fft_spec threads w k a : length a = 2 ^ k ->
  (k <> 0 -> fpow_nat o w (2 ^ (k - 1)) = fneg o (f1 o)) ->
  best_fft (field_fft o) threads a w k = Some (dft o (field_grp o) (fun s a => fmul o a s) w a).
Proof.
  intros HL Hw.
  pose proof (best_fft_refine (field_fft o) (mops o (field_grp o) (fun s a => fmul o a s)) eq eq) as RF.
  specialize (RF ltac:(intros; subst; reflexivity) ltac:(intros; subst; cbn; ring) ltac:(intros; subst; reflexivity) eq_refl ltac:(intros; subst; reflexivity)
    threads a a w w k).
  rewrite (best_fft_spec o (field_grp o) _ field_module threads w k a HL Hw) in RF.
  specialize (RF ltac:(clear; induction a; constructor; auto) eq_refl).
  destruct (best_fft (field_fft o) threads a w k) as [b|]; [|contradiction]. f_equal. cbn in RF.
  clear - RF. induction RF; congruence.
Qed.
End FieldModule.

(** ** Limbs *)
Definition limb_fft (c : fconf) : fft_ops (list Z) (list Z) :=
  {| tadd := fe_add c; tsub := fe_sub c; tscale := fe_mul c; sone := fe_one c; smul := fe_mul c |}.
Definition zsum (l : list Z) : Z := fold_right Z.add 0%Z l.
(** [sum_j x_j w^(i j)] over the integers *)
Definition zdft_entry (w : Z) (x : list Z) (i : nat) : Z :=
  zsum (map (fun jx => (snd jx * w ^ Z.of_nat (i * fst jx))%Z) (combine (seq 0 (length x)) x)).

Section LimbFft.
Variable c : fconf.
Hypothesis Hc : odd_conf c.
Hypothesis Hs : sized c.
Hypothesis Hp : prime (modulus c).
Notation p := (modulus c).
Notation o := (lf_ops c Hc).
Notation repr := (represents (num_limbs c) (modulus c)).
Let HZ := lf_zrep c Hc Hs Hp.
Let HF := pf_laws _ _ _ (lf_prime_field c Hc Hs Hp).
Add Ring FRlf : (rl_ring _ (fl_rl _ HF)).
Lemma p_pos : (1 < p)%Z.
Proof. destruct Hp. lia. Qed.

Lemma wrap_ex l x : repr l x -> exists a : lf c, limbs a = l /\ lf_val c a = x.
Proof. intros E. exists (lf_of (lf0 c Hc) l). destruct (repr_val c Hc (lf0 c Hc) l x E). auto. Qed.
Lemma wrap_list l xs : Forall2 repr l xs -> exists a : list (lf c), map limbs a = l /\ map (lf_val c) a = xs.
Proof.
  induction 1 as [|y x l xs E F (a & A1 & A2)]; [exists []; auto|].
  destruct (wrap_ex y x E) as (b & B1 & B2). exists (b :: a). cbn. rewrite A1, A2, B1, B2. auto.
Qed.
Lemma lf_limb_op l x : repr l x -> limbs (lf_of (lf0 c Hc) l) = l.
Proof. intros E. apply (repr_val c Hc (lf0 c Hc) l x E). Qed.
Lemma limb_refine threads (a : list (lf c)) w k :
  orel (Forall2 (fun l x => l = limbs x)) (best_fft (limb_fft c) threads (map limbs a) (limbs w) k) (best_fft (field_fft o) threads a w k).
Proof.
  pose proof (lf_repr c Hc) as LR.
  apply (best_fft_refine (limb_fft c) (field_fft o) (fun l x => l = limbs x) (fun l x => l = limbs x)).
  - intros ? x ? y -> ->. cbn. symmetry. apply (lf_limb_op _ _ (fe_add_repr c Hc _ _ _ _ (LR x) (LR y))).
  - intros ? x ? y -> ->. cbn. symmetry. apply (lf_limb_op _ _ (fe_sub_repr c Hc _ _ _ _ (LR x) (LR y))).
  - intros ? x ? y -> ->. cbn. symmetry. apply (lf_limb_op _ _ (fe_mul_repr c Hc _ _ _ _ (LR x) (LR y))).
  - cbn. symmetry. apply (lf_limb_op _ _ (fe_one_repr c Hc)).
  - intros ? x ? y -> ->. cbn. symmetry. apply (lf_limb_op _ _ (fe_mul_repr c Hc _ _ _ _ (LR x) (LR y))).
  - induction a; cbn; constructor; auto.
  - reflexivity.
Qed.
Lemma f2_limbs b (D : list (lf c)) : Forall2 (fun l x => l = limbs x) b D -> b = map limbs D.
Proof. induction 1; cbn; congruence. Qed.
Lemma lf_bound x : (0 <= lf_val c x < p)%Z.
Proof. rewrite <- (zr_inj_val _ _ _ _ HZ x), (zr_val_inj _ _ _ _ HZ). apply Z.mod_pos_bound. pose proof p_pos. lia. Qed.
Lemma val_pow w n : lf_val c (fpow_nat o w n) = ((lf_val c w ^ Z.of_nat n) mod p)%Z.
Proof.
  pose proof p_pos. induction n as [|n IH]; cbn [fpow_nat].
  - rewrite (zr_1 _ _ _ _ HZ). cbn. rewrite Z.mod_1_l by lia. reflexivity.
  - rewrite (zr_mul _ _ _ _ HZ), IH, Nat2Z.inj_succ, Z.pow_succ_r by lia. rewrite Zmult_mod_idemp_r. reflexivity.
Qed.
Lemma val_sum l : lf_val c (gsum (field_grp o) l) = (zsum (map (lf_val c) l) mod p)%Z.
Proof.
  pose proof p_pos. induction l as [|x l IH].
  - cbn [gsum fold_right map zsum]. rewrite Z.mod_0_l by lia. apply (zr_0 _ _ _ _ HZ).
  - change (lf_val c (fadd o x (gsum (field_grp o) l)) = ((lf_val c x + zsum (map (lf_val c) l)) mod p)%Z).
    rewrite (zr_add _ _ _ _ HZ), IH, Zplus_mod_idemp_r. reflexivity.
Qed.
Lemma val_dft_entry w a i : lf_val c (dft_entry o (field_grp o) (fun s x => fmul o x s) w a i) = (zdft_entry (lf_val c w) (map (lf_val c) a) i mod p)%Z.
Proof.
  unfold dft_entry, zdft_entry. rewrite val_sum, map_map, map_length. generalize 0 as s. generalize (length a) as n. intros n. revert a.
  induction n as [|n IH]; intros a s; [reflexivity|]. destruct a as [|x a]; [reflexivity|]. cbn [seq combine map zsum fold_right].
  unfold zsum in IH. rewrite <- Zplus_mod_idemp_r, IH, Zplus_mod_idemp_r. cbn [fst snd].
  rewrite (zr_mul _ _ _ _ HZ), val_pow, Zmult_mod_idemp_r, Zplus_mod_idemp_l. reflexivity.
Qed.
Lemma neg1_iff w n : fpow_nat o w n = fneg o (f1 o) <-> ((lf_val c w ^ Z.of_nat n + 1) mod p = 0)%Z.
Proof.
  pose proof p_pos. rewrite <- (zr_inj_val _ _ _ _ HZ (fpow_nat o w n)), <- (zr_inj_val _ _ _ _ HZ (fneg o (f1 o))), val_pow, (zr_neg _ _ _ _ HZ), (zr_1 _ _ _ _ HZ).
  split; intros E.
  - apply (f_equal (lf_val c)) in E. rewrite !(zr_val_inj _ _ _ _ HZ), !Zmod_mod in E.
    rewrite <- Zplus_mod_idemp_l, E, Zplus_mod_idemp_l. apply Z.mod_0_l. lia.
  - f_equal. set (x := (lf_val c w ^ Z.of_nat n)%Z) in *.
    replace (-(1))%Z with (- (1) + 0)%Z by lia. rewrite <- E, Zplus_mod_idemp_r. f_equal. lia.
Qed.
Lemma inv_root v v' k : fmul o v' v = f1 o -> (k <> 0 -> fpow_nat o v (2 ^ (k - 1)) = fneg o (f1 o)) ->
  k <> 0 -> fpow_nat o v' (2 ^ (k - 1)) = fneg o (f1 o).
Proof.
  intros V1 Hk K. pose proof (inv_pow o HF v v' V1 (2 ^ (k - 1))) as IP. rewrite (Hk K) in IP.
  apply (f_equal (fmul o (fneg o (f1 o)))) in IP.
  transitivity (fmul o (fneg o (f1 o)) (fmul o (fpow_nat o v' (2 ^ (k - 1))) (fneg o (f1 o)))); [ring|]. rewrite IP. ring.
Qed.
Lemma neg1_neq : fneg o (f1 o) <> f1 o.
Proof.
  pose proof p_pos as PP. intros E. apply (f_equal (lf_val c)) in E. rewrite (zr_neg _ _ _ _ HZ), (zr_1 _ _ _ _ HZ) in E.
  assert (O2 : (2 < p)%Z) by (clear - PP Hc; unfold odd_conf in Hc; destruct (Z.eq_dec p 2) as [E2|N]; [rewrite E2 in Hc; destruct Hc as [_ O]; discriminate O|lia]).
  replace (-(1))%Z with (p - 1 + -(1) * p)%Z in E by lia. rewrite Z_mod_plus_full, Z.mod_small in E by lia. lia.
Qed.
Lemma nat_val n : lf_val c (nat_to_f o n) = (Z.of_nat n mod p)%Z.
Proof.
  pose proof p_pos as PP. induction n as [|n IHn]; [change (Z.of_nat 0) with 0%Z; rewrite Z.mod_0_l by lia; apply (zr_0 _ _ _ _ HZ)|].
  change (nat_to_f o (S n)) with (fadd o (nat_to_f o n) (f1 o)).
  rewrite (zr_add _ _ _ _ HZ), IHn, (zr_1 _ _ _ _ HZ), Zplus_mod_idemp_l. f_equal. lia.
Qed.
Theorem limb_fft_spec threads a xs w x k : Forall2 repr a xs -> repr w x -> length a = 2 ^ k ->
  (k <> 0 -> ((x ^ Z.of_nat (2 ^ (k - 1)) + 1) mod p = 0)%Z) ->
  exists b, best_fft (limb_fft c) threads a w k = Some b /\
    Forall2 repr b (map (fun i => (zdft_entry x xs i mod p)%Z) (seq 0 (length a))).
Proof.
  intros Ha Hw HL Hx. destruct (wrap_list a xs Ha) as (a' & <- & <-). destruct (wrap_ex w x Hw) as (w' & <- & <-).
  pose proof (limb_refine threads a' w' k) as R. rewrite map_length in *.
  rewrite (field_fft_spec o (fl_rl _ HF) threads w' k a' HL) in R by (intros K; apply neg1_iff; auto).
  destruct (best_fft (limb_fft c) threads (map limbs a') (limbs w') k) as [b|]; [|contradiction]. exists b. split; [reflexivity|].
  cbn in R. unfold dft in R. generalize dependent b. generalize (seq 0 (length a')) as is.
  induction is as [|i is IH]; intros b R; inversion R; subst; constructor.
  - rewrite <- val_dft_entry. apply lf_repr, Hc.
  - apply IH. assumption.
Qed.
(** Applying the transform with the inverse root multiplies every entry by [n]. *)
Theorem limb_fft_inverse threads threads' a xs w x w' x' k : Forall2 repr a xs -> repr w x -> repr w' x' -> length a = 2 ^ k ->
  (k <> 0 -> ((x ^ Z.of_nat (2 ^ (k - 1)) + 1) mod p = 0)%Z) -> (x' * x mod p = 1)%Z ->
  exists b d, best_fft (limb_fft c) threads a w k = Some b /\ best_fft (limb_fft c) threads' b w' k = Some d /\
    Forall2 repr d (map (fun y => (2 ^ Z.of_nat k * y) mod p)%Z xs).
Proof.
  pose proof p_pos as PP.
  intros Ha Hw Hw' HL Hx Hinv. destruct (wrap_list a xs Ha) as (a' & <- & <-). destruct (wrap_ex w x Hw) as (v & <- & <-).
  destruct (wrap_ex w' x' Hw') as (v' & <- & <-). rewrite map_length in *.
  assert (V1 : fmul o v' v = f1 o).
  { rewrite <- (zr_inj_val _ _ _ _ HZ (fmul o v' v)), <- (zr_inj_val _ _ _ _ HZ (f1 o)). f_equal. rewrite (zr_mul _ _ _ _ HZ), (zr_1 _ _ _ _ HZ). exact Hinv. }
  assert (Hk : k <> 0 -> fpow_nat o v (2 ^ (k - 1)) = fneg o (f1 o)) by (intros K; apply neg1_iff; auto).
  pose proof (inv_root v v' k V1 Hk) as Hk'.
  pose proof (limb_refine threads a' v k) as R. rewrite (field_fft_spec o (fl_rl _ HF) threads v k a' HL Hk) in R.
  destruct (best_fft (limb_fft c) threads (map limbs a') (limbs v) k) as [b|] eqn:EB; [|contradiction]. cbv beta iota delta [orel] in R.
  set (D := dft o (field_grp o) (fun s a => fmul o a s) v a') in *.
  pose proof (f2_limbs _ _ R) as Eb. subst b.
  assert (LD : length D = 2 ^ k) by (unfold D, dft; rewrite map_length, seq_length; exact HL).
  pose proof (limb_refine threads' D v' k) as R'. rewrite (field_fft_spec o (fl_rl _ HF) threads' v' k D LD Hk') in R'.
  destruct (best_fft (limb_fft c) threads' (map limbs D) (limbs v') k) as [d|] eqn:ED; [|contradiction]. cbv beta iota delta [orel] in R'.
  exists (map limbs D), d. split; [reflexivity|]. split; [exact ED|].
  assert (E : dft o (field_grp o) (fun s a => fmul o a s) v' D = map (fun x => fmul o x (nat_to_f o (2 ^ k))) a').
  { destruct k as [|k].
    - apply (dft_inverse0 o (field_grp o) _ (field_module o (fl_rl _ HF)) HF v v'). exact HL.
    - apply (dft_inverse o (field_grp o) _ (field_module o (fl_rl _ HF)) HF v v' (S k)); auto.
      apply neg1_neq. }
  rewrite E in R'. clear - R' HZ Hc PP Hs Hp. revert d R'. induction a' as [|x a' IH]; intros d R'; inversion R'; subst; cbn [map]; constructor.
  - replace ((2 ^ Z.of_nat k * lf_val c x) mod p)%Z with (lf_val c (fmul o x (nat_to_f o (2 ^ k)))); [apply lf_repr, Hc|].
    rewrite (zr_mul _ _ _ _ HZ).
    rewrite nat_val, Zmult_mod_idemp_r, Nat2Z.inj_pow, Z.mul_comm. reflexivity.
  - apply IH. assumption.
Qed.
End LimbFft.

(** ** The points killed by [r] form a module over the scalar field *)
Section Torsion.
Context {G : Type} (g : gops G) (HG : grp_laws g) (isz : G -> bool) (Hz : forall P, isz P = true <-> P = g0 g) (r : Z).
Definition tors : Type := { P : G | isz (gmul g r P) = true }.
Lemma tors_ext (P Q : tors) : proj1_sig P = proj1_sig Q -> P = Q.
Proof. destruct P as [P hP], Q as [Q hQ]. cbn. intros ->. f_equal. apply Eqdep_dec.UIP_dec. apply bool_dec. Qed.
Lemma tors_zero (P : tors) : gmul g r (proj1_sig P) = g0 g.
Proof. apply Hz. exact (proj2_sig P). Qed.
Definition mkt (P : G) (h : gmul g r P = g0 g) : tors := exist _ P (proj2 (Hz _) h).
Lemma tors_add_ok (P Q : tors) : gmul g r (gadd g (proj1_sig P) (proj1_sig Q)) = g0 g.
Proof. rewrite (gmul_gadd g HG), !tors_zero. apply (gl_0 _ HG). Qed.
Lemma tors_neg_ok (P : tors) : gmul g r (gneg g (proj1_sig P)) = g0 g.
Proof. rewrite (gmul_gneg g HG), tors_zero. apply (g_neg_0 g HG). Qed.
Lemma tors_mul_ok k (P : tors) : gmul g r (gmul g k (proj1_sig P)) = g0 g.
Proof. rewrite <- (gmul_mul g HG), Z.mul_comm, (gmul_mul g HG), tors_zero. apply (gmul_g0 g HG). Qed.
Definition tors_ops : gops tors := {|
  g0 := mkt (g0 g) (gmul_g0 g HG r);
  gadd := fun P Q => mkt _ (tors_add_ok P Q);
  gneg := fun P => mkt _ (tors_neg_ok P) |}.
Context {Sc : Type} (so : fops Sc) (inj : Z -> Sc) (val : Sc -> Z) (HS : zrep r so inj val) (HR : ring_laws so).
Definition tors_act (s : Sc) (P : tors) : tors := mkt _ (tors_mul_ok (val s) P).
Lemma tors_module : module_laws so tors_ops tors_act.
Proof.
  constructor; [constructor|exact HR|..]; intros; apply tors_ext; cbn [tors_ops tors_act gadd g0 gneg mkt proj1_sig].
  - apply (gl_assoc _ HG).
  - apply (gl_comm _ HG).
  - apply (gl_0 _ HG).
  - apply (gl_neg _ HG).
  - apply (gmul_gadd g HG).
  - rewrite (zr_add _ _ _ _ HS), (gmul_mod g HG) by apply tors_zero. apply (gmul_add g HG).
  - rewrite (zr_mul _ _ _ _ HS), (gmul_mod g HG) by apply tors_zero. apply (gmul_mul g HG).
  - rewrite (zr_1 _ _ _ _ HS). apply (gmul_1 g HG).
Qed.
Lemma tors_sum l : proj1_sig (gsum tors_ops l) = gsum g (map (@proj1_sig _ _) l).
Proof. induction l as [|P l IH]; [reflexivity|]. unfold gsum in *. cbn [map fold_right]. rewrite <- IH. reflexivity. Qed.
End Torsion.

(** ** Projective curve points *)
Definition point_fft {F} (o : fops F) (c : cconf F) (sc : fconf) : fft_ops (proj F) (list Z) :=
  {| tadd := proj_add o c; tsub := proj_sub o c; tscale := fun p k => proj_mul o c p (to_repr sc k);
     sone := fe_one sc; smul := fe_mul sc |}.
(** [sum_j w^(i j) P_j] *)
Definition pdft_entry {F} (o : fops F) (a : F) (w : Z) (Ps : list (point (F := F))) (i : nat) : point :=
  pt_sum o a (map (fun jP => pt_mulz o a (w ^ Z.of_nat (i * fst jP)) (snd jP)) (combine (seq 0 (length Ps)) Ps)).

Section PointFft.
Context {F : Type} (o : fops F) (c : cconf F) (HC : curve_laws o c).
Variable sc : fconf.
Hypothesis Hc : odd_conf sc.
Hypothesis Hs : sized sc.
Hypothesis Hp : prime (modulus sc).
Hypothesis Hmul : forall p P k x, prep o c p P -> represents (num_limbs sc) (modulus sc) k x ->
  prep o c (proj_mul o c p (to_repr sc k)) (pt_mulz o (ca c) x P).
Hypothesis Hsub : forall p q P Q, prep o c p P -> prep o c q Q -> prep o c (proj_sub o c p q) (pt_add o (ca c) P (pt_neg o Q)).
Notation r := (modulus sc).
Notation so := (lf_ops sc Hc).
Notation repr := (represents (num_limbs sc) (modulus sc)).
Notation mulz := (pt_mulz o (ca c)).
Let HZ := lf_zrep sc Hc Hs Hp.
Let HF := pf_laws _ _ _ (lf_prime_field sc Hc Hs Hp).
Definition is_none (P : cpt o c) : bool := match proj1_sig P with None => true | _ => false end.
Notation g := (cpt_ops o c HC).
Lemma is_none_iff P : is_none P = true <-> P = g0 g.
Proof.
  unfold is_none. split.
  - intros E. apply cpt_ext. cbn. destruct (proj1_sig P); [discriminate|reflexivity].
  - intros ->. reflexivity.
Qed.
Notation tp := (tors g is_none r).
Notation tops := (tors_ops g (cpt_laws o c HC) is_none is_none_iff r).
Notation tact := (tors_act g (cpt_laws o c HC) is_none is_none_iff r (lf_val sc)).
Notation pt := (fun P : tp => proj1_sig (proj1_sig P)).
Let HM : module_laws so tops tact := tors_module g (cpt_laws o c HC) is_none is_none_iff r so _ _ HZ (fl_rl _ HF).
Lemma tors_pt P : on_curve o (ca c) (cb c) P -> mulz r P = None -> exists Q : tp, pt Q = P.
Proof.
  intros h E. assert (Z : gmul g r (mkpt o c HC P h) = g0 g).
  { apply cpt_ext. rewrite gmul_pt. exact E. }
  exists (mkt g is_none is_none_iff r _ Z). reflexivity.
Qed.
Lemma tors_list Ps : Forall (fun P => on_curve o (ca c) (cb c) P /\ mulz r P = None) Ps -> exists Qs : list tp, map pt Qs = Ps.
Proof.
  induction 1 as [|P Ps [h E] _ (Qs & E2)]; [exists []; reflexivity|]. destruct (tors_pt P h E) as [Q EQ]. exists (Q :: Qs). cbn. rewrite E2, EQ. reflexivity.
Qed.
Lemma point_refine threads ps (Qs : list tp) w k : Forall2 (fun p Q => prep o c p (pt Q)) ps Qs ->
  orel (Forall2 (fun p Q => prep o c p (pt Q))) (best_fft (point_fft o c sc) threads ps (limbs w) k) (best_fft (mops so tops tact) threads Qs w k).
Proof.
  intros HPs. pose proof (lf_repr sc Hc) as LR.
  apply (best_fft_refine (point_fft o c sc) (mops so tops tact) (fun p Q => prep o c p (pt Q)) (fun l x => l = limbs x)); cbn [point_fft mops tadd tsub tscale sone smul].
  - intros p P q Q A B. exact (add_repr o c HC _ _ _ _ A B).
  - intros p P q Q A B. exact (Hsub _ _ _ _ A B).
  - intros p P l s A ->. cbn [tors_act mkt proj1_sig]. rewrite gmul_pt. apply Hmul; auto.
  - symmetry. apply (lf_limb_op sc Hc _ _ (fe_one_repr sc Hc)).
  - intros ? x ? y -> ->. symmetry. apply (lf_limb_op sc Hc _ _ (fe_mul_repr sc Hc _ _ _ _ (LR x) (LR y))).
  - exact HPs.
  - reflexivity.
Qed.
Lemma pt_dft_entry w Qs i : pt (dft_entry so tops tact w Qs i) = pdft_entry o (ca c) (lf_val sc w) (map pt Qs) i.
Proof.
  unfold dft_entry, pdft_entry. rewrite tors_sum, gsum_pt, !map_map, map_length. f_equal.
  generalize 0 as s. generalize (length Qs) as n. intros n. revert Qs. induction n as [|n IH]; intros Qs s; [reflexivity|].
  destruct Qs as [|Q Qs]; [reflexivity|]. cbn [seq combine map fst snd]. f_equal; [|apply IH].
  cbn [tors_act mkt proj1_sig]. rewrite (val_pow sc Hc Hs Hp), gmul_pt.
  rewrite <- !(gmul_pt o c HC _ (proj1_sig Q)). f_equal. apply (gmul_mod _ (cpt_laws o c HC)). apply (tors_zero g is_none is_none_iff r Q).
Qed.
Lemma f2_eq_pt ps Ps (Qs : list tp) : Forall2 (prep o c) ps Ps -> map pt Qs = Ps -> Forall2 (fun p Q => prep o c p (pt Q)) ps Qs.
Proof.
  intros A <-. remember (map pt Qs) as Ps eqn:E. revert Qs E. induction A; intros Qs E; destruct Qs; try discriminate; constructor; injection E as -> ->; auto.
Qed.
Theorem point_fft_spec threads ps Ps w x k : Forall2 (prep o c) ps Ps -> Forall (fun P => mulz r P = None) Ps ->
  repr w x -> length ps = 2 ^ k -> (k <> 0 -> ((x ^ Z.of_nat (2 ^ (k - 1)) + 1) mod r = 0)%Z) ->
  exists qs, best_fft (point_fft o c sc) threads ps w k = Some qs /\
    Forall2 (prep o c) qs (map (pdft_entry o (ca c) x Ps) (seq 0 (length ps))).
Proof.
  intros HPs HT Hw HL Hx. destruct (wrap_ex sc Hc w x Hw) as (w' & <- & <-).
  assert (HO : Forall (fun P => on_curve o (ca c) (cb c) P /\ mulz r P = None) Ps).
  { clear - HPs HT. induction HPs; inversion HT; subst; constructor; auto. split; auto. exact (proj1 H). }
  destruct (tors_list Ps HO) as (Qs & <-). pose proof (f2_eq_pt _ _ _ HPs eq_refl) as HQ.
  pose proof (point_refine threads ps Qs w' k HQ) as R.
  assert (LQ : length ps = length Qs) by (apply (f2_len _ _ _ HQ)).
  rewrite (best_fft_spec so tops tact HM threads w' k Qs) in R; [|congruence|intros K; apply (neg1_iff sc Hc Hs Hp); auto].
  destruct (best_fft (point_fft o c sc) threads ps (limbs w') k) as [qs|] eqn:EB; [|contradiction]. exists qs. split; [reflexivity|].
  cbv beta iota delta [orel] in R. unfold dft in R. rewrite LQ. clear - R Hp Hs. revert qs R. generalize (seq 0 (length Qs)) as is.
  induction is as [|i is IH]; intros qs R; inversion R; subst; constructor.
  - rewrite <- pt_dft_entry. assumption.
  - apply IH. assumption.
Qed.
Theorem point_fft_inverse threads threads' ps Ps w x w' x' k : Forall2 (prep o c) ps Ps -> Forall (fun P => mulz r P = None) Ps ->
  repr w x -> repr w' x' -> length ps = 2 ^ k -> (k <> 0 -> ((x ^ Z.of_nat (2 ^ (k - 1)) + 1) mod r = 0)%Z) -> (x' * x mod r = 1)%Z ->
  exists qs rs, best_fft (point_fft o c sc) threads ps w k = Some qs /\ best_fft (point_fft o c sc) threads' qs w' k = Some rs /\
    Forall2 (prep o c) rs (map (mulz (2 ^ Z.of_nat k)) Ps).
Proof.
  pose proof (p_pos sc Hc Hs Hp) as PP.
  intros HPs HT Hw Hw' HL Hx Hinv. destruct (wrap_ex sc Hc w x Hw) as (v & <- & <-). destruct (wrap_ex sc Hc w' x' Hw') as (v' & <- & <-).
  assert (HO : Forall (fun P => on_curve o (ca c) (cb c) P /\ mulz r P = None) Ps).
  { clear - HPs HT. induction HPs; inversion HT; subst; constructor; auto. split; auto. exact (proj1 H). }
  destruct (tors_list Ps HO) as (Qs & <-). pose proof (f2_eq_pt _ _ _ HPs eq_refl) as HQ.
  assert (LQ : length ps = length Qs) by (apply (f2_len _ _ _ HQ)).
  assert (V1 : fmul so v' v = f1 so).
  { rewrite <- (zr_inj_val _ _ _ _ HZ (fmul so v' v)), <- (zr_inj_val _ _ _ _ HZ (f1 so)). f_equal. rewrite (zr_mul _ _ _ _ HZ), (zr_1 _ _ _ _ HZ). exact Hinv. }
  assert (Hk : k <> 0 -> fpow_nat so v (2 ^ (k - 1)) = fneg so (f1 so)) by (intros K; apply (neg1_iff sc Hc Hs Hp); auto).
  pose proof (inv_root sc Hc Hs Hp v v' k V1 Hk) as Hk'.
  pose proof (point_refine threads ps Qs v k HQ) as R.
  rewrite (best_fft_spec so tops tact HM threads v k Qs) in R; [|congruence|exact Hk].
  destruct (best_fft (point_fft o c sc) threads ps (limbs v) k) as [qs|] eqn:EB; [|contradiction]. cbv beta iota delta [orel] in R.
  set (D := dft so tops tact v Qs) in *.
  assert (LD : length D = 2 ^ k) by (unfold D, dft; rewrite map_length, seq_length; congruence).
  pose proof (point_refine threads' qs D v' k R) as R'. rewrite (best_fft_spec so tops tact HM threads' v' k D LD Hk') in R'.
  destruct (best_fft (point_fft o c sc) threads' qs (limbs v') k) as [rs|] eqn:ED; [|contradiction]. cbv beta iota delta [orel] in R'.
  exists qs, rs. split; [reflexivity|]. split; [exact ED|].
  assert (E : dft so tops tact v' D = map (tact (nat_to_f so (2 ^ k))) Qs).
  { destruct k as [|k].
    - apply (dft_inverse0 so tops tact HM HF v v'). change (length Qs = 2 ^ 0); congruence.
    - apply (dft_inverse so tops tact HM HF v v' (S k)); auto; [|congruence]. apply (neg1_neq sc Hc Hs Hp). }
  rewrite E in R'. rewrite map_map. clear - R' HZ HC PP. revert rs R'. induction Qs as [|Q Qs IH]; intros d R'; inversion R'; subst; cbn [map]; constructor.
  - replace (mulz (2 ^ Z.of_nat k) (pt Q)) with (pt (tact (nat_to_f so (2 ^ k)) Q)); [assumption|].
    cbn [tors_act mkt proj1_sig]. rewrite <- (gmul_pt o c HC), (nat_val sc Hc Hs Hp). f_equal.
    rewrite (gmul_mod _ (cpt_laws o c HC)) by apply (tors_zero g is_none is_none_iff r Q). rewrite Nat2Z.inj_pow. reflexivity.
  - apply IH. assumption.
Qed.
End PointFft.
