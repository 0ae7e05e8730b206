(** Correctness of the square roots in quadratic extensions. *)
From Verif Require Import Base Word Limbs SpecField LimbsFacts Algebra Pow Tower TowerFacts FiniteField PrimeField FrobeniusFacts Sqrt2.

Lemma quarter p : 2 < p -> p mod 4 = 1 ->
  p = 4 * ((p - 1) / 4) + 1 /\ (p - 1) / 2 = 2 * ((p - 1) / 4) /\ 0 < (p - 1) / 4.
Proof.
  intros Hp2 H4. pose proof (Z.div_mod p 4 ltac:(lia)) as D.
  replace (p - 1)%Z with (p / 4 * 4)%Z by lia. rewrite Z.div_mul by lia.
  assert (T : (p / 4 * 4 / 2 = 2 * (p / 4))%Z).
  { replace (p / 4 * 4)%Z with (2 * (p / 4) * 2)%Z by lia. apply Z.div_mul. lia. }
  lia.
Qed.

Section S2.
Context {F : Type} (p : Z) (o : fops F) (inj : Z -> F) (HP : prime_field p o inj).
Context (mnr : F -> F) (beta : F) (sq : quad F -> quad F).
Hypothesis Hp2 : 2 < p.
Hypothesis Hm : forall x, mnr x = fmul o beta x.
Hypothesis Hnr : forall x, fmul o x x <> beta.
Hypothesis Hsq : forall a, sq a = quad_mul o mnr a a.
Let H := pf_laws _ _ _ HP.
Let HR := fl_rl _ H.
Let o2 := quad_ops o mnr sq.
Let H2 : field_laws o2 := quad_field_laws o mnr beta H Hm Hnr sq Hsq.
Let HR2 := fl_rl _ H2.
Let FF2 : finite_field o2 (p * p) := quad_finite o mnr _ p (prime_field_finite _ _ _ HP) Hm Hnr sq Hsq.
Add Ring FRs : (rl_ring _ HR).
Add Ring FRs2 : (rl_ring _ HR2).
Notation "0" := (f0 o2). Notation "1" := (f1 o2).
Infix "+" := (fadd o2). Infix "*" := (fmul o2).
Notation "- x" := (fneg o2 x).
Notation "x ^^ e" := (fpowz o2 x e) (at level 30).

Lemma feqb_ne a b : a <> b -> feqb o2 a b = false.
Proof. apply (feqb_false o2 H2). Qed.

Lemma neg1_2_eq : neg1_2 o = - (1).
Proof. apply quad_ext; cbn; ring. Qed.

Lemma frob1 x : fq2_frobenius o 1%Z x = x ^^ p.
Proof. symmetry. exact (quad_frobenius_1 p o inj HP mnr beta sq Hp2 Hm Hnr Hsq x). Qed.

Lemma two_2 : fadd o2 1 1 <> 0.
Proof.
  intros E. apply (f_equal q0) in E. cbn in E. exact (pf_two _ _ _ HP Hp2 E).
Qed.

Lemma p_odd : p = (2 * ((p - 1) / 2) + 1)%Z /\ (0 < (p - 1) / 2)%Z.
Proof. exact (half_card o H p (prime_field_finite _ _ _ HP) (pf_two _ _ _ HP Hp2)). Qed.

Lemma half2 : ((p * p - 1) / 2 = (p - 1) / 2 * (p + 1))%Z.
Proof.
  pose proof p_odd as [E _]. replace (p * p - 1)%Z with ((p - 1) / 2 * (p + 1) * 2)%Z by nia.
  apply Z.div_mul. lia.
Qed.

Lemma norm_pow x e : (0 <= e)%Z -> fq2_frobenius o 1%Z (x ^^ e) * (x ^^ e) = x ^^ (e * (p + 1))%Z.
Proof.
  intros He. rewrite frob1, <- fpowz_mul, <- fpowz_add by (exact HR2 || nia). f_equal. ring.
Qed.

Lemma m1_ne_1 : - (1) <> 1.
Proof.
  intros E. apply two_2. transitivity (1 + - (1)); [rewrite E; reflexivity|ring].
Qed.

(** The common test of both algorithms. *)
Lemma euler_2 x : x <> 0 ->
  (x ^^ ((p - 1) / 2 * (p + 1))%Z = 1 /\ is_square o2 x)
  \/ (x ^^ ((p - 1) / 2 * (p + 1))%Z = - (1) /\ ~ is_square o2 x).
Proof.
  intros Hx. rewrite <- half2.
  destruct (half_pow_cases o2 H2 (p * p) FF2 two_2 x Hx) as [E|E]; [left|right]; (split; [exact E|]).
  - apply (euler o2 H2 (p * p) FF2 two_2 x Hx). exact E.
  - apply (euler_nonsquare o2 H2 (p * p) FF2 two_2 x Hx). exact E.
Qed.

(** ** Algorithm 9 *)
Theorem sqrt_algo9_spec l34 l12 e :
  (p mod 4 = 3)%Z -> beta = fneg o (f1 o) ->
  words l34 -> eval l34 = ((p - 3) / 4)%Z -> words l12 -> eval l12 = ((p - 1) / 2)%Z ->
  match sqrt_algo9 o o2 l34 l12 e with
  | Some s => s * s = e
  | None => ~ is_square o2 e
  end.
Proof.
  intros H4 Hb W1 E1 W2 E2. unfold sqrt_algo9.
  pose proof (quad_is0_law o mnr sq (pf_is0 _ _ _ HP)) as Z0. fold o2 in Z0.
  destruct (fis0 o2 e) eqn:He. { apply Z0 in He. rewrite He. ring. }
  assert (Hn : e <> 0). { intros E. apply Z0 in E. congruence. } clear He.
  cbv zeta. rewrite !(fpow_spec o2 HR2) by assumption. rewrite E1, E2, (rl_sqr _ HR2), neg1_2_eq.
  set (k := ((p - 3) / 4)%Z).
  assert (K : p = (4 * k + 3)%Z). { unfold k. pose proof (Z.div_mod p 4 ltac:(lia)).
    replace (p - 3)%Z with (p / 4 * 4)%Z by lia. rewrite Z.div_mul by lia. lia. }
  assert (K0 : (0 <= k)%Z) by lia.
  assert (Kh : ((p - 1) / 2 = 2 * k + 1)%Z).
  { replace (p - 1)%Z with ((2 * k + 1) * 2)%Z by lia. apply Z.div_mul. lia. }
  rewrite Kh. set (al := (e ^^ k) * (e ^^ k) * e).
  assert (Al : al = e ^^ (2 * k + 1)%Z).
  { unfold al. rewrite fpowz_succ by (exact HR2 || lia).
    replace (2 * k)%Z with (k + k)%Z by lia. rewrite fpowz_add by (exact HR2 || lia). ring. }
  assert (A0 : fq2_frobenius o 1%Z al * al = e ^^ ((p - 1) / 2 * (p + 1))%Z).
  { rewrite Al, norm_pow, Kh by lia. reflexivity. }
  rewrite A0.
  destruct (euler_2 e Hn) as [[E S]|[E S]]; rewrite E.
  2: { rewrite (feqb_refl o2 H2). exact S. }
  rewrite feqb_ne by (intros D; apply m1_ne_1; symmetry; exact D).
  rewrite E in A0. rewrite frob1 in A0.
  destruct (feqb_dec o2 H2 al (- (1))) as [D|D].
  - rewrite D, (feqb_refl o2 H2).
    assert (U : mk_quad (f0 o) (f1 o) * mk_quad (f0 o) (f1 o) = - (1)).
    { change (fmul o2) with (quad_mul o mnr). rewrite (quad_mul_school o mnr beta HR Hm).
      rewrite Hb. apply quad_ext; cbn; ring. }
    transitivity (al * (mk_quad (f0 o) (f1 o) * mk_quad (f0 o) (f1 o)) * e); [unfold al; ring|].
    rewrite U, D. ring.
  - rewrite feqb_ne by exact D.
    assert (N : al + 1 <> 0). { intros Z. apply D. transitivity (al + 1 + - (1)); [ring|rewrite Z; ring]. }
    set (b := (al + 1) ^^ (2 * k + 1)%Z).
    assert (B : b * b * (al + 1) = (al + 1) ^^ p).
    { unfold b. rewrite <- fpowz_add by (exact HR2 || lia).
      replace p with (2 * k + 1 + (2 * k + 1) + 1)%Z at 1 by lia.
      rewrite (fpowz_succ o2 HR2 _ (2 * k + 1 + (2 * k + 1))) by lia. ring. }
    assert (C : (al + 1) ^^ p = al ^^ p + 1).
    { rewrite <- !frob1. unfold fq2_frobenius. change (1 mod 2 =? 0)%Z with false. cbv iota.
      apply quad_ext; cbn; ring. }
    assert (BA : b * b * al = 1).
    { apply (mul_cancel_l o2 H2 (al + 1)); [exact N|].
      transitivity (b * b * (al + 1) * al); [ring|]. rewrite B, C.
      transitivity ((al ^^ p) * al + al); [ring|]. rewrite A0. ring. }
    transitivity (b * b * al * e); [unfold al; ring|]. rewrite BA. ring.
Qed.

(** ** Algorithm 10 *)
Lemma fixed_base x : x ^^ p = x -> x = mk_quad (q0 x) (f0 o).
Proof.
  rewrite <- frob1. unfold fq2_frobenius. change (1 mod 2 =? 0)%Z with false. cbv iota. intros E.
  apply (f_equal q1) in E. cbn [quad_conjugate q1] in E. apply quad_ext; cbn [q0 q1]; [reflexivity|].
  assert (T : fmul o (fadd o (f1 o) (f1 o)) (q1 x) = f0 o).
  { transitivity (fsub o (q1 x) (fneg o (q1 x))); [ring|]. rewrite E. ring. }
  destruct (mul_integral o H _ _ T) as [D|D]; [exfalso; exact (pf_two _ _ _ HP Hp2 D)|exact D].
Qed.

Section Algo10.
Variables (l14 : list Z) (pe pf : quad F) (f : F) (sqrt1 : F -> option F).
Hypothesis H4 : (p mod 4 = 1)%Z.
Hypothesis W14 : words l14.
Hypothesis E14 : eval l14 = ((p - 1) / 4)%Z.
Hypothesis Hf : pf = mk_quad f (f0 o).
Hypothesis Hfn : forall x, fmul o x x <> f.
Hypothesis Hfe : pf * (pe * pe) = 1.
Hypothesis Hs1 : forall x, match sqrt1 x with Some r => fmul o r r = x | None => ~ is_square o x end.
Let sq10 n := sqrt_algo10 o o2 n sqrt1 pe pf l14.
Let k := ((p - 1) / 4)%Z.

Lemma k_val : p = (4 * k + 1)%Z /\ ((p - 1) / 2 = 2 * k)%Z /\ (0 < k)%Z.
Proof. exact (quarter p Hp2 H4). Qed.

(** Zero: no branch returns. *)
Theorem sqrt_algo10_zero n : sq10 n 0 = SqDiverge.
Proof using H4 W14 E14 Hsq Hp2 Hnr Hm HP.
  pose proof k_val as (K1 & K2 & K3). clear Hfn Hs1.
  induction n as [|n IH]; [reflexivity|]. unfold sq10 in *. cbn [sqrt_algo10].
  rewrite (fpow_spec o2 HR2) by assumption. rewrite E14. fold k. rewrite fpowz_zero by (exact HR2 || lia).
  rewrite (rl_sqr _ HR2), neg1_2_eq.
  assert (Z1 : fq2_frobenius o 1%Z 0 = 0).
  { rewrite frob1. apply fpowz_zero; [exact HR2|lia]. }
  replace (0 * 0) with 0 by ring. rewrite Z1. replace (0 * 0) with 0 by ring.
  rewrite !feqb_ne.
  - replace (0 * pf * 0) with 0 by ring. rewrite IH. reflexivity.
  - intros E. apply (fl_1_0 _ H2). symmetry. exact E.
  - intros E. apply (fl_1_0 _ H2). transitivity (- (- (1))); [ring|]. rewrite <- E. ring.
Qed.

(** What the two tests compute for non-zero input. *)
Lemma b_facts el : el <> 0 -> is_square o2 el ->
  let b := el ^^ k in
  el <> 0 /\ exists v, b * b * el = mk_quad v (f0 o) /\ v <> f0 o /\
  ((b ^^ (p + 1)%Z = 1 /\ is_square o v) \/ (b ^^ (p + 1)%Z = - (1) /\ ~ is_square o v)).
Proof.
  intros Hn S b. split; [exact Hn|]. pose proof k_val as (K1 & K2 & K3).
  destruct (euler_2 el Hn) as [[E _]|[_ N]]; [|contradiction].
  assert (Eb : (b ^^ (p + 1)%Z) * (b ^^ (p + 1)%Z) = 1 * 1).
  { rewrite <- fpowz_mul_base by exact HR2. unfold b. rewrite <- fpowz_add by (exact HR2 || lia).
    rewrite <- fpowz_mul by (exact HR2 || lia). replace (k + k)%Z with ((p - 1) / 2)%Z by lia.
    rewrite E. ring. }
  apply (sqr_eq_cases o2 H2) in Eb.
  assert (Fx : b * b * el = el ^^ (2 * k + 1)%Z).
  { rewrite fpowz_succ by (exact HR2 || lia). replace (2 * k)%Z with (k + k)%Z by lia.
    rewrite fpowz_add by (exact HR2 || lia). unfold b. ring. }
  assert (Fp : (b * b * el) ^^ p = b * b * el).
  { rewrite Fx, <- fpowz_mul by (exact HR2 || lia).
    replace ((2 * k + 1) * p)%Z with ((2 * k) * (p + 1) + (2 * k + 1))%Z by nia.
    rewrite fpowz_add by (exact HR2 || nia). rewrite <- K2, E. ring. }
  pose proof (fixed_base _ Fp) as V. set (v := q0 (b * b * el)) in *.
  assert (Nb : b * b * el <> 0).
  { rewrite Fx. apply (fpowz_nonzero o2 H2); assumption. }
  assert (Nv : v <> f0 o). { intros Z. apply Nb. rewrite V, Z. reflexivity. }
  exists v. split; [exact V|]. split; [exact Nv|].
  assert (Hv : (b * b * el) ^^ ((p - 1) / 2)%Z = b ^^ (p + 1)%Z).
  { rewrite Fx, <- fpowz_mul by (exact HR2 || lia). unfold b.
    rewrite <- fpowz_mul by (exact HR2 || lia). f_equal. rewrite K2. lia. }
  rewrite V in Hv. rewrite (quad_embed_pow p o inj HP mnr beta sq Hm Hnr Hsq) in Hv. fold o2 in Hv.
  pose proof (prime_field_finite _ _ _ HP) as FF.
  destruct Eb as [Eb|Eb]; rewrite Eb in *; [left|right]; (split; [reflexivity|]).
  - apply (euler o H p FF (pf_two _ _ _ HP Hp2) v Nv). apply (f_equal q0) in Hv. exact Hv.
  - apply (euler_nonsquare o H p FF (pf_two _ _ _ HP Hp2) v Nv). apply (f_equal q0) in Hv. exact Hv.
Qed.

Lemma algo10_nonsquare n el : el <> 0 -> ~ is_square o2 el -> sq10 (S n) el = SqRet None.
Proof.
  intros Hn N. pose proof k_val as (K1 & K2 & K3). unfold sq10. cbn [sqrt_algo10].
  rewrite (fpow_spec o2 HR2) by assumption. rewrite E14, (rl_sqr _ HR2), neg1_2_eq. fold k.
  rewrite <- fpowz_add by (exact HR2 || lia). rewrite norm_pow by lia.
  replace (k + k)%Z with ((p - 1) / 2)%Z by lia.
  destruct (euler_2 el Hn) as [[_ S]|[E _]]; [contradiction|].
  rewrite E, (feqb_refl o2 H2). reflexivity.
Qed.

(** The first test does not stop a square. *)
Lemma algo10_step n el : el <> 0 -> is_square o2 el ->
  let b := el ^^ k in
  sq10 (S n) el =
    if feqb o2 (b ^^ (p + 1)%Z) 1 then
      match sqrt1 (q0 (b * b * el)) with
      | None => SqPanic
      | Some x0 => SqRet (Some ((b ^^ p) * mk_quad x0 (f0 o)))
      end
    else match sq10 n (b * b * pf * el) with
         | SqRet (Some x0) => SqRet (Some ((b ^^ p) * (x0 * pe)))
         | SqRet None => SqPanic
         | r => r
         end.
Proof.
  intros Hn N b. pose proof k_val as (K1 & K2 & K3). unfold sq10. cbn [sqrt_algo10].
  rewrite (fpow_spec o2 HR2) by assumption. rewrite E14, (rl_sqr _ HR2), neg1_2_eq. fold k. fold b.
  assert (A0 : fq2_frobenius o 1%Z (b * b) * (b * b) = 1).
  { unfold b. rewrite <- fpowz_add by (exact HR2 || lia). rewrite norm_pow by lia.
    replace (k + k)%Z with ((p - 1) / 2)%Z by lia.
    destruct (euler_2 el Hn) as [[E _]|[_ N']]; [exact E|contradiction]. }
  rewrite A0, feqb_ne by (intros E; apply m1_ne_1; symmetry; exact E).
  assert (X : fq2_frobenius o 1%Z b * b = b ^^ (p + 1)%Z).
  { rewrite frob1, fpowz_succ by (exact HR2 || lia). ring. }
  rewrite X. destruct (feqb o2 (b ^^ (p + 1)%Z) 1).
  - destruct (sqrt1 _) as [x0|]; [|reflexivity]. f_equal. f_equal. rewrite <- frob1.
    change (fmul o2) with (quad_mul o mnr). rewrite (quad_mul_school o mnr beta HR Hm).
    apply quad_ext; cbn [q0 q1]; ring.
  - rewrite frob1. reflexivity.
Qed.

Lemma embed_mul a b : mk_quad a (f0 o) * mk_quad b (f0 o) = mk_quad (fmul o a b) (f0 o).
Proof. exact (quad_embed_mul p o inj HP mnr beta Hm a b). Qed.

Lemma algo10_first n el : el <> 0 -> is_square o2 el ->
  (el ^^ k) ^^ (p + 1)%Z = 1 ->
  exists s, sq10 (S n) el = SqRet (Some s) /\ s * s = el.
Proof.
  intros Hn S E. pose proof k_val as (K1 & K2 & K3).
  destruct (b_facts el Hn S) as (_ & v & V & Nv & D).
  rewrite (algo10_step n el Hn S). rewrite E, (feqb_refl o2 H2).
  destruct D as [[_ Sv]|[D _]]; [|exfalso; apply m1_ne_1; rewrite <- D; exact E].
  rewrite V. cbn [q0]. specialize (Hs1 v). destruct (sqrt1 v) as [x0|]; [|contradiction].
  eexists. split; [reflexivity|]. set (b := el ^^ k) in *.
  assert (X : mk_quad x0 (f0 o) * mk_quad x0 (f0 o) = b * b * el) by (rewrite embed_mul, Hs1, V; reflexivity).
  transitivity ((b ^^ p) * (b ^^ p) * (mk_quad x0 (f0 o) * mk_quad x0 (f0 o))); [ring|]. rewrite X.
  assert (T : (b ^^ p) * b = 1) by (rewrite <- E, fpowz_succ by (exact HR2 || lia); ring).
  transitivity (((b ^^ p) * b) * ((b ^^ p) * b) * el); [ring|]. rewrite T. ring.
Qed.

Lemma square_mul_nonsquares a b : a <> f0 o -> b <> f0 o -> ~ is_square o a -> ~ is_square o b ->
  is_square o (fmul o a b).
Proof.
  pose proof (prime_field_finite _ _ _ HP) as FF. pose proof (pf_two _ _ _ HP Hp2) as T.
  intros Ha Hb Na Nb.
  apply (euler o H p FF T); [apply (mul_nonzero o H); assumption|].
  rewrite fpowz_mul_base by exact HR.
  apply (euler_nonsquare o H p FF T) in Na; [|exact Ha].
  apply (euler_nonsquare o H p FF T) in Nb; [|exact Hb].
  rewrite Na, Nb. ring.
Qed.

Theorem sqrt_algo10_spec n el : el <> 0 ->
  exists r, sq10 (S (S n)) el = SqRet r /\
  match r with Some s => s * s = el | None => ~ is_square o2 el end.
Proof.
  intros Hn. pose proof k_val as (K1 & K2 & K3).
  destruct (euler_2 el Hn) as [[_ S]|[_ N]].
  2: { exists None. split; [apply algo10_nonsquare; assumption|exact N]. }
  destruct (b_facts el Hn S) as (_ & v & V & Nv & D). set (b := el ^^ k) in *.
  destruct D as [[E Sv]|[E Nsv]].
  { destruct (algo10_first (Datatypes.S n) el Hn S E) as (s & E1 & E2). exists (Some s). split; assumption. }
  rewrite (algo10_step (Datatypes.S n) el Hn S). fold b.
  rewrite E, feqb_ne by exact m1_ne_1.
  set (el' := b * b * pf * el).
  assert (L : el' = mk_quad (fmul o v f) (f0 o)).
  { unfold el'. transitivity (b * b * el * pf); [ring|]. rewrite V, Hf. apply embed_mul. }
  assert (Nf : f <> f0 o). { intros Z. apply (Hfn (f0 o)). rewrite Z. ring. }
  assert (Svf : is_square o (fmul o v f)).
  { apply square_mul_nonsquares; auto. intros (y & Y). exact (Hfn y Y). }
  assert (Nvf : fmul o v f <> f0 o) by (apply (mul_nonzero o H); assumption).
  destruct Svf as (y & Y).
  destruct (algo10_first n el') as (s & E1 & E2).
  - rewrite L. intros Z. apply (f_equal q0) in Z. exact (Nvf Z).
  - exists (mk_quad y (f0 o)). rewrite embed_mul, L, Y. reflexivity.
  - rewrite L, !(quad_embed_pow p o inj HP mnr beta sq Hm Hnr Hsq). rewrite <- fpowz_mul by (exact HR || lia).
    replace (k * (p + 1))%Z with ((p - 1) / 2 * (2 * k + 1))%Z by lia.
    rewrite fpowz_mul by (exact HR || lia).
    rewrite (proj2 (euler o H p (prime_field_finite _ _ _ HP) (pf_two _ _ _ HP Hp2) _ Nvf))
      by (exists y; exact Y).
    rewrite fpowz_one by exact HR. reflexivity.
  - rewrite E1. eexists. split; [reflexivity|]. cbv beta iota.
    transitivity ((b ^^ p) * (b ^^ p) * ((s * s) * (pe * pe))); [ring|]. rewrite E2. unfold el'.
    assert (T : (b ^^ p) * b = - (1)) by (rewrite <- E, fpowz_succ by (exact HR2 || lia); ring).
    transitivity (((b ^^ p) * b) * ((b ^^ p) * b) * (pf * (pe * pe)) * el); [ring|]. rewrite T, Hfe. ring.
Qed.
End Algo10.
End S2.
