(** Prime fields: integers modulo a prime, homomorphisms from Z, and the
    Frobenius homomorphism in characteristic p. *)
From Verif Require Import Base Algebra Pow Tower TowerFacts FiniteField Field FieldFacts.

(** [inj] is the ring homomorphism Z -> F. *)
Record zhom {F : Type} (o : fops F) (inj : Z -> F) : Prop := {
  zh_0 : inj 0 = f0 o;
  zh_1 : inj 1 = f1 o;
  zh_add : forall a b, inj (a + b) = fadd o (inj a) (inj b);
  zh_mul : forall a b, inj (a * b) = fmul o (inj a) (inj b) }.

(** [o] is the prime field with [p] elements, [inj] the reduction map. *)
Record prime_field (p : Z) {F : Type} (o : fops F) (inj : Z -> F) : Prop := {
  pf_prime : prime p;
  pf_laws : field_laws o;
  pf_is0 : is0_law o;
  pf_hom : zhom o inj;
  pf_eq : forall a b, inj a = inj b <-> a mod p = b mod p;
  pf_onto : forall x, exists a, x = inj a }.

Section ZHom.
Context {F : Type} (o : fops F) (HR : ring_laws o) (inj : Z -> F) (Hh : zhom o inj).
Infix "+" := (fadd o). Infix "-" := (fsub o). Infix "*" := (fmul o).
Notation "- x" := (fneg o x).
Add Ring FRz : (rl_ring _ HR).

Lemma inj_neg a : inj (Z.opp a) = - inj a.
Proof.
  assert (E : inj (Z.opp a) + inj a = f0 o).
  { rewrite <- (zh_add _ _ Hh). replace (Z.add (Z.opp a) a) with 0%Z by lia. apply (zh_0 _ _ Hh). }
  transitivity (inj (Z.opp a) + inj a - inj a); [ring|]. rewrite E. ring.
Qed.

Lemma inj_sub a b : inj (Z.sub a b) = inj a - inj b.
Proof. unfold Z.sub. rewrite (zh_add _ _ Hh), inj_neg. ring. Qed.

Lemma inj_pow a e : (0 <= e)%Z -> inj (Z.pow a e) = fpowz o (inj a) e.
Proof.
  revert e. apply natlike_ind.
  - rewrite Z.pow_0_r. apply (zh_1 _ _ Hh).
  - intros e He IH. rewrite Z.pow_succ_r by exact He. unfold Z.succ.
    rewrite fpowz_succ, (zh_mul _ _ Hh), IH by (assumption || lia). reflexivity.
Qed.
End ZHom.

(** ** Binomial theorem and Frobenius *)
Fixpoint bin (n k : nat) : Z :=
  match n, k with
  | _, O => 1
  | O, S _ => 0
  | S n', S k' => bin n' k' + bin n' (S k')
  end.

Lemma bin_0 n : bin n 0 = 1.
Proof. destruct n; reflexivity. Qed.

Lemma bin_over n : forall k, (n < k)%nat -> bin n k = 0.
Proof.
  induction n as [|n IH]; intros k Hk; destruct k as [|k]; try lia; [reflexivity|].
  cbn [bin]. rewrite !IH by lia. reflexivity.
Qed.

Lemma bin_diag n : bin n n = 1.
Proof.
  induction n as [|n IH]; [reflexivity|]. cbn [bin]. rewrite IH, bin_over by lia. reflexivity.
Qed.

Lemma bin_absorb n : forall k,
  Z.of_nat (S k) * bin (S n) (S k) = Z.of_nat (S n) * bin n k.
Proof.
  induction n as [|n IH]; intros k.
  - destruct k as [|k]; [reflexivity|]. cbn [bin]. destruct k; cbn [bin]; lia.
  - change (bin (S (S n)) (S k)) with (bin (S n) k + bin (S n) (S k)).
    rewrite Z.mul_add_distr_l, IH. destruct k as [|j].
    + rewrite !bin_0. lia.
    + pose proof (IH j) as E. change (bin (S n) (S j)) with (bin n j + bin n (S j)) in *. nia.
Qed.

Lemma bin_prime (p : nat) k : prime (Z.of_nat p) -> (0 < k < p)%nat -> (Z.of_nat p | bin p k).
Proof.
  intros Hp Hk. destruct p as [|n]; [lia|]. destruct k as [|j]; [lia|].
  pose proof (bin_absorb n j) as E.
  assert (D : (Z.of_nat (S n) | Z.of_nat (S j) * bin (S n) (S j))).
  { rewrite E. exists (bin n j). ring. }
  apply Gauss in D; [exact D|]. apply rel_prime_sym, rel_prime_le_prime; [exact Hp|lia].
Qed.

Section Binomial.
Context {F : Type} (o : fops F) (HR : ring_laws o) (inj : Z -> F) (Hh : zhom o inj).
Notation "0" := (f0 o). Notation "1" := (f1 o).
Infix "+" := (fadd o). Infix "-" := (fsub o). Infix "*" := (fmul o).
Add Ring FRb : (rl_ring _ HR).

Fixpoint bsum (f : nat -> F) (n : nat) : F :=
  match n with O => 0 | S n' => bsum f n' + f n' end.

Lemma bsum_shift f n : bsum f (S n) = f O + bsum (fun k => f (S k)) n.
Proof.
  induction n as [|n IH].
  - cbn [bsum]. ring.
  - change (bsum f (S (S n))) with (bsum f (S n) + f (S n)). rewrite IH. cbn [bsum]. ring.
Qed.

Lemma bsum_ext f g n : (forall k, (k < n)%nat -> f k = g k) -> bsum f n = bsum g n.
Proof.
  induction n as [|n IH]; intros E; [reflexivity|]. cbn [bsum].
  rewrite IH, E by (intros; try apply E; lia). reflexivity.
Qed.

Lemma bsum_add f g n : bsum (fun k => f k + g k) n = bsum f n + bsum g n.
Proof. induction n as [|n IH]; cbn [bsum]; [ring|]. rewrite IH. ring. Qed.

Lemma bsum_mul c f n : bsum (fun k => c * f k) n = c * bsum f n.
Proof. induction n as [|n IH]; cbn [bsum]; [ring|]. rewrite IH. ring. Qed.

Lemma bsum_zero f n : (forall k, (k < n)%nat -> f k = 0) -> bsum f n = 0.
Proof.
  induction n as [|n IH]; intros E; [reflexivity|]. cbn [bsum].
  rewrite IH, E by (intros; try apply E; lia). ring.
Qed.

Definition bterm (x y : F) (n k : nat) : F :=
  inj (bin n k) * (fpow_nat o x k * fpow_nat o y (n - k)).

Lemma binomial x y n : fpow_nat o (x + y) n = bsum (bterm x y n) (S n).
Proof.
  induction n as [|n IH].
  - cbn [fpow_nat bsum]. unfold bterm. cbn [bin fpow_nat Nat.sub].
    rewrite (zh_1 _ _ Hh). ring.
  - cbn [fpow_nat]. rewrite IH.
    transitivity (bsum (fun k => x * bterm x y n k) (S n) + bsum (fun k => y * bterm x y n k) (S n)).
    { rewrite !bsum_mul. ring. }
    rewrite (bsum_shift (bterm x y (S n))).
    transitivity (bterm x y (S n) O + (bsum (fun k => x * bterm x y n k) (S n)
       + bsum (fun k => inj (bin n (S k)) * (fpow_nat o x (S k) * fpow_nat o y (n - k))) (S n))).
    + rewrite (bsum_shift (fun k => y * bterm x y n k)).
      assert (E : bsum (fun k => y * bterm x y n (S k)) n
        = bsum (fun k => inj (bin n (S k)) * (fpow_nat o x (S k) * fpow_nat o y (n - k))) (S n)).
      { cbn [bsum]. rewrite (bin_over n (S n)) by lia. rewrite (zh_0 _ _ Hh).
        rewrite (bsum_ext (fun k => y * bterm x y n (S k))
          (fun k => inj (bin n (S k)) * (fpow_nat o x (S k) * fpow_nat o y (n - k)))).
        - ring.
        - intros k Hk. unfold bterm. replace (n - k)%nat with (S (n - S k)) by lia.
          cbn [fpow_nat]. ring. }
      rewrite E. unfold bterm. rewrite !bin_0, !Nat.sub_0_r. cbn [fpow_nat]. ring.
    + f_equal. rewrite <- bsum_add. apply bsum_ext. intros k Hk. unfold bterm.
      change (bin (S n) (S k)) with (Z.add (bin n k) (bin n (S k))). rewrite (zh_add _ _ Hh).
      cbn [Nat.sub fpow_nat]. ring.
Qed.

Context (p : Z) (Hp : prime p) (Hchar : inj p = 0).

Lemma inj_multiple a : (p | a) -> inj a = 0.
Proof. intros (k & ->). rewrite (zh_mul _ _ Hh), Hchar. ring. Qed.

Theorem frobenius_add x y : fpowz o (x + y) p = fpowz o x p + fpowz o y p.
Proof.
  assert (P : (1 < p)%Z) by (destruct Hp; assumption).
  rewrite !fpowz_nat by (assumption || lia).
  destruct (Z.to_nat p) as [|m] eqn:Ep; [lia|].
  rewrite binomial, bsum_shift. cbn [bsum].
  rewrite (bsum_zero (fun k => bterm x y (S m) (S k))).
  - unfold bterm. rewrite bin_0, bin_diag, Nat.sub_0_r, Nat.sub_diag, (zh_1 _ _ Hh).
    cbn [fpow_nat]. ring.
  - intros k Hk. unfold bterm. rewrite inj_multiple; [ring|].
    replace p with (Z.of_nat (S m)) by lia. apply bin_prime; [|lia].
    replace (Z.of_nat (S m)) with p by lia. exact Hp.
Qed.
End Binomial.

Lemma NoDup_map_in {A B} (f : A -> B) l :
  (forall a b, In a l -> In b l -> f a = f b -> a = b) -> NoDup l -> NoDup (map f l).
Proof.
  intros Hf Hl. induction Hl as [|a l Ha Hl IH]; cbn [map]; constructor.
  - intros I. apply in_map_iff in I. destruct I as (b & E & Hb). apply Ha.
    replace a with b; [exact Hb|]. apply Hf; cbn; auto.
  - apply IH. intros x y Hx Hy. apply Hf; cbn; auto.
Qed.

(** ** Consequences of [prime_field] *)
Section PF.
Context {F : Type} (p : Z) (o : fops F) (inj : Z -> F) (HP : prime_field p o inj).
Let H := pf_laws _ _ _ HP.
Let HR := fl_rl _ H.
Let Hh := pf_hom _ _ _ HP.

Lemma pf_gt1 : 1 < p.
Proof. destruct (pf_prime _ _ _ HP). assumption. Qed.

Lemma pf_mod a : inj (a mod p) = inj a.
Proof. apply (pf_eq _ _ _ HP). apply Z.mod_mod. pose proof pf_gt1. lia. Qed.

Lemma pf_char : inj p = f0 o.
Proof.
  rewrite <- (zh_0 _ _ Hh). apply (pf_eq _ _ _ HP). pose proof pf_gt1.
  rewrite Z.mod_same, Z.mod_0_l by lia. reflexivity.
Qed.

Lemma pf_zero_iff a : inj a = f0 o <-> a mod p = 0.
Proof.
  rewrite <- (zh_0 _ _ Hh), (pf_eq _ _ _ HP). pose proof pf_gt1. rewrite Z.mod_0_l by lia. tauto.
Qed.

Lemma prime_field_finite : finite_field o p.
Proof.
  constructor; [exact H|].
  exists (map (fun k => inj (Z.of_nat k)) (seq 0 (Z.to_nat p))). pose proof pf_gt1.
  split; [|split].
  - apply NoDup_map_in; [|apply seq_NoDup].
    intros a b Ha Hb E. apply in_seq in Ha, Hb. apply (pf_eq _ _ _ HP) in E.
    rewrite !Z.mod_small in E by lia. lia.
  - intros x. destruct (pf_onto _ _ _ HP x) as (a & ->).
    apply in_map_iff. exists (Z.to_nat (a mod p)).
    pose proof (Z.mod_pos_bound a p). split.
    + rewrite Z2Nat.id by lia. apply pf_mod.
    + apply in_seq. lia.
  - rewrite map_length, seq_length. lia.
Qed.

Lemma pf_two : 2 < p -> fadd o (f1 o) (f1 o) <> f0 o.
Proof.
  intros Hp. rewrite <- (zh_1 _ _ Hh), <- (zh_add _ _ Hh). rewrite pf_zero_iff.
  change (1 + 1) with 2. rewrite Z.mod_small by lia. lia.
Qed.

Lemma pf_pow a e : 0 <= e -> fpowz o (inj a) e = inj (a ^ e mod p).
Proof. intros He. rewrite pf_mod. symmetry. apply inj_pow; assumption. Qed.

Lemma pf_square_iff a : is_square o (inj a) <-> exists y, (y * y) mod p = a mod p.
Proof.
  split.
  - intros (y & E). destruct (pf_onto _ _ _ HP y) as (b & ->). exists b.
    apply (pf_eq _ _ _ HP). rewrite (zh_mul _ _ Hh). exact E.
  - intros (y & E). exists (inj y). rewrite <- (zh_mul _ _ Hh). apply (pf_eq _ _ _ HP). exact E.
Qed.
End PF.

(** ** Representations of a prime field by integers *)
Record zrep (p : Z) {F : Type} (o : fops F) (inj : Z -> F) (val : F -> Z) : Prop := {
  zr_val_inj : forall a, val (inj a) = a mod p;
  zr_inj_val : forall x, inj (val x) = x;
  zr_0 : val (f0 o) = 0;
  zr_1 : val (f1 o) = 1;
  zr_add : forall x y, val (fadd o x y) = (val x + val y) mod p;
  zr_sub : forall x y, val (fsub o x y) = (val x - val y) mod p;
  zr_mul : forall x y, val (fmul o x y) = (val x * val y) mod p;
  zr_neg : forall x, val (fneg o x) = (- val x) mod p;
  zr_sqr : forall x, val (fsqr o x) = (val x * val x) mod p;
  zr_dbl : forall x, val (fdbl o x) = (val x + val x) mod p;
  zr_inv : forall x, finv o x = if val x =? 0 then None else finv o x;
  zr_inv_some : forall x, val x <> 0 ->
    exists y, finv o x = Some y /\ (val x * val y) mod p = 1;
  zr_eqb : forall x y, feqb o x y = (val x =? val y);
  zr_is0 : forall x, fis0 o x = (val x =? 0) }.

Section ZRep.
Context (p : Z) {F : Type} (o : fops F) (inj : Z -> F) (val : F -> Z).
Context (Hp : prime p) (HZ : zrep p o inj val).

Lemma zr_p : 1 < p.
Proof. destruct Hp; assumption. Qed.

Lemma zr_ext x y : val x = val y -> x = y.
Proof. intros E. rewrite <- (zr_inj_val _ _ _ _ HZ x), E. apply (zr_inj_val _ _ _ _ HZ). Qed.

Lemma zr_bound x : 0 <= val x < p.
Proof.
  rewrite <- (zr_inj_val _ _ _ _ HZ x), (zr_val_inj _ _ _ _ HZ).
  apply Z.mod_pos_bound. pose proof zr_p. lia.
Qed.

Lemma zr_mod x : val x mod p = val x.
Proof. apply Z.mod_small, zr_bound. Qed.

Ltac zr := repeat rewrite ?(zr_0 _ _ _ _ HZ), ?(zr_1 _ _ _ _ HZ), ?(zr_add _ _ _ _ HZ),
  ?(zr_sub _ _ _ _ HZ), ?(zr_mul _ _ _ _ HZ), ?(zr_neg _ _ _ _ HZ),
  ?(zr_sqr _ _ _ _ HZ), ?(zr_dbl _ _ _ _ HZ), ?(zr_val_inj _ _ _ _ HZ).

Lemma zrep_prime_field : prime_field p o inj.
Proof.
  pose proof zr_p as P1. constructor.
  - exact Hp.
  - constructor.
    + constructor.
      * constructor; intros; apply zr_ext; zr;
          rewrite ?Zplus_mod_idemp_l, ?Zplus_mod_idemp_r, ?Zmult_mod_idemp_l, ?Zmult_mod_idemp_r,
            ?Zminus_mod_idemp_l, ?Zminus_mod_idemp_r.
        -- rewrite Z.add_0_l. apply zr_mod.
        -- f_equal; ring.
        -- f_equal; ring.
        -- rewrite Z.mul_1_l. apply zr_mod.
        -- f_equal; ring.
        -- f_equal; ring.
        -- f_equal; ring.
        -- f_equal; ring.
        -- rewrite Z.add_opp_diag_r. apply Z.mod_0_l. lia.
      * intros a. apply zr_ext. zr. reflexivity.
      * intros a. apply zr_ext. zr. reflexivity.
    + intros E. apply (f_equal val) in E. rewrite (zr_0 _ _ _ _ HZ), (zr_1 _ _ _ _ HZ) in E. lia.
    + rewrite (zr_inv _ _ _ _ HZ), (zr_0 _ _ _ _ HZ). reflexivity.
    + intros a Ha. destruct (zr_inv_some _ _ _ _ HZ a) as (y & Ey & Em).
      * intros E. apply Ha. apply zr_ext. rewrite (zr_0 _ _ _ _ HZ). exact E.
      * exists y. split; [exact Ey|]. apply zr_ext. zr. exact Em.
    + intros a b. rewrite (zr_eqb _ _ _ _ HZ), Z.eqb_eq. split; [apply zr_ext|intros ->; reflexivity].
  - intros a. rewrite (zr_is0 _ _ _ _ HZ), Z.eqb_eq. split.
    + intros E. apply zr_ext. rewrite (zr_0 _ _ _ _ HZ). exact E.
    + intros ->. apply (zr_0 _ _ _ _ HZ).
  - constructor; intros; apply zr_ext; zr.
    + apply Z.mod_0_l. lia.
    + apply Z.mod_small. lia.
    + apply Zplus_mod.
    + apply Zmult_mod.
  - intros a b. split.
    + intros E. apply (f_equal val) in E. rewrite !(zr_val_inj _ _ _ _ HZ) in E. exact E.
    + intros E. apply zr_ext. rewrite !(zr_val_inj _ _ _ _ HZ). exact E.
  - intros x. exists (val x). symmetry. apply (zr_inj_val _ _ _ _ HZ).
Qed.
End ZRep.

(** ** The standard prime field: residues in [0, p) *)
Definition zp (p : Z) : Type := { z : Z | (z mod p =? z) = true }.

Lemma zp_ext p (a b : zp p) : proj1_sig a = proj1_sig b -> a = b.
Proof.
  destruct a as [a Ha], b as [b Hb]. cbn. intros ->. f_equal.
  apply Eqdep_dec.UIP_dec. apply bool_dec.
Qed.

Lemma zp_inj_proof p a : ((a mod p) mod p =? a mod p) = true.
Proof.
  apply Z.eqb_eq. destruct (Z.eq_dec p 0) as [->|Hp]; [rewrite !Zmod_0_r; reflexivity|].
  apply Z.mod_mod. exact Hp.
Qed.

Definition zp_inj (p a : Z) : zp p := exist _ (a mod p) (zp_inj_proof p a).
Definition zp_val {p} (x : zp p) : Z := proj1_sig x.

Definition zp_ops_gen (p : Z) (inv : Z -> Z) : fops (zp p) :=
  {| f0 := zp_inj p 0; f1 := zp_inj p 1;
     fadd := fun a b => zp_inj p (zp_val a + zp_val b);
     fsub := fun a b => zp_inj p (zp_val a - zp_val b);
     fmul := fun a b => zp_inj p (zp_val a * zp_val b);
     fneg := fun a => zp_inj p (- zp_val a);
     fsqr := fun a => zp_inj p (zp_val a * zp_val a);
     fdbl := fun a => zp_inj p (zp_val a + zp_val a);
     finv := fun a => if zp_val a =? 0 then None else Some (zp_inj p (inv (zp_val a)));
     feqb := fun a b => zp_val a =? zp_val b;
     fis0 := fun a => zp_val a =? 0 |}.
(** Inverse by exponentiation. *)
Definition zp_ops (p : Z) : fops (zp p) := zp_ops_gen p (fun a => modpow a (p - 2) p).

Lemma zp_gen_zrep p inv : prime p ->
  (forall a, 0 < a < p -> (a * inv a) mod p = 1) ->
  zrep p (zp_ops_gen p inv) (zp_inj p) zp_val.
Proof.
  intros Hp Hi. assert (P1 : 1 < p) by (destruct Hp; assumption).
  assert (B : forall x : zp p, 0 <= zp_val x < p).
  { intros [x Hx]. cbn. apply Z.eqb_eq in Hx. rewrite <- Hx. apply Z.mod_pos_bound. lia. }
  constructor; intros; cbn; try reflexivity.
  - apply zp_ext. cbn. apply Z.mod_small. apply B.
  - apply Z.mod_small. lia.
  - destruct (zp_val x =? 0); reflexivity.
  - destruct (Z.eqb_spec (zp_val x) 0) as [E|E]; [contradiction|].
    eexists. split; [reflexivity|]. cbn. rewrite Zmult_mod_idemp_r. apply Hi.
    pose proof (B x). lia.
Qed.

Lemma zp_inverse_exists p a : prime p -> 0 < a < p -> exists b, 0 <= b < p /\ (a * b) mod p = 1.
Proof.
  intros Hp Ha. assert (P1 : 1 < p) by (destruct Hp; assumption).
  assert (Hr : rel_prime a p) by (apply rel_prime_le_prime; [exact Hp|lia]).
  apply rel_prime_bezout in Hr. destruct Hr as [u v E].
  exists (u mod p). split; [apply Z.mod_pos_bound; lia|].
  rewrite Zmult_mod_idemp_r. replace (a * u) with (1 + (- v) * p) by lia.
  rewrite Z.mod_add by lia. apply Z.mod_small. lia.
Qed.

(** Fermat's little theorem in Z. *)
Theorem fermat_Z p a : prime p -> 0 < a < p -> a ^ (p - 1) mod p = 1.
Proof.
  intros Hp Ha. assert (P1 : 1 < p) by (destruct Hp; assumption).
  pose (inv := fun x => match find (fun b => (x * b) mod p =? 1) (map Z.of_nat (seq 0 (Z.to_nat p))) with
                        | Some b => b | None => 0 end).
  assert (Hi : forall x, 0 < x < p -> (x * inv x) mod p = 1).
  { intros x Hx. unfold inv. destruct (find _ _) as [b|] eqn:E.
    - apply find_some in E. apply Z.eqb_eq. apply E.
    - exfalso. destruct (zp_inverse_exists p x Hp Hx) as (b & Hb & Eb).
      pose proof (find_none _ _ E b) as N. cbv beta in N. rewrite Eb in N. cbn in N.
      enough (true = false) by discriminate. apply N. apply in_map_iff.
      exists (Z.to_nat b). split; [lia|]. apply in_seq. lia. }
  pose proof (zrep_prime_field p _ _ _ Hp (zp_gen_zrep p inv Hp Hi)) as PF.
  pose proof (fermat _ (pf_laws _ _ _ PF) p (prime_field_finite _ _ _ PF) (zp_inj p a)) as FT.
  rewrite (pf_pow _ _ _ PF) in FT by lia.
  change (f1 (zp_ops_gen p inv)) with (zp_inj p 1) in FT.
  assert (E : zp_inj p (a ^ (p - 1) mod p) = zp_inj p 1).
  { apply FT. intros E. apply (pf_zero_iff _ _ _ PF) in E. rewrite Z.mod_small in E by lia. lia. }
  apply (pf_eq _ _ _ PF) in E. rewrite Z.mod_mod in E by lia. rewrite E. apply Z.mod_small. lia.
Qed.

Lemma modpow_inverse p a : prime p -> 0 < a < p -> (a * modpow a (p - 2) p) mod p = 1.
Proof.
  intros Hp Ha. assert (P1 : 1 < p) by (destruct Hp; assumption).
  rewrite modpow_spec by lia. rewrite Zmult_mod_idemp_r.
  rewrite <- (fermat_Z p a Hp Ha). f_equal. replace (p - 1) with (Z.succ (p - 2)) by lia.
  rewrite Z.pow_succ_r by lia. reflexivity.
Qed.

Theorem zp_zrep p : prime p -> zrep p (zp_ops p) (zp_inj p) zp_val.
Proof. intros Hp. apply zp_gen_zrep; [exact Hp|]. intros a Ha. apply modpow_inverse; assumption. Qed.

Theorem zp_prime_field p : prime p -> prime_field p (zp_ops p) (zp_inj p).
Proof. intros Hp. apply (zrep_prime_field p _ _ zp_val Hp). apply zp_zrep. exact Hp. Qed.
