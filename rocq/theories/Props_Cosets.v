(** C70: the constants DELTA, ROOT_OF_UNITY and ZETA of a field (derive/src/field/mod.rs:445-447, 599) split its
    multiplicative group: the cosets by the powers of DELTA of the group of 2^S-th roots of unity are disjoint and
    cover it, and the cosets by 1, ZETA and ZETA^2 are disjoint.  Permutation arguments and extended domains of the
    users of the crate rest on this. *)
From Verif Require Import Base Pow SpecField Limbs LimbsFacts Field FieldFacts Params ConstFacts Certs Props_Field Props_Field2.
Local Open Scope Z_scope.

Lemma o_p p : prime p -> 1 < p.
Proof. intros []. lia. Qed.
Section Order.
Variables (p a n : Z).
Hypothesis Hp : prime p.
Hypothesis HO : has_order p a n.
Lemma o_pow_mod q : 0 <= q -> a ^ (n * q) mod p = 1.
Proof using All.
  intros Q. pose proof (o_p p Hp). destruct HO as (N & E & _). rewrite Z.pow_mul_r by lia. rewrite Zpower_mod, E, Z.pow_1_l by lia. apply Z.mod_1_l. lia.
Qed.
Lemma o_reduce k : 0 <= k -> a ^ k mod p = a ^ (k mod n) mod p.
Proof using All.
  intros K. pose proof (o_p p Hp). pose proof HO as (N & _). pose proof (Z.mod_pos_bound k n N). pose proof (Z.div_pos k n K N).
  rewrite (Z.div_mod k n) at 1 by lia. rewrite Z.pow_add_r by nia. rewrite Z.mul_mod, o_pow_mod, Z.mul_1_l, Z.mod_mod by lia. reflexivity.
Qed.
Lemma o_div k : 0 <= k -> a ^ k mod p = 1 -> (n | k).
Proof using All.
  intros K E. rewrite o_reduce in E by exact K. pose proof HO as (N & _ & M). apply Z.mod_divide; [lia|].
  destruct (Z.eq_dec (k mod n) 0) as [Z0|Z0]; [exact Z0|]. pose proof (Z.mod_pos_bound k n N). now destruct (M (k mod n) ltac:(lia)).
Qed.
Lemma o_unit k : 0 <= k -> rel_prime p (a ^ k).
Proof using All.
  intros K. apply prime_rel_prime; [exact Hp|]. intros D. pose proof (o_p p Hp). pose proof HO as (N & _).
  assert (D' : (p | a ^ (n * k))). { replace (n * k) with (k + (n - 1) * k) by ring. rewrite Z.pow_add_r by nia. apply Z.divide_mul_l. exact D. }
  pose proof (o_pow_mod k K) as E. apply Z.mod_divide in D'; lia.
Qed.
Lemma o_same u v : 0 <= v <= u -> a ^ u mod p = a ^ v mod p -> (n | u - v).
Proof using All.
  intros B E. pose proof (o_p p Hp). apply o_div; [lia|].
  assert (D : (p | a ^ v * (a ^ (u - v) - 1))).
  { replace (a ^ v * (a ^ (u - v) - 1)) with (a ^ u - a ^ v) by (replace (a ^ u) with (a ^ v * a ^ (u - v)) by (rewrite <- Z.pow_add_r by lia; f_equal; lia); ring).
    apply Z.mod_divide; [lia|]. rewrite Zminus_mod, E, Z.sub_diag. apply Z.mod_0_l. lia. }
  apply Gauss in D; [|apply o_unit; lia]. destruct D as [q D]. replace (a ^ (u - v)) with (1 + q * p) by lia.
  rewrite Z_mod_plus_full. apply Z.mod_1_l. lia.
Qed.
Lemma o_eq u v : 0 <= u -> 0 <= v -> (a ^ u mod p = a ^ v mod p <-> (n | u - v)).
Proof using All.
  intros U V. pose proof HO as (N & _). split.
  - intros E. destruct (Z_le_gt_dec v u) as [H|H]; [apply o_same; [lia|exact E]|].
    apply Z.divide_opp_r. replace (- (u - v)) with (v - u) by ring. apply o_same; [lia|now symmetry].
  - intros D. rewrite (o_reduce u U), (o_reduce v V). f_equal. f_equal. apply Z.mod_divide in D; [|lia].
    replace u with (v + (u - v)) by ring. rewrite Z.add_mod, D, Z.add_0_r, Z.mod_mod by lia. reflexivity.
Qed.
End Order.

(** An element of order p - 1 has every non-zero residue as a power. *)
Lemma zseq_nodup (f : Z -> Z) m : (forall i j, 0 <= i < Z.of_nat m -> 0 <= j < Z.of_nat m -> f i = f j -> i = j) ->
  NoDup (map (fun i => f (Z.of_nat i)) (seq 0 m)).
Proof.
  intros H. assert (G : forall k s, (s + k <= m)%nat -> NoDup (map (fun i => f (Z.of_nat i)) (seq s k))).
  { induction k as [|k IH]; intros s L; [constructor|]. cbn [seq map]. constructor; [|apply IH; lia].
    intros I. apply in_map_iff in I as (j & E & I). apply in_seq in I. apply H in E; lia. }
  apply G. lia.
Qed.
Lemma all_powers p g : prime p -> has_order p g (p - 1) -> forall x, 0 < x < p -> exists e, 0 <= e < p - 1 /\ x = g ^ e mod p.
Proof.
  intros Hp HO x Hx. pose proof (o_p p Hp) as P1. set (m := Z.to_nat (p - 1)). assert (M : Z.of_nat m = p - 1) by (unfold m; lia). clearbody m.
  set (l := map (fun i => g ^ Z.of_nat i mod p) (seq 0 m)). set (l' := map (fun i => Z.of_nat i + 1) (seq 0 m)).
  assert (I : incl l' l).
  { apply NoDup_length_incl.
    - apply (zseq_nodup (fun e => g ^ e mod p)). intros i j Bi Bj E. apply (o_eq p g (p - 1) Hp HO) in E as [q E]; [|lia..].
      rewrite M in *. assert (q = 0) by nia. lia.
    - unfold l, l'. rewrite !map_length. lia.
    - intros y Hy. apply in_map_iff in Hy as (i & <- & _). apply in_map_iff.
      assert (B : 0 < g ^ Z.of_nat i mod p < p).
      { pose proof (Z.mod_pos_bound (g ^ Z.of_nat i) p ltac:(lia)) as B. destruct (Z.eq_dec (g ^ Z.of_nat i mod p) 0) as [E|E]; [|lia].
        apply Z.mod_divide in E; [|lia]. pose proof (o_unit p g (p - 1) Hp HO (Z.of_nat i) ltac:(lia)) as U.
        destruct U as [_ _ U]. pose proof (U p (Z.divide_refl p) E) as D. apply Z.divide_1_r in D. lia. }
      exists (Z.to_nat (g ^ Z.of_nat i mod p - 1)). split; [lia|]. apply in_seq. lia. }
  assert (X : In x l'). { apply in_map_iff. exists (Z.to_nat (x - 1)). split; [lia|]. apply in_seq. lia. }
  apply I in X. apply in_map_iff in X as (i & E & Hi). apply in_seq in Hi. exists (Z.of_nat i). split; [lia|now symmetry].
Qed.

Section Split.
Variables (p g s t : Z).
Hypothesis Hp : prime p.
Hypothesis HO : has_order p g (p - 1).
Hypothesis Hst : p - 1 = s * t.
Hypothesis Hs : 0 < s.
Hypothesis Ht : 0 < t.
Hypothesis Hc : rel_prime s t.
Lemma split_pow i j : 0 <= i -> 0 <= j -> (g ^ s mod p) ^ i * (g ^ t mod p) ^ j mod p = g ^ (s * i + t * j) mod p.
Proof using All.
  intros I J. pose proof (o_p p Hp). rewrite Z.mul_mod, <- !Zpower_mod, <- Z.mul_mod, <- !Z.pow_mul_r, <- Z.pow_add_r by nia. reflexivity.
Qed.
Lemma split_exists x : 0 < x < p -> exists i j, 0 <= i < t /\ 0 <= j < s /\ x = (g ^ s mod p) ^ i * (g ^ t mod p) ^ j mod p.
Proof using All.
  intros Hx. destruct (all_powers p g Hp HO x Hx) as (e & Be & ->).
  destruct (rel_prime_bezout s t Hc) as [u v E].
  exists ((u * e) mod t), ((v * e) mod s). pose proof (Z.mod_pos_bound (u * e) t Ht) as B1. pose proof (Z.mod_pos_bound (v * e) s Hs) as B2.
  split; [exact B1|]. split; [exact B2|]. rewrite split_pow by lia.
  apply (o_eq p g (p - 1) Hp HO); [lia|nia|]. rewrite Hst.
  exists (u * e / t + v * e / s). pose proof (Z.div_mod (u * e) t ltac:(lia)) as D1. pose proof (Z.div_mod (v * e) s ltac:(lia)) as D2.
  replace ((u * e) mod t) with (u * e - t * (u * e / t)) by lia. replace ((v * e) mod s) with (v * e - s * (v * e / s)) by lia.
  replace e with ((u * s + v * t) * e) at 1 by (rewrite E; ring). ring.
Qed.
Lemma split_unique i j i' j' : 0 <= i < t -> 0 <= j < s -> 0 <= i' < t -> 0 <= j' < s ->
  (g ^ s mod p) ^ i * (g ^ t mod p) ^ j mod p = (g ^ s mod p) ^ i' * (g ^ t mod p) ^ j' mod p -> i = i' /\ j = j'.
Proof using All.
  intros I J I' J' E. rewrite !split_pow in E by lia.
  assert (N1 : 0 <= s * i + t * j) by (clear - I J Hs Ht; nia). assert (N2 : 0 <= s * i' + t * j') by (clear - I' J' Hs Ht; nia).
  apply (proj1 (o_eq p g (p - 1) Hp HO _ _ N1 N2)) in E. rewrite Hst in E. destruct E as [q E].
  assert (Dt : (t | s * (i - i'))) by (exists (q * s - (j - j')); clear - E; lia).
  assert (Ds : (s | t * (j - j'))) by (exists (q * t - (i - i')); clear - E; lia).
  apply Gauss in Dt; [|apply rel_prime_sym; exact Hc]. apply Gauss in Ds; [|exact Hc].
  destruct Dt as [a Da]. destruct Ds as [b Db]. clear - I J I' J' Da Db. assert (a = 0) by nia. assert (b = 0) by nia. nia.
Qed.
Lemma part_order : has_order p (g ^ s mod p) t.
Proof using All.
  pose proof (o_p p Hp) as P1. split; [exact Ht|]. split.
  - rewrite <- Zpower_mod, <- Z.pow_mul_r, <- Hst by lia. apply HO.
  - intros k K E. rewrite <- Zpower_mod, <- Z.pow_mul_r in E by lia. apply (o_div p g (p - 1) Hp HO) in E; [|nia].
    rewrite Hst in E. destruct E as [q E]. assert (E' : k = q * t).
    { apply (Z.mul_reg_l _ _ s); [lia|]. rewrite E. ring. }
    clear - E' K. assert (0 < q) by nia. nia.
Qed.
End Split.

(** [delta] has odd order [t], and every non-zero element is the product of a power of [delta] and a power of the
    root of unity in exactly one way. *)
Theorem C70_delta : forall c, In c all_fields ->
  let p := modulus c in let rep := represents (num_limbs c) p in let n := 2 ^ two_adicity c in
  exists t delta w, p - 1 = n * t /\ Z.odd t = true /\ rep (DELTA c) delta /\ rep (ROOT_OF_UNITY c) w /\
    has_order p delta t /\ has_order p w n /\
    (forall x, 0 < x < p -> exists i j, 0 <= i < t /\ 0 <= j < n /\ x = (delta ^ i * w ^ j) mod p) /\
    (forall i j i' j', 0 <= i < t -> 0 <= j < n -> 0 <= i' < t -> 0 <= j' < n ->
       (delta ^ i * w ^ j) mod p = (delta ^ i' * w ^ j') mod p -> i = i' /\ j = j').
Proof.
  intros c Ic p rep n. pose proof (field_odd c Ic) as Hc. pose proof (field_prime c Ic) as Hp. pose proof (C09_generator c Ic) as HO.
  destruct (adicity c Hc) as (A1 & A2 & A3 & A4). fold p n in Hp, HO, A3. assert (N0 : 0 < n) by (apply Z.pow_pos_nonneg; lia).
  assert (RP : rel_prime n (odd_part c)).
  { apply rel_prime_sym. unfold n. apply rel_prime_Zpower_r; [lia|]. apply rel_prime_sym. apply prime_rel_prime; [apply prime_2|].
    intros [q D]. rewrite D, Z.odd_mul, andb_false_r in A4. discriminate. }
  exists (odd_part c), (mul_gen c ^ n mod p), (mul_gen c ^ odd_part c mod p).
  split; [exact A3|]. split; [exact A4|]. pose proof (const_repr c Hc) as CR. fold p rep in CR. pose proof (o_p p Hp) as P1.
  split. { replace (mul_gen c ^ n mod p) with (delta_int c mod p); [apply CR|]. unfold delta_int. rewrite Z.shiftl_1_l, modpow_spec by lia.
    fold p n. apply Z.mod_mod. lia. }
  split. { replace (mul_gen c ^ odd_part c mod p) with (root_of_unity_int c mod p); [apply CR|]. unfold root_of_unity_int. rewrite modpow_spec by lia.
    fold p. apply Z.mod_mod. lia. }
  split; [exact (part_order p _ n _ Hp HO A3 N0 A2 RP)|].
  split; [refine (part_order p _ _ n Hp HO _ A2 N0 (rel_prime_sym _ _ RP)); rewrite A3; ring|].
  split; [exact (split_exists p _ n _ Hp HO A3 N0 A2 RP)|exact (split_unique p _ n _ Hp HO A3 N0 A2 RP)].
Qed.
Print Assumptions C70_delta.

(** The cosets by 1, [zeta] and [zeta]^2 of the roots of unity are disjoint too. *)
Theorem C70_zeta : forall c, In c all_fields ->
  let p := modulus c in let rep := represents (num_limbs c) p in let n := 2 ^ two_adicity c in
  exists z w, rep (ZETA c) z /\ rep (ROOT_OF_UNITY c) w /\ has_order p z 3 /\
    (forall i j i' j', 0 <= i < 3 -> 0 <= j < n -> 0 <= i' < 3 -> 0 <= j' < n ->
       (z ^ i * w ^ j) mod p = (z ^ i' * w ^ j') mod p -> i = i' /\ j = j').
Proof.
  intros c Ic p rep n. pose proof (field_odd c Ic) as Hc. pose proof (field_prime c Ic) as Hp.
  destruct (C70_delta c Ic) as (t & delta & w & _ & _ & _ & Rw & _ & Hw & _ & _). fold p n in Hw. fold p rep in Rw. fold p in Hp. pose proof (o_p p Hp) as P1.
  pose proof (zeta_order c Ic) as HZ. fold p in HZ. destruct (C09_crate c Ic) as (_ & _ & Zb). fold p in Zb.
  exists (zeta c), w. split.
  { destruct (C09_constants c Hc (field_prime c Ic) (generator_half _ Ic)) as (_ & _ & _ & _ & _ & _ & _ & Rz & _). fold p rep in Rz.
    rewrite Z.mod_small in Rz by lia. exact Rz. }
  split; [exact Rw|]. split; [exact HZ|]. intros i j i' j' I J I' J' E.
  destruct (adicity c Hc) as (A1 & _ & _ & _). assert (N0 : 0 < n) by (apply Z.pow_pos_nonneg; lia).
  assert (R3 : rel_prime 3 n).
  { unfold n. apply rel_prime_Zpower_r; [clear - A1; lia|]. apply prime_rel_prime; [apply prime_3|]. intros [q D]. clear - D. lia. }
  clearbody n. clear A1 Zb. clearbody p.
  assert (Ei : i = i').
  { assert (Q : forall i j, 0 <= i -> 0 <= j -> (zeta c ^ i * w ^ j) ^ n mod p = zeta c ^ (i * n) mod p).
    { intros a b Ha Hb. rewrite Z.pow_mul_l, <- !Z.pow_mul_r by lia. rewrite Z.mul_mod, (Z.mul_comm b n), (o_pow_mod p w n Hp Hw b Hb), Z.mul_1_r, Z.mod_mod by lia. reflexivity. }
    assert (E2 : zeta c ^ (i * n) mod p = zeta c ^ (i' * n) mod p).
    { rewrite <- (Q i j), <- (Q i' j') by lia. rewrite Zpower_mod, E, <- Zpower_mod by lia. reflexivity. }
    assert (N1 : 0 <= i * n) by (apply Z.mul_nonneg_nonneg; [apply I|apply Z.lt_le_incl; exact N0]).
    assert (N2 : 0 <= i' * n) by (apply Z.mul_nonneg_nonneg; [apply I'|apply Z.lt_le_incl; exact N0]).
    apply (proj1 (o_eq p (zeta c) 3 Hp HZ _ _ N1 N2)) in E2. replace (i * n - i' * n) with (n * (i - i')) in E2 by ring.
    apply Gauss in E2; [destruct E2 as [q E2]; clear - E2 I I'; lia|]. exact R3. }
  split; [exact Ei|]. subst i'.
  assert (D : (p | zeta c ^ i * (w ^ j - w ^ j'))).
  { apply Z.mod_divide; [lia|]. rewrite Z.mul_sub_distr_l, Zminus_mod, E, Z.sub_diag. apply Z.mod_0_l. lia. }
  apply Gauss in D; [|apply (o_unit p (zeta c) 3 Hp HZ); lia].
  assert (E3 : w ^ j mod p = w ^ j' mod p).
  { destruct D as [q D]. replace (w ^ j) with (w ^ j' + q * p) by lia. apply Z_mod_plus_full. }
  apply (proj1 (o_eq p w n Hp Hw _ _ (proj1 J) (proj1 J'))) in E3. clear - E3 J J' N0. destruct E3 as [q E3]. assert (q = 0) by nia. subst q. lia.
Qed.
Print Assumptions C70_zeta.
(** The groups are not trivial in the fields that are transformed over; and in the field of 97 elements, with 3
    times 2^5 pairs of exponents, each of the 96 non-zero elements is met once. *)
Example C70_example :
  forallb (fun c => (16 <=? 2 ^ two_adicity c) && (3 <=? odd_part c)) [bn256_fr; bls12381_fr; secp256r1_fq; pluto_eris_fp; pluto_eris_fq] = true /\
  (two_adicity small_field, odd_part small_field) = (5, 3) /\
  (let l := flat_map (fun i => map (fun j => (delta_int small_field ^ i * root_of_unity_int small_field ^ j) mod 97) (map Z.of_nat (seq 0 32))) [0; 1; 2] in
   forallb (fun x => Nat.eqb 1 (length (filter (Z.eqb x) l))) (map Z.of_nat (seq 1 96)) = true).
Proof. vm_compute. auto. Qed.
