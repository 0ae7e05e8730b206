(** Laws of the Jacobi symbol of SpecJacobi.v: periodicity, multiplication by -1 and
    2, quadratic reciprocity, and agreement with the Legendre symbol. *)
From Verif Require Import Base SpecJacobi.

(** ** Lists *)
Lemma xor_all_perm l l' : Permutation l l' -> xor_all l = xor_all l'.
Proof.
  unfold xor_all. induction 1; cbn; auto.
  - congruence.
  - match goal with |- context [fold_right xorb false ?l] => destruct x, y, (fold_right xorb false l); reflexivity end.
  - congruence.
Qed.

Lemma xor_all_map_xorb {A} (f g : A -> bool) l :
  xor_all (map (fun x => xorb (f x) (g x)) l) = xorb (xor_all (map f l)) (xor_all (map g l)).
Proof.
  induction l as [|x l IH]; cbn; [reflexivity|]. change (fold_right xorb false) with xor_all. rewrite IH.
  destruct (f x), (g x), (xor_all (map f l)), (xor_all (map g l)); reflexivity.
Qed.

Lemma map_ext_in' {A B} (f g : A -> B) l : (forall x, In x l -> f x = g x) -> map f l = map g l.
Proof. apply map_ext_in. Qed.

Definition zsum (l : list Z) : Z := fold_right Z.add 0 l.
Definition zprod (l : list Z) : Z := fold_right Z.mul 1 l.

Lemma zsum_perm l l' : Permutation l l' -> zsum l = zsum l'.
Proof. unfold zsum. induction 1; cbn in *; lia. Qed.
Lemma zprod_perm l l' : Permutation l l' -> zprod l = zprod l'.
Proof. unfold zprod. induction 1; cbn in *; nia. Qed.

Lemma xor_all_odd l : xor_all (map Z.odd l) = Z.odd (zsum l).
Proof.
  induction l as [|x l IH]; cbn; [reflexivity|].
  change (fold_right Z.add 0 l) with (zsum l). rewrite Z.odd_add, <- IH. reflexivity.
Qed.

(** ** The half range *)
Lemma in_half_range n k : 0 < n -> (In k (half_range n) <-> 1 <= k <= (n - 1) / 2).
Proof.
  intros Hn. unfold half_range. rewrite in_map_iff.
  assert (0 <= (n - 1) / 2) by (apply Z.div_pos; lia).
  split.
  - intros (i & <- & Hi). apply in_seq in Hi. lia.
  - intros Hk. exists (Z.to_nat k). split; [lia|]. apply in_seq. lia.
Qed.

Lemma nodup_half_range n : NoDup (half_range n).
Proof.
  unfold half_range. apply FinFun.Injective_map_NoDup; [|apply seq_NoDup].
  intros x y. apply Nat2Z.inj.
Qed.

Lemma length_half_range n : length (half_range n) = Z.to_nat ((n - 1) / 2).
Proof. unfold half_range. now rewrite map_length, seq_length. Qed.

(** The residue of smallest absolute value, without its sign. *)
Definition absres (n x : Z) : Z := if upper n x then n - x mod n else x mod n.

Section odd.
Context (n : Z) (Hn : 0 < n) (Ho : Z.odd n = true).

Lemma odd_half : n = 2 * ((n - 1) / 2) + 1.
Proof.
  clear Hn. apply Z.odd_spec in Ho. destruct Ho as [q ->].
  replace (2 * q + 1 - 1) with (q * 2) by ring. rewrite Z.div_mul by lia. reflexivity.
Qed.

Lemma absres_bound x : ~ (n | x) -> 1 <= absres n x <= (n - 1) / 2.
Proof.
  intros Nx. pose proof odd_half as Hh. pose proof (Z.mod_pos_bound x n Hn) as B.
  assert (x mod n <> 0) by (intros E; apply Nx; apply Z.mod_divide; lia).
  unfold absres, upper. destruct (Z.ltb_spec n (2 * (x mod n))); lia.
Qed.

Lemma absres_eqm x : exists q, x = (if upper n x then - absres n x else absres n x) + q * n.
Proof.
  clear Ho. unfold absres. pose proof (Z.div_mod x n ltac:(lia)) as E. destruct (upper n x).
  - exists (x / n + 1). lia.
  - exists (x / n). lia.
Qed.

Lemma upper_period x q : upper n (x + q * n) = upper n x.
Proof. unfold upper. now rewrite Z_mod_plus_full. Qed.
Lemma upper_neg x : ~ (n | x) -> upper n (- x) = negb (upper n x).
Proof.
  intros Nx. pose proof (Z.mod_pos_bound x n Hn) as B. pose proof odd_half as Hh.
  assert (x mod n <> 0) by (intros E; apply Nx; apply Z.mod_divide; lia).
  unfold upper. rewrite Z.mod_opp_l_nz by lia.
  destruct (Z.ltb_spec n (2 * (x mod n))), (Z.ltb_spec n (2 * (n - x mod n))); lia || reflexivity.
Qed.

Lemma absres_period x q : absres n (x + q * n) = absres n x.
Proof. unfold absres. rewrite upper_period. now rewrite Z_mod_plus_full. Qed.

Lemma half_not_div k : 1 <= k <= (n - 1) / 2 -> ~ (n | k).
Proof. intros Hk Hd. apply Z.divide_pos_le in Hd; [|lia]. pose proof odd_half. lia. Qed.

Section cop.
Context (a : Z) (Ha : Z.gcd a n = 1).

Lemma cop_not_div x : ~ (n | x) -> ~ (n | a * x).
Proof. intros Nx D. apply Nx. apply Z.gauss with a; [exact D|]. now rewrite Z.gcd_comm. Qed.

Lemma absres_inj j k : 1 <= j <= (n - 1) / 2 -> 1 <= k <= (n - 1) / 2 ->
  absres n (a * j) = absres n (a * k) -> j = k.
Proof.
  intros Hj Hk E. pose proof odd_half as Hh.
  destruct (absres_eqm (a * j)) as [q1 E1]. destruct (absres_eqm (a * k)) as [q2 E2].
  rewrite E in E1.
  assert (D : (n | a * (j - k)) \/ (n | a * (j + k))).
  { destruct (upper n (a * j)), (upper n (a * k)).
    - left. exists (q1 - q2). lia.
    - right. exists (q1 + q2). lia.
    - right. exists (q1 + q2). lia.
    - left. exists (q1 - q2). lia. }
  destruct D as [D|D]; (apply Z.gauss in D; [|now rewrite Z.gcd_comm]).
  - destruct (Z.eq_dec j k) as [|N]; [assumption|exfalso].
    apply Z.divide_abs_r in D. apply Z.divide_pos_le in D; lia.
  - exfalso. apply Z.divide_pos_le in D; lia.
Qed.

Lemma absres_perm : Permutation (map (fun k => absres n (a * k)) (half_range n)) (half_range n).
Proof.
  apply NoDup_Permutation_bis.
  - generalize (nodup_half_range n).
    assert (H : forall x, In x (half_range n) -> 1 <= x <= (n - 1) / 2) by (intros x; apply in_half_range; exact Hn).
    revert H. induction (half_range n) as [|x l IH]; intros H ND; cbn; [constructor|].
    inversion ND as [|? ? Nx NDl]; subst. constructor.
    + rewrite in_map_iff. intros (y & E & Hy). apply Nx.
      assert (y = x) by (apply absres_inj; auto using in_cons, in_eq). now subst.
    + apply IH; auto using in_cons.
  - now rewrite map_length.
  - intros x Hx. apply in_map_iff in Hx. destruct Hx as (k & <- & Hk).
    apply in_half_range in Hk; [|exact Hn]. apply in_half_range; [exact Hn|].
    apply absres_bound. apply cop_not_div, half_not_div, Hk.
Qed.

Lemma upper_mul x : ~ (n | x) -> forall c, Z.gcd c n = 1 ->
  upper n (c * x) = xorb (upper n x) (upper n (c * absres n x)).
Proof.
  intros Nx c Hc. destruct (absres_eqm x) as [q E].
  assert (Nc : ~ (n | c * absres n x)).
  { intros D. apply Z.gauss in D; [|now rewrite Z.gcd_comm].
    apply Nx. rewrite E. apply Z.divide_add_r; [|apply Z.divide_factor_r].
    destruct (upper n x); [now apply Z.divide_opp_r|assumption]. }
  destruct (upper n x) eqn:U.
  - replace (c * x) with (- (c * absres n x) + (c * q) * n) by (rewrite E at 2; ring).
    rewrite upper_period, upper_neg by exact Nc. now destruct (upper n (c * absres n x)).
  - replace (c * x) with (c * absres n x + (c * q) * n) by (rewrite E at 2; ring).
    rewrite upper_period. now destruct (upper n (c * absres n x)).
Qed.

Lemma gauss_parity_mul c : Z.gcd c n = 1 ->
  gauss_parity (c * a) n = xorb (gauss_parity c n) (gauss_parity a n).
Proof.
  intros Hc. unfold gauss_parity.
  transitivity (xor_all (map (fun k => xorb (upper n (c * absres n (a * k))) (upper n (a * k))) (half_range n))).
  - f_equal. apply map_ext_in. intros k Hk. apply in_half_range in Hk; [|exact Hn].
    rewrite <- Z.mul_assoc. rewrite upper_mul; [apply xorb_comm|apply cop_not_div, half_not_div, Hk|exact Hc].
  - rewrite xor_all_map_xorb. f_equal.
    rewrite <- (map_map (fun k => absres n (a * k)) (fun y => upper n (c * y))).
    apply xor_all_perm, Permutation_map, absres_perm.
Qed.

(** ** Eisenstein's form *)
Lemma absres_parity x : Z.odd (x mod n) = xorb (upper n x) (Z.odd (absres n x)).
Proof.
  unfold absres. destruct (upper n x).
  - rewrite Z.odd_sub, Ho. now destruct (Z.odd (x mod n)).
  - now destruct (Z.odd (x mod n)).
Qed.

Lemma eisenstein : Z.odd a = true ->
  gauss_parity a n = xor_all (map (fun k => Z.odd (a * k / n)) (half_range n)).
Proof.
  intros Oa. unfold gauss_parity.
  assert (E : xor_all (map (fun k => Z.odd k) (half_range n)) =
    xorb (xor_all (map (fun k => Z.odd (a * k / n)) (half_range n)))
      (xorb (xor_all (map (fun k => upper n (a * k)) (half_range n)))
            (xor_all (map (fun k => Z.odd (absres n (a * k))) (half_range n))))).
  { rewrite <- !xor_all_map_xorb. f_equal. apply map_ext_in. intros k _.
    rewrite <- absres_parity.
    replace (Z.odd k) with (Z.odd (a * k)) by now rewrite Z.odd_mul, Oa.
    rewrite (Z.div_mod (a * k) n) at 1 by lia. now rewrite Z.odd_add, Z.odd_mul, Ho. }
  rewrite <- (map_map (fun k => absres n (a * k)) Z.odd) in E.
  rewrite (xor_all_perm _ _ (Permutation_map Z.odd absres_perm)) in E.
  destruct (xor_all (map Z.odd (half_range n))), (xor_all (map (fun k => Z.odd (a * k / n)) (half_range n))),
    (xor_all (map (fun k => upper n (a * k)) (half_range n))); cbn in E; congruence.
Qed.
End cop.
End odd.

(** ** Lattice points below the diagonal *)
Definition below (n m : Z) (k l : Z) : bool := l * n <? m * k.

Lemma xor_all_false {A} (l : list A) : xor_all (map (fun _ => false) l) = false.
Proof. unfold xor_all. induction l as [|x l IH]; cbn; [reflexivity|]. now rewrite IH. Qed.

Lemma xor_swap {A B} (f : A -> B -> bool) l l' :
  xor_all (map (fun x => xor_all (map (fun y => f x y) l')) l) =
  xor_all (map (fun y => xor_all (map (fun x => f x y) l)) l').
Proof.
  induction l as [|x l IH]; cbn.
  - now rewrite xor_all_false.
  - change (fold_right xorb false) with xor_all. rewrite IH.
    now rewrite <- xor_all_map_xorb.
Qed.

Lemma xor_const_true {A} (l : list A) : xor_all (map (fun _ => true) l) = Nat.odd (length l).
Proof.
  induction l as [|x l IH]; [reflexivity|]. cbn [map length]. rewrite Nat.odd_succ, <- Nat.negb_odd, <- IH.
  cbn. reflexivity.
Qed.

Lemma count_upto (c : nat) (t : Z) : forall s : nat, 0 <= t ->
  xor_all (map (fun l => l <=? t) (map Z.of_nat (seq (S s) c))) =
  Z.odd (Z.min (Z.of_nat c) (Z.max 0 (t - Z.of_nat s))).
Proof.
  induction c as [|c IH]; intros s Ht.
  - cbn. now rewrite Z.min_l by lia.
  - cbn [seq map]. cbn [xor_all fold_right]. change (fold_right xorb false) with xor_all. rewrite IH by exact Ht.
    destruct (Z.leb_spec (Z.of_nat (S s)) t).
    + replace (Z.min (Z.of_nat (S c)) (Z.max 0 (t - Z.of_nat s)))
        with (1 + Z.min (Z.of_nat c) (Z.max 0 (t - Z.of_nat (S s)))) by lia.
      rewrite Z.odd_add. reflexivity.
    + replace (Z.min (Z.of_nat (S c)) (Z.max 0 (t - Z.of_nat s))) with 0 by lia.
      replace (Z.min (Z.of_nat c) (Z.max 0 (t - Z.of_nat (S s)))) with 0 by lia. reflexivity.
Qed.

Section recip.
Context (n m : Z) (Hn : 0 < n) (Hm : 0 < m) (On : Z.odd n = true) (Om : Z.odd m = true) (C : Z.gcd m n = 1).

Lemma below_count k : 1 <= k <= (n - 1) / 2 ->
  Z.odd (m * k / n) = xor_all (map (fun l => below n m k l) (half_range m)).
Proof.
  intros Hk. pose proof (odd_half n On) as Hh. pose proof (odd_half m Om) as Hh'.
  assert (T0 : 0 <= m * k / n) by (apply Z.div_pos; nia).
  assert (T1 : m * k / n <= (m - 1) / 2).
  { apply Z.lt_succ_r. apply Z.div_lt_upper_bound; [lia|]. nia. }
  transitivity (xor_all (map (fun l => l <=? m * k / n) (half_range m))).
  - unfold half_range. rewrite (count_upto (Z.to_nat ((m - 1) / 2)) (m * k / n) 0 T0).
    f_equal. lia.
  - f_equal. apply map_ext_in. intros l Hl. apply in_half_range in Hl; [|exact Hm].
    unfold below. apply eq_true_iff_eq. rewrite Z.leb_le, Z.ltb_lt.
    assert (NE : l * n <> m * k).
    { intros E. assert (D : (n | m * k)) by (exists l; lia).
      apply Z.gauss in D; [|now rewrite Z.gcd_comm]. apply Z.divide_pos_le in D; lia. }
    pose proof (Z.div_mod (m * k) n ltac:(lia)) as E. pose proof (Z.mod_pos_bound (m * k) n Hn).
    split; intros; nia.
Qed.

Lemma gauss_lattice :
  gauss_parity m n = xor_all (map (fun k => xor_all (map (fun l => below n m k l) (half_range m))) (half_range n)).
Proof.
  rewrite (eisenstein n Hn On m C Om). f_equal. apply map_ext_in. intros k Hk.
  apply in_half_range in Hk; [|exact Hn]. now apply below_count.
Qed.
End recip.

Theorem reciprocity_parity n m : 0 < n -> 0 < m -> Z.odd n = true -> Z.odd m = true -> Z.gcd m n = 1 ->
  xorb (gauss_parity m n) (gauss_parity n m) = Z.odd ((n - 1) / 2) && Z.odd ((m - 1) / 2).
Proof.
  intros Hn Hm On Om C.
  rewrite (gauss_lattice n m Hn Hm On Om C).
  rewrite (gauss_lattice m n Hm Hn Om On ltac:(now rewrite Z.gcd_comm)).
  rewrite (xor_swap (fun k l => below m n k l)).
  rewrite <- xor_all_map_xorb.
  transitivity (xor_all (map (fun k => Nat.odd (length (half_range m))) (half_range n))).
  - f_equal. apply map_ext_in. intros k Hk. rewrite <- xor_all_map_xorb, <- xor_const_true.
    f_equal. apply map_ext_in. intros l Hl.
    apply in_half_range in Hk; [|exact Hn]. apply in_half_range in Hl; [|exact Hm].
    unfold below. pose proof (odd_half n On).
    assert (NE : l * n <> m * k).
    { intros E. assert (D : (n | m * k)) by (exists l; lia).
      apply Z.gauss in D; [|now rewrite Z.gcd_comm]. apply Z.divide_pos_le in D; lia. }
    destruct (Z.ltb_spec (l * n) (m * k)), (Z.ltb_spec (k * m) (n * l)); try reflexivity; lia.
  - rewrite !length_half_range.
    assert (OZ : forall z, 0 <= z -> Nat.odd (Z.to_nat z) = Z.odd z).
    { intros z Hz. rewrite <- (Z2Nat.id z Hz) at 2. destruct (Nat.odd (Z.to_nat z)) eqn:E; symmetry.
      - apply Nat.odd_spec in E. destruct E as [q E]. rewrite E. apply Z.odd_spec. exists (Z.of_nat q). lia.
      - assert (E' : Nat.even (Z.to_nat z) = true) by (rewrite <- Nat.negb_odd; now rewrite E).
        apply Nat.even_spec in E'. destruct E' as [q E']. rewrite E'.
        rewrite <- Z.negb_even. replace (Z.even _) with true; [reflexivity|]. symmetry. apply Z.even_spec.
        exists (Z.of_nat q). lia. }
    rewrite (OZ ((m - 1) / 2)) by (apply Z.div_pos; lia).
    destruct (Z.odd ((m - 1) / 2)) eqn:E.
    + rewrite xor_const_true, length_half_range, OZ by (apply Z.div_pos; lia). now rewrite andb_true_r.
    + rewrite xor_all_false. now rewrite andb_false_r.
Qed.

(** ** The laws used by the algorithm *)
Lemma gauss_parity_period a n q : gauss_parity (a + q * n) n = gauss_parity a n.
Proof.
  unfold gauss_parity. f_equal. apply map_ext. intros k.
  replace ((a + q * n) * k) with (a * k + (q * k) * n) by ring. unfold upper. now rewrite Z_mod_plus_full.
Qed.

Lemma jacobi_symbol_period a n q : jacobi_symbol (a + q * n) n = jacobi_symbol a n.
Proof.
  unfold jacobi_symbol. rewrite gauss_parity_period.
  replace (Z.gcd (a + q * n) n) with (Z.gcd a n); [reflexivity|].
  rewrite (Z.gcd_comm a), (Z.gcd_comm (a + q * n)).
  now rewrite Z.gcd_add_mult_diag_r.
Qed.

Lemma sgn_xor x y : sgn_of (xorb x y) = sgn_of x * sgn_of y.
Proof. now destruct x, y. Qed.

Lemma gcd_mul_one a b n : Z.gcd a n = 1 -> (Z.gcd (a * b) n =? 1) = (Z.gcd b n =? 1).
Proof.
  intros Ha. apply eq_true_iff_eq. rewrite !Z.eqb_eq. split; intros H.
  - apply Zgcd_1_rel_prime in H. apply Zgcd_1_rel_prime.
    apply rel_prime_div with (p := a * b); [exact H|exists a; ring].
  - apply Zgcd_1_rel_prime. apply rel_prime_sym, rel_prime_mult; apply rel_prime_sym, Zgcd_1_rel_prime; assumption.
Qed.

Lemma jacobi_symbol_mul a b n : 0 < n -> Z.odd n = true -> Z.gcd a n = 1 ->
  jacobi_symbol (a * b) n = jacobi_symbol a n * jacobi_symbol b n.
Proof.
  intros Hn On Ha. unfold jacobi_symbol. rewrite gcd_mul_one by exact Ha. rewrite Ha. cbn [Z.eqb Pos.eqb].
  destruct (Z.eqb_spec (Z.gcd b n) 1) as [Hb|_]; [|ring].
  rewrite (gauss_parity_mul n Hn On b Hb a Ha). apply sgn_xor.
Qed.

Lemma odd_half_div n : Z.odd n = true -> (n - 1) / 2 = n / 2.
Proof.
  intros Ho. apply Z.odd_spec in Ho. destruct Ho as [q ->].
  replace (2 * q + 1 - 1) with (q * 2) by ring. rewrite Z.div_mul by lia.
  replace (2 * q + 1) with (1 + q * 2) by ring. rewrite Z.div_add by lia. reflexivity.
Qed.
Lemma odd_bit1 n : Z.odd n = true -> Z.odd ((n - 1) / 2) = Z.testbit n 1.
Proof. intros Ho. rewrite odd_half_div, Z.testbit_odd, Z.shiftr_div_pow2 by (assumption || lia). reflexivity. Qed.
Lemma odd_bit2 n : Z.odd n = true -> Z.odd ((n - 1) / 2 / 2) = Z.testbit n 2.
Proof.
  intros Ho. rewrite odd_half_div, Z.testbit_odd, Z.shiftr_div_pow2 by (assumption || lia).
  now rewrite Z.div_div by lia.
Qed.

Lemma gauss_parity_m1 n : 0 < n -> Z.odd n = true -> gauss_parity (-1) n = Z.testbit n 1.
Proof.
  intros Hn Ho. rewrite <- odd_bit1 by exact Ho. unfold gauss_parity.
  transitivity (xor_all (map (fun _ => true) (half_range n))).
  - f_equal. apply map_ext_in. intros k Hk. apply in_half_range in Hk; [|exact Hn].
    replace (-1 * k) with (- k) by ring. rewrite (upper_neg n Hn Ho) by now apply half_not_div.
    pose proof (odd_half n Ho). unfold upper. rewrite Z.mod_small by lia. apply negb_true_iff. lia.
  - pose proof (count_upto (Z.to_nat ((n - 1) / 2)) ((n - 1) / 2) 0).
    assert (0 <= (n - 1) / 2) by (apply Z.div_pos; lia).
    fold (half_range n) in H. rewrite Z.min_l in H by lia. rewrite Z2Nat.id in H by lia.
    rewrite <- H by lia. f_equal. apply map_ext_in. intros k Hk. apply in_half_range in Hk; [|exact Hn]. lia.
Qed.

Lemma gauss_parity_2 n : 0 < n -> Z.odd n = true ->
  gauss_parity 2 n = xorb (Z.testbit n 1) (Z.testbit n 2).
Proof.
  intros Hn Ho. rewrite <- (gauss_parity_m1 n Hn Ho), <- (odd_bit2 n Ho).
  pose proof (odd_half n Ho) as Hh.
  assert (H0 : 0 <= (n - 1) / 2) by (apply Z.div_pos; lia).
  assert (H1 : 0 <= (n - 1) / 2 / 2) by (apply Z.div_pos; lia).
  assert (H2 : (n - 1) / 2 / 2 <= (n - 1) / 2) by (apply Z.div_le_upper_bound; lia).
  pose proof (count_upto (Z.to_nat ((n - 1) / 2)) ((n - 1) / 2 / 2) 0 H1) as E.
  fold (half_range n) in E. rewrite Z.min_r in E by lia.
  replace (Z.max 0 ((n - 1) / 2 / 2 - Z.of_nat 0)) with ((n - 1) / 2 / 2) in E by lia. rewrite <- E.
  unfold gauss_parity. rewrite <- xor_all_map_xorb. f_equal. apply map_ext_in. intros k Hk.
  apply in_half_range in Hk; [|exact Hn].
  replace (-1 * k) with (- k) by ring. rewrite (upper_neg n Hn Ho) by now apply half_not_div.
  unfold upper. rewrite !Z.mod_small by lia.
  pose proof (Z.div_mod ((n - 1) / 2) 2 ltac:(lia)). pose proof (Z.mod_pos_bound ((n - 1) / 2) 2 ltac:(lia)).
  destruct (Z.ltb_spec n (2 * (2 * k))), (Z.ltb_spec n (2 * k)), (Z.leb_spec k ((n - 1) / 2 / 2));
    try reflexivity; lia.
Qed.

(** ** The symbol (x / |y|) *)
Definition jm (x y : Z) : Z := jacobi_symbol x (Z.abs y).

Lemma odd_abs y : Z.odd (Z.abs y) = Z.odd y.
Proof. destruct y; reflexivity. Qed.
Lemma odd_nz y : Z.odd y = true -> 0 < Z.abs y.
Proof. intros H. assert (y <> 0) by (intros ->; discriminate). lia. Qed.

Lemma testbit_opp_odd y k : Z.odd y = true -> 0 < k -> Z.testbit (- y) k = negb (Z.testbit y k).
Proof.
  intros Hy Hk. apply Z.odd_spec in Hy. destruct Hy as [q ->].
  replace (- (2 * q + 1)) with (2 * (Z.lnot q) + 1) by (pose proof (Z.add_lnot_diag q); lia).
  replace k with (Z.succ (k - 1)) by lia.
  rewrite !Z.testbit_odd_succ by lia. apply Z.lnot_spec. lia.
Qed.

Lemma bits_abs y : Z.odd y = true ->
  xorb (Z.testbit (Z.abs y) 1) (Z.testbit (Z.abs y) 2) = xorb (Z.testbit y 1) (Z.testbit y 2).
Proof.
  intros Hy. destruct (Z.abs_eq_or_opp y) as [-> | ->]; [reflexivity|].
  rewrite !testbit_opp_odd by (assumption || lia). now destruct (Z.testbit y 1), (Z.testbit y 2).
Qed.

Lemma jm_mod x x' y : y <> 0 -> (y | x - x') -> jm x y = jm x' y.
Proof.
  intros Hy [q E]. unfold jm. replace x with (x' + (q * Z.sgn y) * Z.abs y).
  - apply jacobi_symbol_period.
  - rewrite <- Z.mul_assoc. rewrite (Z.mul_comm (Z.sgn y)), Z.abs_sgn. lia.
Qed.

Lemma jm_sub x y : Z.odd y = true -> jm (x - y) y = jm x y.
Proof. intros Hy. apply jm_mod; [intros ->; discriminate|exists (-1); ring]. Qed.

Lemma gcd_2_odd n : Z.odd n = true -> Z.gcd 2 n = 1.
Proof.
  intros Ho. apply Zgcd_1_rel_prime. apply prime_rel_prime; [exact prime_2|].
  intros [q E]. rewrite E, Z.odd_mul in Ho. cbn in Ho. rewrite andb_false_r in Ho. discriminate.
Qed.
Lemma gcd_m1 n : Z.gcd (-1) n = 1.
Proof. rewrite Z.gcd_comm. change (-1) with (- (1)). rewrite Z.gcd_opp_r. apply Z.gcd_1_r. Qed.

Lemma jm_double x y : Z.odd y = true ->
  jm (2 * x) y = sgn_of (xorb (Z.testbit y 1) (Z.testbit y 2)) * jm x y.
Proof.
  intros Hy. unfold jm. rewrite jacobi_symbol_mul;
    [|now apply odd_nz|now rewrite odd_abs|apply gcd_2_odd; now rewrite odd_abs].
  f_equal. unfold jacobi_symbol. rewrite gcd_2_odd by now rewrite odd_abs. cbn [Z.eqb Pos.eqb].
  rewrite gauss_parity_2 by (rewrite ?odd_abs; auto using odd_nz). now rewrite bits_abs.
Qed.

Lemma jm_neg x y : 0 < y -> Z.odd y = true -> jm (- x) y = sgn_of (Z.testbit y 1) * jm x y.
Proof.
  intros Hp Hy. unfold jm. rewrite Z.abs_eq by lia. replace (- x) with (-1 * x) by ring.
  rewrite jacobi_symbol_mul by (auto using gcd_m1). f_equal.
  unfold jacobi_symbol. rewrite gcd_m1. cbn [Z.eqb Pos.eqb]. now rewrite gauss_parity_m1.
Qed.

Lemma sgn_sq b : sgn_of b * sgn_of b = 1.
Proof. now destruct b. Qed.

Lemma jm_swap_pos x y : 0 < x -> 0 < y -> Z.odd x = true -> Z.odd y = true ->
  jm x y = sgn_of (Z.testbit x 1 && Z.testbit y 1) * jm y x.
Proof.
  intros Hx Hy Ox Oy. unfold jm, jacobi_symbol. rewrite !Z.abs_eq by lia. rewrite (Z.gcd_comm y).
  destruct (Z.eqb_spec (Z.gcd x y) 1) as [G|_]; [|ring].
  pose proof (reciprocity_parity y x Hy Hx Oy Ox G) as R.
  rewrite !odd_bit1 in R by assumption. rewrite andb_comm, <- R, <- sgn_xor. f_equal.
  now destruct (gauss_parity x y), (gauss_parity y x).
Qed.

Lemma jm_abs x y : jm x (- y) = jm x y.
Proof. unfold jm. now rewrite Z.abs_opp. Qed.

Theorem jm_swap x y : 0 < x \/ 0 < y -> Z.odd x = true -> Z.odd y = true ->
  jm x y = sgn_of (Z.testbit x 1 && Z.testbit y 1) * jm y x.
Proof.
  intros P Ox Oy. assert (NX : x <> 0) by (intros ->; discriminate). assert (NY : y <> 0) by (intros ->; discriminate).
  destruct (Z_lt_ge_dec 0 x) as [Hx|Hx], (Z_lt_ge_dec 0 y) as [Hy|Hy].
  - now apply jm_swap_pos.
  - (* y < 0 *)
    rewrite <- (jm_abs x y). rewrite (jm_swap_pos x (- y)) by (rewrite ?Z.odd_opp; lia || assumption).
    rewrite jm_neg by (assumption || lia). rewrite testbit_opp_odd by (assumption || lia).
    rewrite Z.mul_assoc, <- sgn_xor. do 2 f_equal. now destruct (Z.testbit x 1), (Z.testbit y 1).
  - replace (jm x y) with (jm (- - x) y) by now rewrite Z.opp_involutive.
    rewrite (jm_neg (- x)) by (assumption || lia).
    rewrite (jm_swap_pos (- x) y) by (rewrite ?Z.odd_opp; lia || assumption).
    rewrite jm_abs, testbit_opp_odd by (assumption || lia).
    rewrite Z.mul_assoc, <- sgn_xor. do 2 f_equal. now destruct (Z.testbit x 1), (Z.testbit y 1).
  - lia.
Qed.

Lemma jm_0 y : jm 0 y = if Z.abs y =? 1 then 1 else 0.
Proof.
  unfold jm, jacobi_symbol. rewrite Z.gcd_0_l. rewrite Z.abs_involutive.
  destruct (Z.eqb_spec (Z.abs y) 1) as [E|]; [|reflexivity]. now rewrite E.
Qed.

(** ** Prime moduli *)
Lemma zprod_scale a l : zprod (map (fun k => a * k) l) = a ^ Z.of_nat (length l) * zprod l.
Proof.
  unfold zprod. induction l as [|x l IH]; [reflexivity|]. cbn [map fold_right length].
  rewrite IH, Nat2Z.inj_succ, Z.pow_succ_r by lia. ring.
Qed.

Lemma zprod_mod_sign n (f : Z -> Z) l : 0 < n ->
  exists q, zprod (map f l) = sgn_of (xor_all (map (fun k => upper n (f k)) l)) * zprod (map (fun k => absres n (f k)) l) + q * n.
Proof.
  intros Hn. unfold zprod, xor_all. induction l as [|x l IH]; [exists 0; reflexivity|].
  destruct IH as [q IH]. cbn [map fold_right]. rewrite IH, sgn_xor.
  destruct (absres_eqm n Hn (f x)) as [q' E].
  set (P := fold_right Z.mul 1 _). set (X := fold_right xorb false _).
  destruct (upper n (f x)); cbn [sgn_of].
  - exists (q' * (sgn_of X * P + q * n) - absres n (f x) * q). rewrite E at 1. ring.
  - exists (q' * (sgn_of X * P + q * n) + absres n (f x) * q). rewrite E at 1. ring.
Qed.

Theorem jacobi_symbol_euler a p : prime p -> Z.odd p = true ->
  (p | a ^ ((p - 1) / 2) - jacobi_symbol a p).
Proof.
  intros Hp Ho. pose proof (prime_ge_2 p Hp) as Hp2. assert (Hn : 0 < p) by lia.
  pose proof (odd_half p Ho) as Hh.
  unfold jacobi_symbol. destruct (Z.eqb_spec (Z.gcd a p) 1) as [G|G].
  - destruct (zprod_mod_sign p (fun k => a * k) (half_range p) Hn) as [q E].
    rewrite zprod_scale, length_half_range, Z2Nat.id in E by (apply Z.div_pos; lia).
    rewrite (zprod_perm _ _ (absres_perm p Hn Ho a G)) in E.
    fold (gauss_parity a p) in E.
    apply Z.gauss with (zprod (half_range p)).
    + exists q. lia.
    + apply Zgcd_1_rel_prime.
      assert (H : forall x, In x (half_range p) -> 1 <= x < p) by (intros x Hx; apply in_half_range in Hx; lia).
      revert H. clear -Hp. unfold zprod. induction (half_range p) as [|x l IH]; intros H; cbn [fold_right].
      * apply rel_prime_sym, rel_prime_1.
      * apply rel_prime_mult; [|apply IH; auto using in_cons].
        apply prime_rel_prime; [exact Hp|]. intros D. apply Z.divide_pos_le in D.
        -- pose proof (H x (in_eq _ _)). lia.
        -- pose proof (H x (in_eq _ _)). lia.
  - rewrite Z.sub_0_r.
    assert (D : (p | a)).
    { destruct (Zdivide_dec p a) as [D|N]; [exact D|]. exfalso. apply G.
      rewrite Z.gcd_comm. apply Zgcd_1_rel_prime. now apply prime_rel_prime. }
    destruct D as [q ->]. rewrite Z.pow_mul_l.
    assert (Z.odd p = true) by exact Ho. assert (p <> 2) by (intros ->; discriminate).
    replace ((p - 1) / 2) with (Z.succ ((p - 1) / 2 - 1)) at 2 by lia.
    rewrite Z.pow_succ_r by lia. exists (q ^ ((p - 1) / 2) * p ^ ((p - 1) / 2 - 1)). ring.
Qed.
