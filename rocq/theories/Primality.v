(** Primality certificates (Pocklington's criterion), checked by computation
    with the arbitrary-precision integers of the Bignums library. *)
From Verif Require Import Base PrimeField.
From Bignums Require Import BigZ.
Local Open Scope Z_scope.

(** ** Pocklington's criterion *)
Lemma prime_divisor_exists n : 1 < n -> exists r, prime r /\ (r | n).
Proof.
  intros Hn. assert (Hn0 : 0 <= n) by lia. revert Hn. pattern n.
  apply Z_lt_induction; [|exact Hn0]. clear n Hn0. intros n IH Hn.
  destruct (prime_dec n) as [P|NP].
  - exists n. split; [exact P|]. exists 1. lia.
  - destruct (not_prime_divide n Hn NP) as (m & Hm & Hd).
    destruct (IH m) as (r & Pr & Dr); [lia|lia|]. exists r. split; [exact Pr|].
    apply Z.divide_trans with m; assumption.
Qed.

Definition congr1 (r x : Z) : Prop := (r | x - 1).

Lemma congr1_mul r x y : congr1 r x -> congr1 r y -> congr1 r (x * y).
Proof. intros (u & Hu) (v & Hv). exists (u * y + v). lia. Qed.

Lemma congr1_cancel r x y : congr1 r x -> congr1 r (x * y) -> congr1 r y.
Proof.
  intros (u & Hu) (v & Hv). exists (v - u * y). replace x with (1 + u * r) in Hv by lia. lia.
Qed.

Lemma congr1_pow r x k : 0 <= k -> congr1 r x -> congr1 r (x ^ k).
Proof.
  intros Hk Hx. revert k Hk. apply natlike_ind.
  - exists 0. reflexivity.
  - intros k Hk IH. rewrite Z.pow_succ_r by exact Hk. apply congr1_mul; assumption.
Qed.

(** Exponents annihilating [a] modulo [r] are closed under gcd. *)
Lemma congr1_mod r a m n : 0 <= m -> 0 < n ->
  congr1 r (a ^ m) -> congr1 r (a ^ n) -> congr1 r (a ^ (m mod n)).
Proof.
  intros Hm Hn H1 H2. pose proof (Z.div_mod m n ltac:(lia)) as E.
  pose proof (Z.mod_pos_bound m n Hn) as B. assert (Q : 0 <= m / n) by (apply Z.div_pos; lia).
  apply (congr1_cancel r ((a ^ n) ^ (m / n))).
  - apply congr1_pow; assumption.
  - rewrite <- Z.pow_mul_r, <- Z.pow_add_r, <- E by nia. exact H1.
Qed.

Lemma congr1_gcd r a : forall k n m, (Z.to_nat n <= k)%nat -> 0 <= n -> 0 <= m ->
  congr1 r (a ^ m) -> congr1 r (a ^ n) -> congr1 r (a ^ Z.gcd m n).
Proof.
  induction k as [|k IH]; intros n m Hk Hn Hm H1 H2.
  - replace n with 0 by lia. rewrite Z.gcd_0_r, Z.abs_eq by lia. exact H1.
  - destruct (Z.eq_dec n 0) as [->|Nn].
    + rewrite Z.gcd_0_r, Z.abs_eq by lia. exact H1.
    + pose proof (Z.mod_pos_bound m n ltac:(lia)) as B.
      rewrite Z.gcd_comm, <- Z.gcd_mod, Z.gcd_comm by exact Nn. apply IH; try lia; [exact H2|]. apply congr1_mod; assumption || lia.
Qed.

Lemma congr1_fermat r a : prime r -> ~ (r | a) -> congr1 r (a ^ (r - 1)).
Proof.
  intros Hr Ha. assert (R1 : 1 < r) by (destruct Hr; assumption).
  assert (Hm : 0 < a mod r < r).
  { pose proof (Z.mod_pos_bound a r ltac:(lia)). assert (a mod r <> 0); [|lia].
    intros E. apply Ha. apply Zmod_divide; [lia|exact E]. }
  pose proof (fermat_Z r (a mod r) Hr Hm) as E.
  rewrite <- Zpower_mod in E by lia. unfold congr1. apply Z.mod_divide; [lia|].
  rewrite Zminus_mod, E. rewrite (Z.mod_small 1) by lia. reflexivity.
Qed.

Section Pocklington.
Variables N a : Z.
Hypothesis HN : 1 < N.
Hypothesis Ha : congr1 N (a ^ (N - 1)).

Lemma pock_factor q e r : prime q -> 0 <= e -> (q ^ e | N - 1) ->
  Z.gcd (a ^ ((N - 1) / q) - 1) N = 1 ->
  prime r -> (r | N) -> (q ^ e | r - 1).
Proof.
  intros Hq He Hd Hg Hr Hrn. assert (R1 : 1 < r) by (destruct Hr; assumption).
  assert (Q1 : 1 < q) by (destruct Hq; assumption).
  assert (Hra : congr1 r (a ^ (N - 1))). { apply Z.divide_trans with N; assumption. }
  assert (Hna : ~ (r | a)).
  { intros D. destruct Hra as (k & Hk). assert (D1 : (r | a ^ (N - 1))).
    { replace (N - 1) with (Z.succ (N - 2)) by lia. rewrite Z.pow_succ_r by lia.
      apply Z.divide_mul_l. exact D. }
    assert (D2 : (r | 1)).
    { replace 1 with (a ^ (N - 1) - k * r) by lia.
      apply Z.divide_sub_r; [exact D1|]. exists k. reflexivity. }
    apply Z.divide_1_r_nonneg in D2; lia. }
  pose proof (congr1_gcd r a (Z.to_nat (r - 1)) (r - 1) (N - 1) ltac:(lia) ltac:(lia) ltac:(lia)
    Hra (congr1_fermat r a Hr Hna)) as Hgc.
  set (g := Z.gcd (N - 1) (r - 1)) in *.
  assert (Gd1 : (g | N - 1)) by apply Z.gcd_divide_l.
  assert (Gd2 : (g | r - 1)) by apply Z.gcd_divide_r.
  assert (Gp : 0 <= g) by apply Z.gcd_nonneg.
  destruct Gd1 as (h & Hh).
  assert (Hg0 : g <> 0) by (intros E0; rewrite E0 in Hh; lia).
  assert (Hpos : 0 < g /\ 0 < h). { clearbody g. nia. }
  destruct (Zdivide_dec q h) as [(h' & Hh')|Nq].
  - exfalso. assert (Eq : (N - 1) / q = g * h').
    { rewrite Hh, Hh'. replace (h' * q * g) with (g * h' * q) by ring. apply Z.div_mul. lia. }
    assert (D : (r | a ^ ((N - 1) / q) - 1)).
    { rewrite Eq, Z.pow_mul_r by nia. apply (congr1_pow r (a ^ g) h'); [nia|exact Hgc]. }
    assert (D1 : (r | 1)). { rewrite <- Hg. apply Z.gcd_greatest; assumption. }
    apply Z.divide_1_r_nonneg in D1; lia.
  - apply Z.divide_trans with g; [|exact Gd2]. rewrite Hh in Hd. apply Gauss in Hd; [exact Hd|].
    apply rel_prime_sym, rel_prime_Zpower_r; [exact He|]. apply rel_prime_sym.
    apply prime_rel_prime; assumption.
Qed.

(** [qs] lists pairs (prime, exponent). *)
Definition qprod (qs : list (Z * Z)) : Z := fold_right (fun qe acc => fst qe ^ snd qe * acc) 1 qs.

Lemma qprod_rel_prime q e qs : prime q -> 0 <= e ->
  Forall (fun qe => prime (fst qe) /\ 0 <= snd qe) qs -> ~ In q (map fst qs) ->
  rel_prime (q ^ e) (qprod qs).
Proof.
  intros Hq He Hqs Hn.
  induction Hqs as [|[q' e'] qs [Hq' He'] Hqs IH]; cbn [qprod fold_right fst snd map In] in *.
  - apply rel_prime_sym, rel_prime_1.
  - apply rel_prime_mult; [|apply IH; tauto].
    apply rel_prime_Zpower; [assumption..|]. apply prime_rel_prime; [exact Hq|].
    intros D. apply Hn. left. symmetry. apply prime_div_prime; assumption.
Qed.

(** Every prime divisor of [N] is 1 modulo the factored part. *)
Lemma pock_divisors qs :
  Forall (fun qe => prime (fst qe) /\ 0 <= snd qe) qs -> NoDup (map fst qs) ->
  (qprod qs | N - 1) ->
  (forall q, In q (map fst qs) -> Z.gcd (a ^ ((N - 1) / q) - 1) N = 1) ->
  forall r, prime r -> (r | N) -> (qprod qs | r - 1).
Proof.
  intros Hqs Hnd Hd Hg r Hr Hrn. revert Hd Hg. induction Hqs as [|[q e] l [Hq He] Hl IH].
  - intros _ _. exists (r - 1). cbn. lia.
  - cbn [map fst snd] in *. inversion Hnd as [|? ? Hni Hnd']; subst. intros Hd Hg.
    change (qprod ((q, e) :: l)) with (q ^ e * qprod l) in *.
    assert (D1 : (q ^ e | N - 1)). { apply Z.divide_trans with (q ^ e * qprod l); [|exact Hd]. exists (qprod l). ring. }
    assert (D2 : (qprod l | N - 1)). { apply Z.divide_trans with (q ^ e * qprod l); [|exact Hd]. exists (q ^ e). ring. }
    assert (E1 : (q ^ e | r - 1)).
    { apply (pock_factor q e r); try assumption. apply Hg. left. reflexivity. }
    assert (E2 : (qprod l | r - 1)).
    { apply IH; try assumption. intros q' Hq'. apply Hg. right. exact Hq'. }
    pose proof (qprod_rel_prime q e l Hq He Hl Hni) as RP.
    destruct E1 as (k & Hk). rewrite Hk in E2 |- *. rewrite Z.mul_comm in E2.
    apply Gauss in E2; [|apply rel_prime_sym; exact RP].
    destruct E2 as (j & ->). exists j. ring.
Qed.

(** Criterion: factored part [F] with [N < (F+1)^2], or [N < F^3] and the
    discriminant condition on the base-[F] digits (Brillhart-Lehmer-Selfridge). *)
Theorem pocklington qs : let F := qprod qs in
  Forall (fun qe => prime (fst qe) /\ 0 <= snd qe) qs -> NoDup (map fst qs) ->
  (F | N - 1) -> 0 < F ->
  (forall q, In q (map fst qs) -> Z.gcd (a ^ ((N - 1) / q) - 1) N = 1) ->
  (N < (F + 1) * (F + 1) \/
   (N < F * F * F /\
    let c1 := ((N - 1) / F) mod F in let c2 := ((N - 1) / F) / F in
    forall s, s * s <> c1 * c1 - 4 * c2)) ->
  prime N.
Proof.
  cbv zeta. intros Hqs Hnd Hd H0 Hg Hsz.
  pose proof (pock_divisors qs Hqs Hnd Hd Hg) as K.
  set (F := qprod qs) in *. clearbody F.
  destruct (prime_dec N) as [P|NP]; [exact P|exfalso].
  destruct (not_prime_divide N HN NP) as (n & Hn & Hdn).
  destruct (prime_divisor_exists n ltac:(lia)) as (r & Hr & Hrn).
  assert (R1 : 1 < r) by (destruct Hr; assumption).
  assert (Rn : r <= n) by (apply Z.divide_pos_le; [lia|exact Hrn]).
  assert (HrN : (r | N)) by (apply Z.divide_trans with n; assumption).
  destruct (K r Hr HrN) as (x & Hx). destruct HrN as (m & Hm).
  assert (M1 : 1 < m) by nia.
  assert (Dm : (F | m - 1)).
  { destruct Hd as (y & Hy). exists (y - m * x). nia. }
  destruct Dm as (z & Hz).
  assert (X1 : 1 <= x) by nia. assert (Z1 : 1 <= z) by nia.
  assert (EN : N = (x * z * F + (x + z)) * F + 1) by nia.
  assert (B1 : F + 1 <= r) by (clear - Hx X1 H0; nia).
  assert (B2 : F + 1 <= m) by (clear - Hz Z1 H0; nia).
  destruct Hsz as [Hsz|[Hsz Hq]].
  { pose proof (Z.mul_le_mono_nonneg (F + 1) m (F + 1) r ltac:(lia) B2 ltac:(lia) B1). lia. }
  assert (Exz : x * z < F).
  { apply (Z.mul_lt_mono_pos_r (F * F)); [nia|]. assert (0 <= (x + z) * F) by (clear - X1 Z1 H0; nia). lia. }
  assert (Esum : x + z < F).
  { assert (L : x + z <= x * z + 1) by (clear - X1 Z1; nia).
    destruct (Z.eq_dec (x + z) F) as [E|NE]; [|lia]. exfalso.
    assert (Ep : x * z = F - 1) by lia. rewrite Ep, E in EN. lia. }
  apply (Hq (x - z)).
  replace ((N - 1) / F) with (x * z * F + (x + z)).
  - replace ((x * z * F + (x + z)) mod F) with (x + z).
    + replace ((x * z * F + (x + z)) / F) with (x * z); [ring|].
      rewrite (Z.add_comm (x * z * F)), Z.div_add, Z.div_small by lia. lia.
    + rewrite (Z.add_comm (x * z * F)), Z.mod_add, Z.mod_small by lia. reflexivity.
  - rewrite EN, Z.add_simpl_r, Z.div_mul by lia. reflexivity.
Qed.
End Pocklington.

(** ** Modular exponentiation with [BigZ] *)
Fixpoint bpow_pos (b : bigZ) (e : positive) (m : bigZ) : bigZ :=
  match e with
  | xH => BigZ.modulo b m
  | xO e' => let x := bpow_pos b e' m in BigZ.modulo (BigZ.square x) m
  | xI e' => let x := bpow_pos b e' m in BigZ.modulo (BigZ.mul (BigZ.modulo (BigZ.square x) m) b) m
  end.
Definition bpow (b e m : Z) : Z :=
  match e with
  | Zpos e' => BigZ.to_Z (bpow_pos (BigZ.of_Z b) e' (BigZ.of_Z m))
  | _ => 1 mod m
  end.

Lemma bpow_pos_spec b e m : BigZ.to_Z m <> 0 ->
  BigZ.to_Z (bpow_pos b e m) = (BigZ.to_Z b ^ Zpos e) mod BigZ.to_Z m.
Proof.
  intros Hm. induction e as [e IH|e IH|]; cbn [bpow_pos]; cbv zeta.
  - rewrite BigZ.spec_modulo, BigZ.spec_mul, BigZ.spec_modulo, BigZ.spec_square, IH.
    rewrite <- Zmult_mod, Zmult_mod_idemp_l. f_equal.
    rewrite Pos2Z.inj_xI, Z.pow_add_r, Z.pow_twice_r by lia. ring.
  - rewrite BigZ.spec_modulo, BigZ.spec_square, IH, <- Zmult_mod. f_equal.
    rewrite Pos2Z.inj_xO, Z.pow_twice_r. ring.
  - rewrite BigZ.spec_modulo, Z.pow_1_r. reflexivity.
Qed.

Lemma bpow_spec b e m : m <> 0 -> 0 <= e -> bpow b e m = b ^ e mod m.
Proof.
  intros Hm He. destruct e as [|e|e]; cbn [bpow]; [reflexivity| |lia].
  rewrite bpow_pos_spec; rewrite !BigZ.spec_of_Z; [reflexivity|exact Hm].
Qed.

(** ** Certificates *)
Record pcert := { pc_n : Z; pc_a : Z; pc_qs : list (Z * Z) }.

Fixpoint nodupb (l : list Z) : bool :=
  match l with [] => true | x :: l' => negb (existsb (Z.eqb x) l') && nodupb l' end.

Definition pcert_ok (known : list Z) (c : pcert) : bool :=
  let n := pc_n c in let qs := pc_qs c in let f := qprod qs in
  (1 <? n)
  && forallb (fun qe => existsb (Z.eqb (fst qe)) known && (0 <=? snd qe)) qs
  && nodupb (map fst qs)
  && ((n - 1) mod f =? 0) && (0 <? f)
  && ((n <? (f + 1) * (f + 1))
      || ((n <? f * f * f)
          && (let r := (n - 1) / f in let d := (r mod f) * (r mod f) - 4 * (r / f) in
              (d <? 0) || negb (Z.sqrt d * Z.sqrt d =? d))))
  && (bpow (pc_a c) (n - 1) n =? 1)
  && forallb (fun qe => Z.gcd (bpow (pc_a c) ((n - 1) / fst qe) n - 1) n =? 1) qs.

Fixpoint pcerts_ok (known : list Z) (cs : list pcert) : bool :=
  match cs with
  | [] => true
  | c :: cs' => pcert_ok known c && pcerts_ok (pc_n c :: known) cs'
  end.

Lemma nodupb_spec l : nodupb l = true -> NoDup l.
Proof.
  induction l as [|x l IH]; cbn [nodupb]; [constructor|]. rewrite andb_true_iff, negb_true_iff.
  intros [H1 H2]. constructor; [|apply IH; exact H2]. intros I.
  assert (existsb (Z.eqb x) l = true); [|congruence]. apply existsb_exists. exists x.
  split; [exact I|apply Z.eqb_refl].
Qed.

Lemma pcert_ok_spec known c : Forall prime known -> pcert_ok known c = true -> prime (pc_n c).
Proof.
  intros Hk. unfold pcert_ok. cbv zeta. rewrite !andb_true_iff.
  intros [[[[[[[H1 H2] H3] H4] H4'] H5] H6] H7].
  apply Z.ltb_lt in H1, H4'. apply Z.eqb_eq in H4, H6. apply nodupb_spec in H3.
  rewrite forallb_forall in H2, H7.
  assert (HQ : Forall (fun qe => prime (fst qe) /\ 0 <= snd qe) (pc_qs c)).
  { apply Forall_forall. intros qe Hq. specialize (H2 qe Hq). apply andb_true_iff in H2.
    destruct H2 as [E P]. apply existsb_exists in E. destruct E as (x & Hx & E).
    apply Z.eqb_eq in E. subst x. split; [|apply Z.leb_le; exact P].
    rewrite Forall_forall in Hk. apply Hk. exact Hx. }
  rewrite bpow_spec in H6 by lia.
  apply (pocklington (pc_n c) (pc_a c) H1) with (qs := pc_qs c); try assumption; try lia.
  - apply Z.mod_divide; [lia|]. rewrite Zminus_mod, H6, (Z.mod_small 1) by lia. reflexivity.
  - apply Zmod_divide; [lia|exact H4].
  - intros q Hq. apply in_map_iff in Hq. destruct Hq as (qe & <- & Hin).
    specialize (H7 qe Hin). apply Z.eqb_eq in H7.
    rewrite Forall_forall in HQ. destruct (HQ qe Hin) as [Pq _].
    assert (1 < fst qe) by (destruct Pq; assumption).
    rewrite bpow_spec in H7 by (try apply Z.div_pos; lia).
    set (A := pc_a c ^ ((pc_n c - 1) / fst qe)) in *.
    etransitivity; [|exact H7]. rewrite (Z.gcd_comm (A - 1)), (Z.gcd_comm (A mod pc_n c - 1)).
    rewrite <- (Z.gcd_mod (A - 1)) by lia. rewrite <- (Z.gcd_mod (A mod pc_n c - 1)) by lia.
    rewrite Zminus_mod_idemp_l. reflexivity.
  - apply orb_true_iff in H5. destruct H5 as [H5|H5]; [left; apply Z.ltb_lt; exact H5|right].
    apply andb_true_iff in H5. destruct H5 as [H5 H8]. split; [apply Z.ltb_lt; exact H5|].
    intros c1 c2 s Es. fold c1 c2 in H8. rewrite <- Es in H8. apply orb_true_iff in H8.
    destruct H8 as [H8|H8]; [apply Z.ltb_lt in H8; nia|].
    rewrite <- (Z.abs_square s), Z.sqrt_square, Z.eqb_refl in H8 by apply Z.abs_nonneg.
    discriminate.
Qed.

Theorem pcerts_ok_spec cs : forall known, Forall prime known -> pcerts_ok known cs = true ->
  Forall (fun c => prime (pc_n c)) cs.
Proof.
  induction cs as [|c cs IH]; intros known Hk; cbn [pcerts_ok]; [constructor|].
  rewrite andb_true_iff. intros [H1 H2]. pose proof (pcert_ok_spec known c Hk H1) as P.
  constructor; [exact P|]. apply (IH (pc_n c :: known)); [|exact H2]. constructor; assumption.
Qed.
