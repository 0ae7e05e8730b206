(** Property theorems C53: random field elements, curve points and target-group elements. *)
From Verif Require Import Base Word Limbs Bytes Field SpecField Params LimbsFacts FieldFacts BytesFacts FieldSerdeFacts
  Algebra Pow Tower FiniteField PrimeField Primality Certs TowerParams TowerInst SpecCurve SpecCurveFacts Group
  Curve CurveFacts CurveGroup CurveParams CurveInst CrateCurves Pairing PairingParams PairingInst
  Cofactor Inverse LimbField Props_Field2 Sqrt2 Serde SerdeFacts SerdeInst Props_Serde Props_Pairing Props_Cofactor SmallOrder Random.
From Coq Require Import Znumtheory.
Local Open Scope Z_scope.

(** ** Field elements *)
(** The generator writes the number of bytes it is asked for. *)
Definition rng_ok {St} (r : rng St) : Prop :=
  forall n s, is_bytes (fst (fill_bytes r n s)) /\ length (fst (fill_bytes r n s)) = n.
(** [random] is the next [2 * SIZE] bytes, read as a little-endian integer, modulo p. *)
Theorem C53_field : forall c, In c all_fields -> forall St (r : rng St), rng_ok r -> forall s,
  represents (num_limbs c) (modulus c) (fst (fe_random r c s)) (le_int (fst (fill_bytes r (2 * size c) s)) mod modulus c)
  /\ snd (fe_random r c s) = snd (fill_bytes r (2 * size c) s).
Proof.
  intros c I St r Hr s. unfold fe_random. destruct (Hr (2 * size c)%nat s) as (B & L).
  destruct (fill_bytes r (2 * size c) s) as [wide s']. cbn [fst snd] in *. split; [|reflexivity].
  apply (from_uniform_bytes_repr c (field_odd c I)); [exact B|lia].
Qed.
Print Assumptions C53_field.

(** Counting: the residue [v] is taken by [N / p] or [N / p + 1] of the integers below [N]. *)
Lemma residues_count (p N v : Z) : 0 <= v < p -> p <= N -> exists n : nat,
  N / p <= Z.of_nat n <= N / p + 1 /\ forall i : nat, (i < n)%nat <-> v + Z.of_nat i * p < N.
Proof.
  intros Hv HN. exists (Z.to_nat ((N - 1 - v) / p + 1)).
  pose proof (Z.div_mod N p ltac:(lia)) as E1. pose proof (Z.mod_pos_bound N p ltac:(lia)) as B1.
  pose proof (Z.div_mod (N - 1 - v) p ltac:(lia)) as E2. pose proof (Z.mod_pos_bound (N - 1 - v) p ltac:(lia)) as B2.
  set (a := N / p) in *. set (b := (N - 1 - v) / p) in *. set (ra := N mod p) in *. set (rb := (N - 1 - v) mod p) in *.
  assert (0 <= b) by (unfold b; apply Z.div_pos; lia).
  assert (H1 : a - 1 <= b) by (apply Z.lt_succ_r; apply (Z.mul_lt_mono_pos_l p); nia).
  assert (H2 : b <= a) by (apply Z.lt_succ_r; apply (Z.mul_lt_mono_pos_l p); nia).
  rewrite Z2Nat.id by lia. split; [lia|]. intros i. split; intros X.
  - assert (Z.of_nat i <= b) by lia. nia.
  - assert (Z.of_nat i < b + 1) by (apply (Z.mul_lt_mono_pos_l p); nia). lia.
Qed.
Lemma NoDup_map_inj {A B} (f : A -> B) l : (forall x y, In x l -> In y l -> f x = f y -> x = y) -> NoDup l -> NoDup (map f l).
Proof.
  intros Hf H. induction H as [|x l Nx H IH]; cbn [map]; constructor.
  - intros X. apply in_map_iff in X as (y & E & Iy). apply Nx. rewrite <- (Hf y x); auto; [right; exact Iy|left; reflexivity].
  - apply IH. intros y z Iy Iz. apply Hf; right; assumption.
Qed.
Lemma strings_count (p v : Z) (k : nat) : 0 <= v < p -> p <= 256 ^ Z.of_nat k -> exists L,
  NoDup L /\ (forall l, In l L <-> is_bytes l /\ length l = k /\ le_int l mod p = v)
  /\ 256 ^ Z.of_nat k / p <= Z.of_nat (length L) <= 256 ^ Z.of_nat k / p + 1.
Proof.
  intros Hv HN. destruct (residues_count p (256 ^ Z.of_nat k) v Hv HN) as (n & B & S).
  exists (map (fun i => le_bytes k (v + Z.of_nat i * p)) (seq 0 n)). split; [|split].
  - apply NoDup_map_inj; [|apply seq_NoDup]. intros x y Ix Iy E. apply in_seq in Ix, Iy.
    assert (X : v + Z.of_nat x * p < 256 ^ Z.of_nat k) by (apply S; lia).
    assert (Y : v + Z.of_nat y * p < 256 ^ Z.of_nat k) by (apply S; lia).
    apply (f_equal le_int) in E. rewrite !le_bytes_int in E by (clear - Hv X Y; nia). clear - E Hv. nia.
  - intros l. rewrite in_map_iff. split.
    + intros (i & <- & Ii). apply in_seq in Ii. split; [apply le_bytes_bytes|]. split; [apply le_bytes_length|].
      assert (X : v + Z.of_nat i * p < 256 ^ Z.of_nat k) by (apply S; lia).
      rewrite le_bytes_int by (clear - Hv X; nia). rewrite Z.mod_add by (clear - Hv; lia). apply Z.mod_small. exact Hv.
    + intros (Hb & Hl & Hm). pose proof (le_int_bound l Hb) as Bl. rewrite Hl in Bl.
      pose proof (Z.div_mod (le_int l) p ltac:(clear - Hv; lia)) as E. rewrite Hm in E.
      assert (Q : 0 <= le_int l / p) by (apply Z.div_pos; [apply Bl|clear - Hv; lia]).
      exists (Z.to_nat (le_int l / p)).
      assert (EQ : v + Z.of_nat (Z.to_nat (le_int l / p)) * p = le_int l) by (rewrite Z2Nat.id by exact Q; clear - E; lia).
      split.
      * rewrite EQ. apply le_int_inj; [rewrite le_bytes_length; auto|apply le_bytes_bytes|exact Hb|]. apply le_bytes_int. exact Bl.
      * apply in_seq. split; [lia|]. cbn [Nat.add]. apply S. rewrite EQ. apply Bl.
  - rewrite map_length, seq_length. exact B.
Qed.
Lemma wide_enough : forallb (fun c => modulus c <=? 256 ^ Z.of_nat (2 * size c)) all_fields = true.
Proof. vm_compute. reflexivity. Qed.
(** Near-uniformity: of the [256^(2 SIZE)] byte strings, every field element is the image of
    [256^(2 SIZE) / p] rounded down or one more. *)
Theorem C53_uniform : forall c, In c all_fields -> forall v, 0 <= v < modulus c -> exists L,
  NoDup L
  /\ (forall l, In l L <-> is_bytes l /\ length l = (2 * size c)%nat
       /\ represents (num_limbs c) (modulus c) (from_uniform_bytes c l) v)
  /\ 256 ^ Z.of_nat (2 * size c) / modulus c <= Z.of_nat (length L) <= 256 ^ Z.of_nat (2 * size c) / modulus c + 1.
Proof.
  intros c I v Hv. pose proof (field_odd c I) as Hc.
  assert (HN : modulus c <= 256 ^ Z.of_nat (2 * size c)).
  { apply Z.leb_le. exact (proj1 (forallb_forall _ _) wide_enough c I). }
  destruct (strings_count (modulus c) v (2 * size c) Hv HN) as (L & N & S & B).
  exists L. split; [exact N|]. split; [|exact B]. intros l. rewrite S. split.
  - intros (Hb & Hl & Hm). split; [exact Hb|]. split; [exact Hl|]. rewrite <- Hm. apply (from_uniform_bytes_repr c Hc); [exact Hb|lia].
  - intros (Hb & Hl & Hr). split; [exact Hb|]. split; [exact Hl|].
    pose proof (from_uniform_bytes_repr c Hc l Hb ltac:(lia)) as R. exact (repr_unique c Hc _ _ _ R Hr).
Qed.
Print Assumptions C53_uniform.

(** ** Extensions *)
(** Reading from a tape: the state is the place of the next byte. *)
Definition tape (f : nat -> Z) : rng nat := mk_rng (fun n s => (map f (seq s n), (s + n)%nat)) (fun s => (le_int (map f (seq s 4)), (s + 4)%nat)).
(** The coefficients over the prime field, lowest first. *)
Definition coeffs2 {F} (a : quad F) : list F := [q0 a; q1 a].
Definition coeffs6 {F} (a : cubic (quad F)) : list F := coeffs2 (k0 a) ++ coeffs2 (k1 a) ++ coeffs2 (k2 a).
Definition coeffs12 {F} (a : quad (cubic (quad F))) : list F := coeffs6 (q0 a) ++ coeffs6 (q1 a).
(** [d] consecutive integers of [n] bytes each, modulo [p]. *)
Definition tape_residues (f : nat -> Z) (s n d : nat) (p : Z) : list Z := map (fun i => le_int (map f (seq (s + i * n) n)) mod p) (seq 0 d).
(** The coefficients of an element of an extension are read one after the other from disjoint
    parts of the tape; together with C53_uniform they are independent and nearly uniform. *)
Theorem C53_ext : forall c, In c all_fields -> forall Hc f, (forall i, 0 <= f i < 256) -> forall s,
  let rnd := lf_random (tape f) c Hc in let n := (2 * size c)%nat in let val := map (lf_val c) in
  let quad := quad_random rnd in let six := cubic_random quad in let twelve := quad_random six in
  let reads (d : nat) (l : list (lf c)) (s' : nat) := val l = tape_residues f s n d (modulus c) /\ s' = (s + d * n)%nat in
  reads 1%nat [fst (rnd s)] (snd (rnd s)) /\ reads 2%nat (coeffs2 (fst (quad s))) (snd (quad s)) /\
  reads 6%nat (coeffs6 (fst (six s))) (snd (six s)) /\ reads 12%nat (coeffs12 (fst (twelve s))) (snd (twelve s)).
Proof.
  intros c I Hc f Hf s rnd n val quad six twelve reads. unfold reads.
  assert (R : forall s, exists x, rnd s = (x, (s + n)%nat) /\ lf_val c x = le_int (map f (seq s n)) mod modulus c).
  { intros s0. assert (B : is_bytes (map f (seq s0 n))).
    { apply Forall_map. apply Forall_forall. intros i _. apply Hf. }
    exists (lf_of (lf0 c Hc) (from_uniform_bytes c (map f (seq s0 n)))). split; [reflexivity|].
    apply (repr_val c Hc). apply (from_uniform_bytes_repr c Hc); [exact B|rewrite map_length, seq_length; unfold n; lia]. }
  assert (A : forall s i, (s + i * n + n = s + S i * n)%nat) by (intros; lia).
  assert (Q : forall s, exists x, quad s = (x, (s + 2 * n)%nat) /\ val (coeffs2 x) = map (fun i => le_int (map f (seq (s + i * n) n)) mod modulus c) (seq 0 2)).
  { intros s0. destruct (R s0) as (x0 & E0 & V0). destruct (R (s0 + n)%nat) as (x1 & E1 & V1). exists (mk_quad x0 x1).
    unfold quad, quad_random. rewrite E0, E1. split; [f_equal; lia|]. unfold val, coeffs2. cbn [q0 q1 map seq].
    rewrite V0, V1. repeat f_equal; lia. }
  assert (X : forall s, exists x, six s = (x, (s + 6 * n)%nat) /\ val (coeffs6 x) = map (fun i => le_int (map f (seq (s + i * n) n)) mod modulus c) (seq 0 6)).
  { intros s0. destruct (Q s0) as (x0 & E0 & V0). destruct (Q (s0 + 2 * n)%nat) as (x1 & E1 & V1). destruct (Q (s0 + 2 * n + 2 * n)%nat) as (x2 & E2 & V2).
    exists (mk_cubic x0 x1 x2). unfold six, cubic_random. rewrite E0, E1, E2. split; [f_equal; lia|]. unfold val, coeffs6 in *. cbn [k0 k1 k2].
    rewrite !map_app, V0, V1, V2. cbn [map seq app]. repeat (apply f_equal2; [f_equal; f_equal; f_equal; f_equal; lia|]). reflexivity. }
  split.
  { destruct (R s) as (x & E & V). rewrite E. cbn [fst snd]. split; [|lia]. unfold val, tape_residues. cbn [map seq]. rewrite V. repeat f_equal; lia. }
  split. { destruct (Q s) as (x & E & V). rewrite E. split; [exact V|reflexivity]. }
  split. { destruct (X s) as (x & E & V). rewrite E. split; [exact V|reflexivity]. }
  destruct (X s) as (x0 & E0 & V0). destruct (X (s + 6 * n)%nat) as (x1 & E1 & V1). unfold twelve, quad_random. rewrite E0, E1. cbn [fst snd].
  split; [|lia]. unfold val, coeffs12, tape_residues in *. cbn [q0 q1]. rewrite map_app, V0, V1. cbn [map seq app].
  repeat (apply f_equal2; [f_equal; f_equal; f_equal; f_equal; lia|]). reflexivity.
Qed.
Print Assumptions C53_ext.

(** ** Curve points *)
(** Parity of the canonical integer that [to_repr] encodes; of [c0] in a quadratic extension. *)
Definition odd_repr {F} (k : codec F) (y : F) : bool := Z.odd (le_int (k_to_repr k y)).
(** One round of the loop, for the curve [c], the group of [gen] and the multiplier [m] of
    [clear_cofactor]:
    - with a drawn [x] that is the abscissa of no point the round is given up;
    - otherwise the result is [m] times a point [(x, y)], and if the parity tells [y] from [-y]
      it is the drawn bit;
    - the other bit gives the opposite point;
    - the result is in the group, and every element of it but the identity is the result of
      some draw. *)
Record sampler_spec {F} (o : fops F) (c : cconf F) (gen : F * F) (m : Z) (k : codec F) (try : F -> Z -> sq_out (aff F)) : Prop := {
  ss_try : forall x b, b = 0 \/ b = 1 ->
    match try x b with
    | SqRet (Some A) => exists y, on_curve o (ca c) (cb c) (Some (x, y)) /\ arep o c A (pt_mulz o (ca c) m (Some (x, y)))
        /\ (odd_repr k (fneg o y) = negb (odd_repr k y) -> odd_repr k y = (b =? 1))
    | SqRet None => forall y, ~ on_curve o (ca c) (cb c) (Some (x, y))
    | SqPanic => False
    | SqDiverge => False
    end;
  ss_opposite : forall x A, try x 0 = SqRet (Some A) -> exists B, try x 1 = SqRet (Some B)
    /\ forall P, arep o c A P -> arep o c B (pt_neg o P);
  ss_group : forall x b A, b = 0 \/ b = 1 -> try x b = SqRet (Some A) -> exists n, arep o c A (pt_mulz o (ca c) n (Some gen));
  ss_onto : forall n, pt_mulz o (ca c) n (Some gen) <> None ->
    exists x b A, (b = 0 \/ b = 1) /\ try x b = SqRet (Some A) /\ arep o c A (pt_mulz o (ca c) n (Some gen)) }.

Lemma hd_parity l : Z.land (hd 0 l) 1 = le_int l mod 2.
Proof.
  change 1 with (Z.ones 1). rewrite Z.land_ones by lia. change (2 ^ 1) with 2.
  destruct l as [|z l]; [reflexivity|]. cbn [hd le_int]. replace (z + 256 * le_int l) with (z + 128 * le_int l * 2) by ring.
  rewrite Z.mod_add by lia. reflexivity.
Qed.
Lemma odd_bit n : Z.odd n = (n mod 2 =? 1).
Proof. rewrite Zmod_odd. destruct (Z.odd n); reflexivity. Qed.
Section Round.
Context {F : Type} (o : fops F) (c : cconf F) (HC : curve_laws o c) (k : codec F) (KL : codec_laws o k).
Context (gen : F * F) (r m : Z) (clear : proj F -> proj F) (tf : proj F -> bool) (CS : cofactor_spec o c gen r m clear tf).
Notation try := (random_try o c k clear).
Notation on := (on_curve o (ca c) (cb c)).
Let H := cl_field _ _ HC.
(** the result for a chosen root *)
Definition done (x y : F) : aff F := to_affine o (clear (to_curve o (mk_aff x y))).
Lemma done_rep x y : on (Some (x, y)) -> arep o c (done x y) (pt_mulz o (ca c) m (Some (x, y))).
Proof using All.
  intros On. apply (to_affine_repr o c HC). apply (cs_clear _ _ _ _ _ _ _ CS). apply (to_curve_repr o c HC).
  split; [exact On|]. split; reflexivity.
Qed.
(** the root and its sign as the code sees them *)
Lemma try_root x : (exists y, on (Some (x, y)) /\ forall b, try x b = SqRet (Some (done x (if Z.lxor b (le_int (k_to_repr k y) mod 2) =? 0 then y else fneg o y))))
  \/ ((forall y, ~ on (Some (x, y))) /\ forall b, try x b = SqRet None).
Proof using HC KL.
  destruct (kl_sqrt _ _ KL (curve_y2 o c x) (y2_nz o c HC x)) as (q & E & Q). unfold random_try. rewrite E. destruct q as [y|].
  - left. exists y. split; [apply (y2_on o c HC); exact Q|]. intros b. rewrite hd_parity. reflexivity.
  - right. split; [|reflexivity]. intros y On. apply Q. exists y. apply (y2_on o c HC). exact On.
Qed.
Lemma lxor_bit b n : b = 0 \/ b = 1 -> (Z.lxor b (n mod 2) =? 0) = Bool.eqb (b =? 1) (Z.odd n).
Proof. rewrite Zmod_odd. intros [-> | ->]; destruct (Z.odd n); reflexivity. Qed.
Lemma neg_neg y : fneg o (fneg o y) = y.
Proof using HC.
  pose proof (rl_ring _ (fl_rl _ H)) as R. clear - R. destruct R as [A0 A1 A2 M1 M2 M3 D S N].
  rewrite <- (A0 (fneg o (fneg o y))), <- (N y), <- A2, N, A1. apply A0.
Qed.
Lemma on_neg x y : on (Some (x, y)) -> on (Some (x, fneg o y)).
Proof using HC. intros On. exact (neg_on o _ _ H _ On). Qed.
Lemma mulz_neg n P : on P -> pt_mulz o (ca c) n (pt_neg o P) = pt_neg o (pt_mulz o (ca c) n P).
Proof using HC.
  intros On. set (Q := mkpt o c HC P On).
  pose proof (f_equal (@proj1_sig _ _) (gmul_gneg _ (cpt_laws o c HC) n Q)) as E. rewrite (gmul_pt o c HC) in E.
  refine (eq_trans E _). refine (f_equal (pt_neg o) _). exact (gmul_pt o c HC n Q).
Qed.
Lemma round_ok : sampler_spec o c gen m k try.
Proof using All.
  constructor.
  - intros x b Hb. destruct (try_root x) as [(y & On & E)|(No & E)]; rewrite E; [|exact No].
    rewrite (lxor_bit b _ Hb). fold (odd_repr k y).
    destruct (Bool.eqb (b =? 1) (odd_repr k y)) eqn:Q.
    + exists y. split; [exact On|]. split; [exact (done_rep x y On)|]. intros _. apply Bool.eqb_prop in Q. auto.
    + exists (fneg o y). split; [exact (on_neg x y On)|]. split; [exact (done_rep x _ (on_neg x y On))|].
      rewrite neg_neg. intros N. rewrite N in *. destruct (b =? 1), (odd_repr k (fneg o y)); cbn in *; congruence.
  - intros x A E. destruct (try_root x) as [(y & On & E')|(_ & E')]; rewrite E' in E; [|discriminate].
    set (Y := fun b => if Z.lxor b (le_int (k_to_repr k y) mod 2) =? 0 then y else fneg o y).
    assert (EA : A = done x (Y 0)) by (unfold Y; congruence). clear E.
    assert (YN : Y 1 = fneg o (Y 0)).
    { unfold Y. rewrite !lxor_bit by auto. destruct (Z.odd (le_int (k_to_repr k y))); cbn; [rewrite neg_neg|]; reflexivity. }
    assert (On0 : on (Some (x, Y 0))) by (unfold Y; destruct (_ =? 0); [exact On|exact (on_neg x y On)]).
    exists (done x (Y 1)). split; [apply E'|]. intros P HP.
    rewrite EA in HP. clear EA.
    rewrite (arepr_inj o c HC _ _ _ HP (done_rep x _ On0)). rewrite YN, <- (mulz_neg m _ On0).
    exact (done_rep x _ (on_neg _ _ On0)).
  - intros x b A Hb E. destruct (try_root x) as [(y & On & E')|(_ & E')]; rewrite E' in E; [|discriminate].
    assert (X : exists y', on (Some (x, y')) /\ A = done x y').
    { injection E as <-. destruct (_ =? 0); eexists; (split; [|reflexivity]); [exact On|exact (on_neg x y On)]. }
    destruct X as (y' & On' & ->). destruct (cs_into _ _ _ _ _ _ _ CS _ On') as (n & En). exists n. rewrite <- En. exact (done_rep x y' On').
  - intros n Hn. destruct (cs_onto _ _ _ _ _ _ _ CS n) as (P & On & E). destruct P as [[x y]|].
    2:{ exfalso. apply Hn. rewrite <- E. set (Q := g0 (cpt_ops o c HC)).
        change (@None (F * F)) with (proj1_sig Q). rewrite <- (gmul_pt o c HC). unfold Q. rewrite (gmul_g0 _ (cpt_laws o c HC)). reflexivity. }
    destruct (try_root x) as [(y' & On' & E')|(No & _)]; [|exfalso; exact (No y On)].
    assert (YY : y = y' \/ y = fneg o y').
    { apply (sq_eq_cases o c HC). apply (y2_on o c HC) in On, On'. congruence. }
    set (q := Z.odd (le_int (k_to_repr k y'))).
    destruct YY as [-> | ->].
    + exists x, (if q then 1 else 0), (done x y'). split; [destruct q; auto|]. split; [|rewrite <- E; exact (done_rep x _ On)].
      rewrite E', lxor_bit by (destruct q; auto). fold q. destruct q; reflexivity.
    + exists x, (if q then 0 else 1), (done x (fneg o y')). split; [destruct q; auto|]. split; [|rewrite <- E; exact (done_rep x _ On)].
      rewrite E', lxor_bit by (destruct q; auto). fold q. destruct q; reflexivity.
Qed.
End Round.

(** ** The eleven curves with their [clear_cofactor] *)
Inductive sampled_plain : forall {F : Type}, fops F -> cconf F -> aff F -> fconf -> codec F -> Prop :=
| sp_six F (o : fops F) c g sc k cf : coded_six o c g sc k cf false -> sampled_plain o c g sc k
| sp_secp256r1 Hc : let o := lf_ops secp256r1_fp Hc in let inj := lf_inj secp256r1_fp Hc in
    sampled_plain o (curve_of o inj secp256r1_consts) (gen_aff inj secp256r1_consts) secp256r1_fq (fp_codec secp256r1_fp Hc).
Inductive sampled : forall {F : Type}, fops F -> cconf F -> aff F -> fconf -> codec F -> (proj F -> proj F) -> Z -> Prop :=
| sm_plain F (o : fops F) c g sc k : sampled_plain o c g sc k -> sampled o c g sc k plain_clear_cofactor 1
| sm_bls_g1 Hc : let o := lf_ops bls12381_fq Hc in let inj := lf_inj bls12381_fq Hc in let c := curve_of o inj bls_g1_consts in
    sampled o c (gen_aff inj bls_g1_consts) bls12381_fr (fp_codec bls12381_fq Hc) (bls_g1_clear_cofactor o c) 0xd201000000010001
| sm_bls_g2 Hc : let o := lf_ops bls12381_fq Hc in let inj := lf_inj bls12381_fq Hc in
    let o2 := bls_fq2 o in let c := curve_of o2 (inj2 inj) bls_g2_consts in
    sampled o2 c (gen_aff (inj2 inj) bls_g2_consts) bls12381_fr (bls_fq2_codec Hc)
      (bls_g2_clear_cofactor o2 c (quad_conjugate o) (inj2 inj bls_psi_x) (inj2 inj bls_psi_y) (inj2 inj bls_psi2_x)) bls_g2_h_eff
| sm_bn256_g2 Hc : let o := lf_ops bn256_fq Hc in let inj := lf_inj bn256_fq Hc in
    let o2 := bn256_fq2 o in let c := curve_of o2 (inj2 inj) bn256_g2_consts in
    sampled o2 c (gen_aff (inj2 inj) bn256_g2_consts) bn256_fr (bn256_fq2_codec Hc)
      (bn_g2_clear_cofactor o2 c (quad_conjugate o) (inj2 inj bn256_psi_x) (inj2 inj bn256_psi_y)) bn_m
| sm_triton Hc fuel : (2 <= fuel)%nat -> let o := lf_ops pluto_eris_fp Hc in let inj := lf_inj pluto_eris_fp Hc in
    let o2 := pluto_fp2 o in let c := curve_of o2 (inj2 inj) triton_consts in
    sampled o2 c (gen_aff (inj2 inj) triton_consts) pluto_eris_fq (pluto_fp2_codec Hc fuel) (triton_clear_cofactor o2 c)
      (2 * modulus pluto_eris_fp - modulus pluto_eris_fq).
Theorem C53_point : forall F (o : fops F) c g sc k clear m, sampled o c g sc k clear m ->
  sampler_spec o c (ax g, ay g) m k (random_try o c k clear).
Proof.
  intros F o c g sc k clear m X. destruct X as [F o c g sc k X|Hc o inj c|Hc o inj o2 c|Hc o inj o2 c|Hc fuel Hf o inj o2 c].
  - destruct X as [F o c g sc k cf X|Hc o inj].
    + pose proof (coded_six_facts _ _ _ _ _ _ _ X) as CF.
      exact (round_ok o c (coded_curve_laws _ _ _ _ _ _ CF) k (cd_laws _ _ _ _ _ _ CF) _ _ _ _ _
        (proj1 (C43_plain F o c g sc (six_whole o c g sc k cf false X)))).
    + pose proof (coded_x0_facts _ _ _ _ _ _ _ (cs_secp256r1 Hc)) as CF.
      exact (round_ok _ _ (coded_curve_laws _ _ _ _ _ _ CF) _ (cd_laws _ _ _ _ _ _ CF) _ _ _ _ _
        (proj1 (C43_plain _ _ _ _ _ (wc_secp256r1 _ o inj (lf_pf secp256r1_fp ltac:(in_fields) Hc))))).
  - pose proof (coded_x0_facts _ _ _ _ _ _ _ (cs_bls_g1 Hc)) as CF.
    exact (round_ok _ _ (coded_curve_laws _ _ _ _ _ _ CF) _ (cd_laws _ _ _ _ _ _ CF) _ _ _ _ _
      (C43_bls_g1 _ o inj (lf_pf bls12381_fq ltac:(in_fields) Hc))).
  - pose proof (coded_quad_facts _ _ _ _ _ _ _ _ _ (cs_bls_g2 Hc)) as CF.
    exact (round_ok _ _ (coded_curve_laws _ _ _ _ _ _ CF) _ (cd_laws _ _ _ _ _ _ CF) _ _ _ _ _
      (C43_bls_g2 _ o inj (lf_pf bls12381_fq ltac:(in_fields) Hc))).
  - pose proof (coded_quad_facts _ _ _ _ _ _ _ _ _ (cs_bn256_g2 Hc)) as CF.
    exact (round_ok _ _ (coded_curve_laws _ _ _ _ _ _ CF) _ (cd_laws _ _ _ _ _ _ CF) _ _ _ _ _
      (C43_bn256_g2 _ o inj (lf_pf bn256_fq ltac:(in_fields) Hc))).
  - pose proof (coded_quad_facts _ _ _ _ _ _ _ _ _ (cs_triton Hc fuel Hf)) as CF.
    exact (round_ok _ _ (coded_curve_laws _ _ _ _ _ _ CF) _ (cd_laws _ _ _ _ _ _ CF) _ _ _ _ _
      (C43_triton _ o inj (lf_pf pluto_eris_fp ltac:(in_fields) Hc))).
Qed.
Print Assumptions C53_point.

(** On the curves of prime order a point is the result of exactly one draw: its own abscissa
    and the parity of its ordinate. *)
Lemma ysign_odd {F} (k : codec F) y : y_sign k false y = odd_repr k y.
Proof. unfold y_sign, odd_repr. rewrite hd_parity, <- odd_bit. reflexivity. Qed.
Lemma plain_sign {F} (o : fops F) c g sc k : sampled_plain o c g sc k ->
  curve_laws o c /\ forall x y, on_curve o (ca c) (cb c) (Some (x, y)) -> odd_repr k (fneg o y) = negb (odd_repr k y).
Proof.
  intros X.
  assert (Y : exists cf, coded_prime o c g sc k cf false).
  { destruct X as [F o c g sc k cf X|Hc o inj]; [exists cf; left; exact X|]. exists Extra. right. apply cs_secp256r1. }
  destruct Y as (cf & Y). split; [exact (coded_curve_laws _ _ _ _ _ _ (coded_prime_facts _ _ _ _ _ _ _ Y))|].
  intros x y On. rewrite <- !ysign_odd. exact (prime_sign_ok _ _ _ _ _ _ _ Y x y On).
Qed.
Theorem C53_point_exact : forall F (o : fops F) c g sc k, sampled_plain o c g sc k ->
  forall x b A, b = 0 \/ b = 1 ->
    (random_try o c k plain_clear_cofactor x b = SqRet (Some A) <->
     ax A = x /\ on_curve o (ca c) (cb c) (Some (x, ay A)) /\ odd_repr k (ay A) = (b =? 1)).
Proof.
  intros F o c g sc k X x b A Hb. destruct (plain_sign o c g sc k X) as (HC & Sn).
  pose proof (ss_try _ _ _ _ _ _ (C53_point F o c g sc k _ 1 (sm_plain F o c g sc k X)) x b Hb) as S1.
  assert (E1 : forall P, pt_mulz o (ca c) 1 P = P) by (intros P; change (pt_add o (ca c) P None = P); destruct P as [[? ?]|]; reflexivity).
  destruct (random_try o c k plain_clear_cofactor x b) as [| |[B|]] eqn:E; try contradiction.
  - destruct S1 as (y & On & R & Sg). specialize (Sg (Sn x y On)). rewrite E1 in R. destruct R as (_ & Bx & By). split.
    + intros Q. assert (B = A) as -> by congruence. rewrite By. auto.
    + intros (Qx & Qo & Qs). assert (Y : ay A = y \/ ay A = fneg o y).
      { apply (sq_eq_cases o c HC). apply (y2_on o c HC) in On, Qo. congruence. }
      assert (EY : ay A = y).
      { destruct Y as [Y|Y]; [exact Y|]. exfalso. rewrite Y, (Sn x y On), Sg in Qs. destruct (b =? 1); discriminate. }
      f_equal. f_equal. destruct A as [A1 A2], B as [B1 B2]. cbn [ax ay] in *. congruence.
  - split; [discriminate|]. intros (Qx & Qo & _). exfalso. exact (S1 _ Qo).
Qed.
Print Assumptions C53_point_exact.

(** The documentation of [Group::random] promises an element other than the identity. On a curve
    with a cofactor that fails: the abscissa of a point of order 11 of bls12-381 G1 gives the
    identity whatever the drawn bit, since 11 divides the multiplier. *)
Theorem C53_identity_refuted : forall Hc b, b = 0 \/ b = 1 ->
  let o := lf_ops bls12381_fq Hc in let inj := lf_inj bls12381_fq Hc in let c := curve_of o inj bls_g1_consts in
  exists x A, random_try o c (fp_codec bls12381_fq Hc) (bls_g1_clear_cofactor o c) x b = SqRet (Some A) /\ arep o c A None.
Proof.
  intros Hc b Hb o inj c. pose proof (lf_pf bls12381_fq ltac:(in_fields) Hc) as HP.
  pose proof (coded_x0_facts _ _ _ _ _ _ _ (cs_bls_g1 Hc)) as CF. pose proof (coded_curve_laws _ _ _ _ _ _ CF) as HC.
  destruct (bls_g1_small _ _ HP) as (On & K & _). fold o inj c in On, K.
  set (x := inj (fst bls_g1_pt11)) in *. set (y := inj (snd bls_g1_pt11)) in *.
  pose proof (ss_try _ _ _ _ _ _ (C53_point _ _ _ _ _ _ _ _ (sm_bls_g1 Hc)) x b Hb) as T. fold o inj c in T.
  assert (KM : pt_mulz o (ca c) 0xd201000000010001 (Some (x, y)) = None).
  { set (Q := mkpt o c HC _ On).
    assert (Q11 : gmul (cpt_ops o c HC) 11 Q = g0 (cpt_ops o c HC)).
    { apply (cpt_ext o c). rewrite (gmul_pt o c HC). exact K. }
    change (0xd201000000010001) with (1375670565721967523 * 11).
    refine (eq_trans (eq_sym (gmul_pt o c HC _ Q)) _).
    rewrite (gmul_mul _ (cpt_laws o c HC)), Q11, (gmul_g0 _ (cpt_laws o c HC)). reflexivity. }
  destruct (random_try o c (fp_codec bls12381_fq Hc) (bls_g1_clear_cofactor o c) x b) as [| |[A|]] eqn:E; try contradiction.
  2:{ exfalso. exact (T y On). }
  exists x, A. split; [exact E|]. destruct T as (y' & On' & R & _).
  assert (Y : y' = y \/ y' = fneg o y).
  { apply (sq_eq_cases o c HC). apply (y2_on o c HC) in On, On'. congruence. }
  destruct Y as [-> | ->]; [rewrite KM in R; exact R|].
  change (Some (x, fneg o y)) with (pt_neg o (Some (x, y))) in R. rewrite (mulz_neg o c HC _ _ On), KM in R. exact R.
Qed.
Print Assumptions C53_identity_refuted.

(** ** The loop *)
(** The state after [j] rounds that gave nothing. *)
Fixpoint state_at {St F} (r : rng St) (rnd : St -> F * St) (j : nat) (s : St) : St :=
  match j with O => s | S i => state_at r rnd i (snd (random_draw r rnd s)) end.
(** The result of [random] comes from the first draw whose [x] is the abscissa of a point; the
    loop goes on exactly as long as there is none, and never panics. *)
Theorem C53_loop : forall F (o : fops F) c g sc k clear m, sampled o c g sc k clear m ->
  forall St (r : rng St) (rnd : St -> F * St) rounds s,
  let no_point x := forall y, ~ on_curve o (ca c) (cb c) (Some (x, y)) in
  let drawn_x j := fst (fst (random_draw r rnd (state_at r rnd j s))) in
  match aff_random r rnd o c k clear rounds s with
  | RRet (A, s') => exists j b, (j < rounds)%nat /\ (b = 0 \/ b = 1) /\ random_draw r rnd (state_at r rnd j s) = ((drawn_x j, b), s')
      /\ random_try o c k clear (drawn_x j) b = SqRet (Some A)
      /\ (forall i, (i < j)%nat -> no_point (drawn_x i))
      /\ proj_random r rnd o c k clear rounds s = RRet (to_curve o A, s')
  | RMore => forall i, (i < rounds)%nat -> no_point (drawn_x i)
  | RPanic => False
  | RDiverge => False
  end.
Proof.
  intros F o c g sc k clear m X St r rnd rounds s no_point drawn_x. pose proof (ss_try _ _ _ _ _ _ (C53_point F o c g sc k clear m X)) as SP.
  unfold drawn_x. clear drawn_x. unfold proj_random. revert s. induction rounds as [|n IH]; intros s; cbn [aff_random].
  - intros i Hi. lia.
  - destruct (random_draw r rnd s) as [[x b] s1] eqn:D.
    assert (Hb : b = 0 \/ b = 1).
    { unfold random_draw in D. destruct (rnd s) as [x' s2]. destruct (next_u32 r s2) as [w s3]. injection D as _ <- _.
      pose proof (Z.mod_pos_bound w 2 ltac:(lia)). lia. }
    pose proof (SP x b Hb) as Sx. destruct (random_try o c k clear x b) as [| |[A|]] eqn:E; try contradiction.
    + exists 0%nat, b. cbn [state_at]. rewrite D. cbn [fst]. split; [lia|]. split; [exact Hb|]. split; [reflexivity|]. split; [exact E|].
      split; [|reflexivity]. intros i Hi. lia.
    + specialize (IH s1). destruct (aff_random r rnd o c k clear n s1) as [[A s']| | |] eqn:EA; try contradiction.
      * destruct IH as (j & b' & Hj & Hb' & D' & T' & N & P). exists (S j), b'. cbn [state_at]. rewrite D. cbn [snd].
        split; [lia|]. split; [exact Hb'|]. split; [exact D'|]. split; [exact T'|]. split; [|exact P].
        intros [|i] Hi; cbn [state_at]; rewrite D; cbn [fst snd]; [exact Sx|]. apply N. lia.
      * intros [|i] Hi; cbn [state_at]; rewrite D; cbn [fst snd]; [exact Sx|]. apply IH. lia.
Qed.
Print Assumptions C53_loop.

(** ** The target groups *)
(** [Gt::random] panics only if the drawn element of the field of degree 12 is 0; otherwise the
    result is in the group of order r, and every element of that group is the result of some draw. *)
Theorem C53_gt : forall F (o : fops F) inj p sc c o2 o12 cj ml fe pr, crate_engine o inj p sc c o2 o12 cj ml fe pr ->
  (forall St (rnd : St -> quad (cubic (quad F)) * St) s,
    match gt_random rnd fe s with
    | None => fst (rnd s) = f0 o12
    | Some (x, s') => fst (rnd s) <> f0 o12 /\ s' = snd (rnd s) /\ fpowz o12 x (modulus sc) = f1 o12
    end)
  /\ forall x, fpowz o12 x (modulus sc) = f1 o12 -> exists f, fe f = Some x.
Proof.
  intros F o inj p sc c o2 o12 cj ml fe pr HE. pose proof (C40 _ _ _ _ _ _ _ _ _ _ _ _ HE) as (D & Hc & F0 & Fs & Fo & _).
  pose proof (crate_engine_facts _ _ _ _ _ _ _ _ _ _ _ HE) as EF. pose proof (en_field _ _ _ _ _ _ _ _ _ _ EF) as H.
  pose proof (fl_rl _ H) as HR. split.
  - intros St rnd s. unfold gt_random. destruct (rnd s) as [f s']. cbn [fst snd].
    destruct (feqb o12 f (f0 o12)) eqn:E.
    + apply (fl_eqb _ H) in E. rewrite E, F0. reflexivity.
    + assert (N : f <> f0 o12) by (intros Q; apply (fl_eqb _ H) in Q; congruence).
      pose proof (Fs f N) as X. rewrite X. cbn [option_map]. split; [exact N|]. split; [reflexivity|]. exact (Fo f _ X).
  - intros x Hx. pose proof (C40_exponent _ _ _ _ _ _ _ _ _ _ _ _ HE) as Ne.
    set (e := c * ((p ^ 12 - 1) / modulus sc)) in *. set (r := modulus sc) in *.
    assert (Pr : prime r) by (unfold r; destruct HE; apply field_prime; in_fields).
    pose proof (prime_ge_2 r Pr) as R2.
    assert (e0 : 0 <= e).
    { unfold e. apply Z.mul_nonneg_nonneg; [clear - Hc; lia|]. apply Z.div_pos; [|clear - R2; lia].
      pose proof (en_p _ _ _ _ _ _ _ _ _ _ EF) as P1. pose proof (Z.pow_pos_nonneg p 12 ltac:(clear - P1; lia) ltac:(lia)) as P2. clear - P2. lia. }
    assert (RP : rel_prime e r).
    { apply rel_prime_sym. apply (prime_rel_prime r Pr). intros Dv. apply Ne. apply Z.mod_divide; [clear - R2; lia|exact Dv]. }
    destruct (rel_prime_bezout _ _ RP) as [u v UV].
    assert (PW : forall n, 0 <= n -> fpowz o12 x n = fpowz o12 x (n mod r)).
    { intros n Hn. pose proof (Z.mod_pos_bound n r ltac:(clear - R2; lia)) as Mb. pose proof (Z.div_pos n r Hn ltac:(clear - R2; lia)) as Db.
      transitivity (fpowz o12 x (r * (n / r) + n mod r)); [f_equal; apply Z.div_mod; clear - R2; lia|].
      rewrite (fpowz_add _ HR), (fpowz_mul _ HR), Hx, (fpowz_one _ HR) by (clear - R2 Mb Db; nia). apply (Rmul_1_l (rl_ring _ HR)). }
    exists (fpowz o12 x (u mod r)). pose proof (Z.mod_pos_bound u r ltac:(clear - R2; lia)) as Ub.
    assert (Nx : x <> f0 o12).
    { intros Q. rewrite Q, (fpowz_zero _ HR) in Hx by (clear - R2; lia). exact (fl_1_0 _ H (eq_sym Hx)). }
    rewrite Fs by exact (fpowz_nonzero _ H _ _ Nx). f_equal. fold e.
    rewrite <- (fpowz_mul _ HR) by (clear - Ub e0; lia).
    assert (M1 : (u mod r * e) mod r = 1).
    { rewrite Zmult_mod_idemp_l. replace (u * e) with (1 + (- v) * r) by (clear - UV; lia). rewrite Z.mod_add by (clear - R2; lia).
      apply Z.mod_small. clear - R2. lia. }
    rewrite PW by (clear - Ub e0; nia). rewrite M1. apply fpowz_1; exact HR.
Qed.
Print Assumptions C53_gt.

(** ** Examples *)
(** A generator that counts: every byte string encodes the state. *)
Definition counter : rng Z := mk_rng (fun n s => (le_bytes n s, s + 1)) (fun s => (s, s + 1)).
Example ex_C53_field : rng_ok counter
  /\ eval (fe_from_mont bn256_fq (fst (fe_random counter bn256_fq (modulus bn256_fq + 5)))) = 5.
Proof.
  split; [|vm_compute; reflexivity]. intros n s. cbn [counter fill_bytes fst]. split; [apply le_bytes_bytes|apply le_bytes_length].
Qed.
Definition tape69 (i : nat) : Z := if Nat.eqb i 69 then 67 else 0.
Lemma tape69_bytes i : 0 <= tape69 i < 256.
Proof. unfold tape69. destruct (Nat.eqb i 69); lia. Qed.
Lemma second2 c (q : quad (lf c)) a b : map (lf_val c) (coeffs2 q) = [a; b] -> lf_val c (q1 q) = b.
Proof. intros E. injection E as _ E. exact E. Qed.
Lemma tape69_read : tape_residues tape69 3 (2 * size bn256_fq) 2 (modulus bn256_fq) = [0; 67 * 256 ^ 2].
Proof. vm_compute. reflexivity. Qed.
Example ex_C53_ext : forall Hc, lf_val bn256_fq (q1 (fst (quad_random (lf_random (tape tape69) bn256_fq Hc) 3%nat))) = 67 * 256 ^ 2.
Proof.
  intros Hc. assert (I : In bn256_fq all_fields) by in_fields. apply (second2 _ _ 0). rewrite <- tape69_read.
  exact (proj1 (proj1 (proj2 (C53_ext bn256_fq I Hc tape69 tape69_bytes 3%nat)))).
Qed.
(** The generator (1, 2) of bn256 G1 is drawn by x = 1 and an even bit. *)
Example ex_C53_point : forall Hc, let o := lf_ops bn256_fq Hc in let inj := lf_inj bn256_fq Hc in
  random_try o (curve_of_bn256_g1 o inj bn256_g1_consts) (fp_codec bn256_fq Hc) plain_clear_cofactor (inj 1) 0
  = SqRet (Some (mk_aff (inj 1) (inj 2))).
Proof.
  intros Hc o inj. pose proof (sp_six _ _ _ _ _ _ _ (cs_bn256_g1 Hc)) as X.
  apply (C53_point_exact _ _ _ _ _ _ X); [left; reflexivity|].
  pose proof (coded_six_facts _ _ _ _ _ _ _ (cs_bn256_g1 Hc)) as CF.
  pose proof (cf_gen _ _ _ _ (crate_curve_facts _ _ _ _ (cd_crate _ _ _ _ _ _ CF))) as G.
  split; [reflexivity|]. split; [exact (proj1 G)|]. rewrite <- ysign_odd. unfold y_sign. cbn [ay].
  assert (I : In bn256_fq all_fields) by in_fields.
  rewrite (fp_parity bn256_fq Hc). unfold inj. rewrite (zr_val_inj _ _ _ _ (lf_zrep bn256_fq Hc (field_sized _ I) (field_prime _ I)) 2). reflexivity.
Qed.
Example ex_C53_loop : forall Hc, let o := lf_ops bn256_fq Hc in let inj := lf_inj bn256_fq Hc in
  aff_random counter (fun s => (inj 1, s)) o (curve_of_bn256_g1 o inj bn256_g1_consts) (fp_codec bn256_fq Hc) plain_clear_cofactor 1 6
  = RRet (mk_aff (inj 1) (inj 2), 7).
Proof. intros Hc o inj. cbn [aff_random random_draw counter next_u32]. change (6 mod 2) with 0. unfold o, inj. rewrite (ex_C53_point Hc). reflexivity. Qed.
