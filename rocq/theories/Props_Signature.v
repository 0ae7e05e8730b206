(** C60: pairing-based (BLS) signatures, written with the functions of the crate: hash_to_curve,
    scalar multiplication, pairing.  The crate has no such scheme; this is what a caller
    gets from composing C27, C43, C49, C50 and C52, over the limb arrays of the crate. *)
From Coq Require Import String.
From Verif Require Import Base Word Bytes Field SpecField Params FieldFacts BytesFacts
  Algebra Pow Tower TowerFacts FiniteField PrimeField Primality Certs TowerParams TowerInst SpecCurve SpecCurveFacts Group
  Curve CurveFacts CurveGroup CurveParams CurveCheck CurveCerts CurveInst CrateCurves Pairing PairingParams
  SpecPairing PairingFacts PairingInst Divisors PairingMiller Bilinear SmallOrder Props_Miller
  SpecH2c H2c H2cParams Hash SpecHash HashFacts Props_Field Props_Field2 Props_Sqrt2 Props_Jacobi Props_Hash Props_H2c Cofactor LimbField Serde SerdeInst Sha256 HashToCurve Ecdsa
  Props_Curve Props_Serde Props_Pairing Props_Cofactor Props_Bilinear Props_Nondeg Props_HashToCurve.
Local Open Scope Z_scope.

(** ** Differences of points *)
Section Pt.
Context {F : Type} (o : fops F) (c : cconf F) (HC : curve_laws o c).
Notation on := (on_curve o (ca c) (cb c)). Notation m := (pt_mulz o (ca c)). Notation add := (pt_add o (ca c)). Notation neg := (pt_neg o).
Definition pt_sub (P Q : point (F := F)) : point := add P (neg Q).
Lemma arep_ex P : on P -> exists A, arep o c A P.
Proof.
  intros O. destruct P as [[x y]|]; [exists (mk_aff x y)|exists (mk_aff (f0 o) (f0 o))]; split; try exact O; split; reflexivity.
Qed.
Lemma neg_m1 P : on P -> neg P = m (-1) P.
Proof. intros O. change (-1) with (- (1)). rewrite (mulz_opp o c HC 1 P O), (mulz_1 o c HC P O). reflexivity. Qed.
Lemma sub_on P Q : on P -> on Q -> on (pt_sub P Q).
Proof. intros OP OQ. apply (add_on o (ca c) (cb c) (cl_field o c HC) (cl_two o c HC)); [exact OP|]. rewrite (neg_m1 Q OQ). apply (mulz_on o c HC). exact OQ. Qed.
Lemma sub_mul k P Q : on P -> on Q -> m k (pt_sub P Q) = pt_sub (m k P) (m k Q).
Proof.
  intros OP OQ. unfold pt_sub. rewrite (neg_m1 Q OQ), (neg_m1 (m k Q) (mulz_on o c HC k Q OQ)).
  rewrite (mulz_pt_add o c HC) by (try apply (mulz_on o c HC); assumption).
  rewrite <- !(mulz_mul o c HC) by assumption. rewrite Z.mul_comm. reflexivity.
Qed.
Lemma sub_add P Q : on P -> on Q -> add (pt_sub P Q) Q = P.
Proof.
  intros OP OQ. set (g := cpt_ops o c HC). set (p := mkpt o c HC P OP). set (q := mkpt o c HC Q OQ). pose proof (cpt_laws o c HC) as GL. fold g in GL.
  assert (E : gadd g (gadd g p (gneg g q)) q = p).
  { rewrite (gl_assoc _ GL), (gl_comm _ GL (gneg g q) q), (gl_neg _ GL), (gl_comm _ GL p), (gl_0 _ GL). reflexivity. }
  exact (f_equal (@proj1_sig _ _) E).
Qed.
Lemma sub_eq P Q : on P -> on Q -> (pt_sub P Q = None <-> P = Q).
Proof.
  intros OP OQ. split.
  - intros E. rewrite <- (sub_add P Q OP OQ), E. reflexivity.
  - intros ->. apply (add_neg o (ca c) (cl_field o c HC)).
Qed.
Lemma add_sub P Q : on P -> on Q -> pt_sub (add P Q) P = Q.
Proof.
  intros OP OQ. set (g := cpt_ops o c HC). set (p := mkpt o c HC P OP). set (q := mkpt o c HC Q OQ). pose proof (cpt_laws o c HC) as GL. fold g in GL.
  assert (E : gadd g (gadd g p q) (gneg g p) = q).
  { rewrite (gl_comm _ GL p q), (gl_assoc _ GL), (gl_neg _ GL), (gl_comm _ GL q), (gl_0 _ GL). reflexivity. }
  exact (f_equal (@proj1_sig _ _) E).
Qed.
End Pt.

(** ** The pairing equation *)
Section Gen.
Context {F E : Type} (o : fops F) (c1 : cconf F) (HC1 : curve_laws o c1) (o2 : fops (quad F)) (c2 : cconf (quad F)) (HC2 : curve_laws o2 c2).
Context (o12 : fops E) (H12 : field_laws o12) (r : Z) (Hr : prime r).
Context (e : aff F -> aff (quad F) -> option E) (Hb : bilinear o c1 o2 c2 o12 r e) (Hn : nondegenerate o c1 o2 c2 o12 r e).
Notation on1 := (on_curve o (ca c1) (cb c1)). Notation on2 := (on_curve o2 (ca c2) (cb c2)).
Notation m1 := (pt_mulz o (ca c1)). Notation m2 := (pt_mulz o2 (ca c2)).
Let HR := fl_rl _ H12.
Add Ring RSig : (rl_ring _ HR).
Lemma e_some A B P Q : arep o c1 A P -> arep o2 c2 B Q -> m2 r Q = None -> exists x, e A B = Some x /\ x <> f0 o12 /\ fpowz o12 x r = f1 o12.
Proof.
  intros hA hB kQ. destruct (proj1 Hb A B P Q hA hB kQ) as (y & Ey & Er). exists y. split; [exact Ey|]. split; [|exact Er].
  intros Z0. rewrite Z0, (fpowz_zero o12 HR) in Er by (apply prime_ge_2 in Hr; lia). exact (fl_1_0 _ H12 (eq_sym Er)).
Qed.
Lemma cancel1 x y : y <> f0 o12 -> (Some (fmul o12 x y) = Some y <-> Some x = Some (f1 o12)).
Proof.
  intros N. split; intros X; f_equal; apply some_inj in X.
  - apply (mul_cancel_l o12 H12 y); [exact N|]. transitivity (fmul o12 x y); [ring|]. rewrite X. ring.
  - rewrite X. ring.
Qed.
Lemma e_sub1 A A' D P P' B Q : arep o c1 A P -> arep o c1 A' P' -> arep o c1 D (pt_sub o c1 P P') -> arep o2 c2 B Q -> m2 r Q = None ->
  (e A B = e A' B <-> e D B = Some (f1 o12)).
Proof.
  intros hA hA' hD hB kQ. destruct (e_some _ _ _ _ hA' hB kQ) as (x' & E' & N' & _). destruct (e_some _ _ _ _ hD hB kQ) as (d & Ed & _ & _).
  destruct Hb as (_ & B2 & _ & _).
  rewrite (B2 D A' A B (pt_sub o c1 P P') P' Q d x' hD hA') by (try assumption; rewrite (sub_add o c1 HC1) by (apply hA || apply hA'); exact hA).
  rewrite E', Ed. apply cancel1. exact N'.
Qed.
Lemma e_sub2 A P B B' D Q Q' : arep o c1 A P -> arep o2 c2 B Q -> arep o2 c2 B' Q' -> arep o2 c2 D (pt_sub o2 c2 Q Q') -> 
  m2 r Q = None -> m2 r Q' = None -> (e A B = e A B' <-> e A D = Some (f1 o12)).
Proof.
  intros hA hB hB' hD kQ kQ'. destruct (e_some _ _ _ _ hA hB' kQ') as (x' & E' & N' & _).
  assert (kD : m2 r (pt_sub o2 c2 Q Q') = None).
  { rewrite (sub_mul o2 c2 HC2), kQ, kQ' by (apply hB || apply hB'). reflexivity. }
  destruct (e_some _ _ _ _ hA hD kD) as (d & Ed & _ & _).
  destruct Hb as (_ & _ & B3 & _).
  rewrite (B3 A D B' B P (pt_sub o2 c2 Q Q') Q' d x' hA hD hB') by (try assumption; rewrite (sub_add o2 c2 HC2) by (apply hB || apply hB'); exact hB).
  rewrite E', Ed. apply cancel1. exact N'.
Qed.
(** The secret moves from one argument to the other. *)
Lemma e_move A A' B B' P Q d : arep o c1 A P -> arep o c1 A' (m1 d P) -> arep o2 c2 B Q -> arep o2 c2 B' (m2 d Q) -> m2 r Q = None ->
  e A B' = e A' B.
Proof.
  intros hA hA' hB hB' kQ. destruct (e_some _ _ _ _ hA hB kQ) as (x & Ex & _). destruct Hb as (_ & _ & _ & B4).
  pose proof hA as hA1. rewrite <- (mulz_1 o c1 HC1 P) in hA1 by apply hA. pose proof hB as hB1. rewrite <- (mulz_1 o2 c2 HC2 Q) in hB1 by apply hB.
  rewrite (B4 A A B B' P Q 1 d x hA hA1 hB hB' kQ Ex), (B4 A A' B B P Q d 1 x hA hA' hB hB1 kQ Ex). rewrite Z.mul_comm. reflexivity.
Qed.

(** Signatures in the first group, public key [d] [Q]. *)
Section First.
Context (A sg : aff F) (P S : point (F := F)) (B pk : aff (quad F)) (Q : point (F := quad F)) (d : Z).
Hypothesis hA : arep o c1 A P.
Hypothesis hS : arep o c1 sg S.
Hypothesis hB : arep o2 c2 B Q.
Hypothesis hpk : arep o2 c2 pk (m2 d Q).
Hypothesis kQ : m2 r Q = None.
Hypothesis NQ : Q <> None.
Lemma first_eq : exists D, arep o c1 D (pt_sub o c1 S (m1 d P)) /\ (e sg B = e A pk <-> e D B = Some (f1 o12)).
Proof using All.
  assert (Od : on1 (m1 d P)) by (apply (mulz_on o c1 HC1); apply hA).
  destruct (arep_ex o c1 _ Od) as (A' & hA'). destruct (arep_ex o c1 _ (sub_on o c1 HC1 S (m1 d P) (proj1 hS) Od)) as (D & hD).
  exists D. split; [exact hD|]. rewrite (e_move A A' B pk P Q d hA hA' hB hpk kQ). exact (e_sub1 sg A' D S (m1 d P) B Q hS hA' hD hB kQ).
Qed.
Lemma first_torsion : m1 r S = None -> m1 r P = None -> (e sg B = e A pk <-> S = m1 d P).
Proof using All.
  intros kS kP. destruct first_eq as (D & hD & X). rewrite X.
  assert (Od : on1 (m1 d P)) by (apply (mulz_on o c1 HC1); apply hA).
  assert (kD : m1 r (pt_sub o c1 S (m1 d P)) = None).
  { rewrite (sub_mul o c1 HC1), kS by (exact Od || apply hS). rewrite <- (mulz_mul o c1 HC1) by apply hA.
    rewrite Z.mul_comm, (mulz_mul o c1 HC1), kP, pt_mulz_none by apply hA. reflexivity. }
  rewrite (Hn D B _ Q hD hB kD kQ). rewrite <- (sub_eq o c1 HC1 S (m1 d P) (proj1 hS) Od). intuition.
Qed.
(** Without the test for the subgroup: [h] is a cofactor. *)
Lemma first_cofactor h : 0 < h -> rel_prime h r -> (forall R, on1 R -> m1 r (m1 h R) = None) ->
  (e sg B = e A pk <-> m1 h (pt_sub o c1 S (m1 d P)) = None).
Proof using All.
  intros Hh Hhr Hc. destruct first_eq as (D & hD & X). rewrite X.
  set (T := pt_sub o c1 S (m1 d P)) in *. pose proof (proj1 hD) as OT.
  destruct (arep_ex o c1 _ (mulz_on o c1 HC1 h T OT)) as (D' & hD').
  destruct (e_some _ _ _ _ hD hB kQ) as (x & Ex & Nx & Er).
  pose proof hB as hB1. rewrite <- (mulz_1 o2 c2 HC2 Q) in hB1 by apply hB.
  assert (E' : e D' B = Some (fpowz o12 x (h mod r))).
  { destruct Hb as (_ & _ & _ & B4). rewrite (B4 D D' B B T Q h 1 x hD hD' hB hB1 kQ Ex), Z.mul_1_r. reflexivity. }
  assert (R2 : 2 <= r) by (apply prime_ge_2; exact Hr).
  rewrite Ex. split.
  - intros X1. apply some_inj in X1. subst x. rewrite (fpowz_one o12 HR) in E'.
    apply (Hn D' B _ Q hD' hB (Hc T OT) kQ) in E'. destruct E' as [E'|E']; [exact E'|contradiction].
  - intros E0. assert (E1 : e D' B = Some (f1 o12)) by (apply (Hn D' B _ Q hD' hB (Hc T OT) kQ); left; exact E0).
    rewrite E' in E1. apply some_inj in E1. f_equal.
    apply (pow_coprime o12 H12 x r (h mod r)); [lia|apply Z.mod_pos_bound; lia| |exact Er|exact E1].
    rewrite Z.gcd_comm, Z.gcd_mod by lia. apply Zgcd_1_rel_prime in Hhr. rewrite Z.gcd_comm. exact Hhr.
Qed.
End First.
(** Signatures in the second group, public key [d] [P]. *)
Lemma second_torsion A pk P B sg Q S d : arep o c1 A P -> arep o c1 pk (m1 d P) -> arep o2 c2 B Q -> arep o2 c2 sg S ->
  m1 r P = None -> P <> None -> m2 r Q = None -> m2 r S = None -> (e A sg = e pk B <-> S = m2 d Q).
Proof using All.
  intros hA hpk hB hS kP NP kQ kS. assert (Od : on2 (m2 d Q)) by (apply (mulz_on o2 c2 HC2); apply hB).
  assert (kd : m2 r (m2 d Q) = None).
  { rewrite <- (mulz_mul o2 c2 HC2) by apply hB. rewrite Z.mul_comm, (mulz_mul o2 c2 HC2), kQ, pt_mulz_none by apply hB. reflexivity. }
  destruct (arep_ex o2 c2 _ Od) as (B' & hB'). destruct (arep_ex o2 c2 _ (sub_on o2 c2 HC2 S (m2 d Q) (proj1 hS) Od)) as (D & hD).
  assert (kD : m2 r (pt_sub o2 c2 S (m2 d Q)) = None).
  { rewrite (sub_mul o2 c2 HC2), kS, kd by (exact Od || apply hS). reflexivity. }
  rewrite <- (e_move A pk B B' P Q d hA hpk hB hB' kQ). rewrite (e_sub2 A P sg B' D S (m2 d Q) hA hS hB' hD kS kd).
  rewrite (Hn A D P _ hA hD kP kD). rewrite <- (sub_eq o2 c2 HC2 S (m2 d Q) (proj1 hS) Od). intuition.
Qed.
End Gen.

(** ** The scheme *)
(** Keys and signatures: [(p * sk).to_affine()], with [p] the generator or the hashed message. *)
Definition secret_mul {F} (o : fops F) (c : cconf F) (sc : fconf) (p : proj F) (sk : list Z) : aff F := to_affine o (proj_mul o c p (to_repr sc sk)).
(** Signatures in G1: [pairing(s, g2) == pairing(H, pk)] holds for exactly one [s] of G1. *)
Definition signs_first {F E} (o : fops F) (c1 : cconf F) (o2 : fops (quad F)) (c2 : cconf (quad F)) (g2 : aff (quad F)) (sc : fconf)
    (e : aff F -> aff (quad F) -> option E) (h : proj F) : Prop :=
  forall sk d, represents (num_limbs sc) (modulus sc) sk d ->
  let pk := secret_mul o2 c2 sc (proj_generator o2 g2) sk in let H := to_affine o h in
  (exists x, e H pk = Some x) /\
  forall s S, arep o c1 s S -> pt_mulz o (ca c1) (modulus sc) S = None -> (e s g2 = e H pk <-> s = secret_mul o c1 sc h sk).
(** Signatures in G2: [pairing(g1, s) == pairing(pk, H)]. *)
Definition signs_second {F E} (o : fops F) (c1 : cconf F) (g1 : aff F) (o2 : fops (quad F)) (c2 : cconf (quad F)) (sc : fconf)
    (e : aff F -> aff (quad F) -> option E) (h : proj (quad F)) : Prop :=
  forall sk d, represents (num_limbs sc) (modulus sc) sk d ->
  let pk := secret_mul o c1 sc (proj_generator o g1) sk in let H := to_affine o2 h in
  (exists x, e pk H = Some x) /\
  forall s S, arep o2 c2 s S -> pt_mulz o2 (ca c2) (modulus sc) S = None -> (e g1 s = e pk H <-> s = secret_mul o2 c2 sc h sk).
(** For every hash function with 32-byte output, domain prefix and message. *)
Definition scheme {E} (domain : string) (run : digest -> list Z -> list Z -> h2c (proj E)) (ok : proj E -> Prop) : Prop :=
  forall D, digest_ok D -> output_size D = 32%nat -> forall prefix msg, (length (prefix ++ ascii_bytes domain) <= 255)%nat ->
  exists h, run D prefix msg = HRet h /\ ok h.

Section Scheme.
Context {F E : Type} (o : fops F) (c1 : cconf F) (g1 : aff F) (o2 : fops (quad F)) (c2 : cconf (quad F)) (g2 : aff (quad F)) (sc : fconf).
Context (V1 : crate_curve o c1 g1 sc) (V2 : crate_curve o2 c2 g2 sc) (Is : In sc all_fields).
Context (o12 : fops E) (H12 : field_laws o12) (e : aff F -> aff (quad F) -> option E).
Context (Hb : bilinear o c1 o2 c2 o12 (modulus sc) e) (Hn : nondegenerate o c1 o2 c2 o12 (modulus sc) e).
Notation r := (modulus sc). Notation m1 := (pt_mulz o (ca c1)). Notation m2 := (pt_mulz o2 (ca c2)).
Let C1 := crate_curve_facts _ _ _ _ V1. Let C2 := crate_curve_facts _ _ _ _ V2.
Let HC1 := cf_laws _ _ _ _ C1. Let HC2 := cf_laws _ _ _ _ C2. Let Hr := field_prime sc Is.
Lemma gprep {K} (ok : fops K) c g : curve_laws ok c -> on_curve ok (ca c) (cb c) (Some (ax g, ay g)) -> prep ok c (proj_generator ok g) (Some (ax g, ay g)).
Proof.
  intros HC O. split; [exact O|]. pose proof (cl_field _ _ HC) as Hf. pose proof (fl_rl _ Hf) as HR. cbn [proj_generator px py pz].
  split; [exact (fl_1_0 _ Hf)|]. split; symmetry; rewrite (Rmul_comm (rl_ring _ HR)); apply (Rmul_1_l (rl_ring _ HR)).
Qed.
Lemma sm_rep {K} (ok : fops K) c g (V : crate_curve ok c g sc) p P sk d : prep ok c p P -> represents (num_limbs sc) r sk d ->
  arep ok c (secret_mul ok c sc p sk) (pt_mulz ok (ca c) d P).
Proof. intros hp R. apply (to_affine_repr ok c (cf_laws _ _ _ _ (crate_curve_facts _ _ _ _ V))). exact (C27_mul _ ok c g sc V p P sk d hp R). Qed.
Lemma rep_of {K} (ok : fops K) c (g : aff K) : on_curve ok (ca c) (cb c) (Some (ax g, ay g)) -> arep ok c g (Some (ax g, ay g)).
Proof. intros O. split; [exact O|split; reflexivity]. Qed.
Lemma first_ok h R : prep o c1 h R -> m1 r R = None -> signs_first o c1 o2 c2 g2 sc e h.
Proof using All.
  intros hh kR sk d Rd pk H. pose proof (to_affine_repr o c1 HC1 _ _ hh) as hH. fold H in hH.
  pose proof (proj1 (cf_gen _ _ _ _ C2)) as O2. pose proof (cf_order _ _ _ _ C2) as R2.
  pose proof (sm_rep o2 c2 g2 V2 _ _ sk d (gprep o2 c2 g2 HC2 O2) Rd) as hpk. fold pk in hpk.
  pose proof (rep_of o2 c2 g2 O2) as hg. pose proof (sm_rep o c1 g1 V1 _ _ sk d hh Rd) as hs.
  assert (kpk : m2 r (m2 d (Some (ax g2, ay g2))) = None).
  { rewrite <- (mulz_mul o2 c2 HC2), Z.mul_comm, (mulz_mul o2 c2 HC2), R2 by exact O2. apply pt_mulz_none. }
  split. { destruct (proj1 Hb _ _ _ _ hH hpk kpk) as (x & Ex & _). exists x. exact Ex. }
  intros s S hS kS.
  rewrite (first_torsion o c1 HC1 o2 c2 HC2 o12 H12 r Hr e Hb Hn H s R S g2 pk _ d hH hS hg hpk R2 ltac:(discriminate) kS kR). split.
  - intros ->. exact (arepr_unique o c1 _ _ _ hS hs).
  - intros ->. exact (arepr_inj o c1 HC1 _ _ _ hS hs).
Qed.
Lemma second_ok h R : prep o2 c2 h R -> m2 r R = None -> signs_second o c1 g1 o2 c2 sc e h.
Proof using All.
  intros hh kR sk d Rd pk H. pose proof (to_affine_repr o2 c2 HC2 _ _ hh) as hH. fold H in hH.
  pose proof (proj1 (cf_gen _ _ _ _ C1)) as O1. pose proof (cf_order _ _ _ _ C1) as R1.
  pose proof (sm_rep o c1 g1 V1 _ _ sk d (gprep o c1 g1 HC1 O1) Rd) as hpk. fold pk in hpk.
  pose proof (rep_of o c1 g1 O1) as hg. pose proof (sm_rep o2 c2 g2 V2 _ _ sk d hh Rd) as hs.
  split. { destruct (proj1 Hb _ _ _ _ hpk hH kR) as (x & Ex & _). exists x. exact Ex. }
  intros s S hS kS.
  rewrite (second_torsion o c1 HC1 o2 c2 HC2 o12 H12 r Hr e Hb Hn g1 pk _ H s R S d hg hpk hH hS R1 ltac:(discriminate) kR kS). split.
  - intros ->. exact (arepr_unique o2 c2 _ _ _ hS hs).
  - intros ->. exact (arepr_inj o2 c2 HC2 _ _ _ hS hs).
Qed.
End Scheme.

Lemma h2c_first {E} (o : fops E) c gen r h elem p m L domain point run (ok : proj E -> Prop) :
  h2c_correct o c gen r h elem p m L domain point run ->
  (forall q R, prep o c q R -> pt_mulz o (ca c) r R = None -> ok q) -> scheme domain run ok.
Proof.
  intros HH K D HD H32 prefix msg HL. destruct (HH D HD H32 prefix msg HL) as (q & Q0 & Q1 & E0 & _ & _ & hp & _ & kR).
  exists q. split; [exact E0|]. exact (K q _ hp kR).
Qed.

Section Bn256.
Context (Hc : odd_conf bn256_fq).
Notation o := (lf_ops bn256_fq Hc). Notation inj := (lf_inj bn256_fq Hc).
Notation c1 := (curve_of_bn256_g1 o inj bn256_g1_consts). Notation c2 := (curve_of (bn256_fq2 o) (inj2 inj) bn256_g2_consts).
Notation g1 := (gen_aff inj bn256_g1_consts). Notation g2 := (gen_aff (inj2 inj) bn256_g2_consts).
Let HP : prime_field (modulus bn256_fq) o inj := lf_pf7 bn256_fq ltac:(in_fields) Hc.
Let H12 : field_laws (bn256_fq12 o) := en_field _ _ _ _ _ _ _ _ _ _ (crate_engine_facts o inj _ _ _ _ _ _ _ _ _ (eng_bn256 o inj HP)).
Let Is : In bn256_fr all_fields := ltac:(in_fields).
Lemma bn256_first : scheme "BN254G1_XMD:SHA-256_SVDW_RO_" (bn256_g1_hash o inj (lf_odd _) (lf_nonres _) (lf_fu _ Hc))
  (signs_first o c1 (bn256_fq2 o) c2 g2 bn256_fr (bn256_pairing o inj)).
Proof.
  refine (h2c_first o c1 _ _ _ _ _ _ _ _ _ _ _ (C52_bn256_g1 Hc) _). intros q R hq kR.
  exact (first_ok o c1 g1 _ c2 g2 bn256_fr (cv_bn256_g1 _ o inj HP) (cv_bn256_g2 _ o inj HP) Is _ H12 _
    (C49_bn256 _ o inj HP) (proj1 (C50_bn256 _ o inj HP)) q R hq kR).
Qed.
Lemma bn256_second : scheme "BN254G2_XMD:SHA-256_SVDW_RO_" (bn256_g2_hash o inj (t2_odd _ Hc) (t2_nonres _ Hc) (t2_from_uniform_bytes _ Hc 48))
  (signs_second o c1 g1 (bn256_fq2 o) c2 bn256_fr (bn256_pairing o inj)).
Proof.
  refine (h2c_first (bn256_fq2 o) c2 _ _ _ _ _ _ _ _ _ _ _ (C52_bn256_g2_partial Hc) _). intros q R hq kR.
  exact (second_ok o c1 g1 _ c2 g2 bn256_fr (cv_bn256_g1 _ o inj HP) (cv_bn256_g2 _ o inj HP) Is _ H12 _
    (C49_bn256 _ o inj HP) (proj1 (C50_bn256 _ o inj HP)) q R hq kR).
Qed.
End Bn256.
Section Pluto.
Context (Hc : odd_conf pluto_eris_fp).
Notation o := (lf_ops pluto_eris_fp Hc). Notation inj := (lf_inj pluto_eris_fp Hc).
Notation c1 := (curve_of o inj pluto_consts). Notation c2 := (curve_of (pluto_fp2 o) (inj2 inj) triton_consts).
Notation g1 := (gen_aff inj pluto_consts). Notation g2 := (gen_aff (inj2 inj) triton_consts).
Let HP : prime_field (modulus pluto_eris_fp) o inj := lf_pf7 pluto_eris_fp ltac:(in_fields) Hc.
Let H12 : field_laws (pluto_fp12 o inj) := en_field _ _ _ _ _ _ _ _ _ _ (crate_engine_facts o inj _ _ _ _ _ _ _ _ _ (eng_pluto o inj HP)).
Let Is : In pluto_eris_fq all_fields := ltac:(in_fields).
Lemma pluto_first : scheme "pluto_XMD:SHA-256_SVDW_RO_" (pluto_hash o inj (lf_odd _) (lf_nonres _) (lf_fu _ Hc))
  (signs_first o c1 (pluto_fp2 o) c2 g2 pluto_eris_fq (pluto_pairing o inj)).
Proof.
  refine (h2c_first o c1 _ _ _ _ _ _ _ _ _ _ _ (C52_pluto Hc) _). intros q R hq kR.
  exact (first_ok o c1 g1 _ c2 g2 pluto_eris_fq (cv_pluto _ o inj HP) (cv_triton _ o inj HP) Is _ H12 _
    (C49_pluto _ o inj HP) (proj1 (C50_pluto _ o inj HP)) q R hq kR).
Qed.
End Pluto.
Section Bls.
Context (Hc : odd_conf bls12381_fq).
Notation o := (lf_ops bls12381_fq Hc). Notation inj := (lf_inj bls12381_fq Hc).
Notation c1 := (curve_of o inj bls_g1_consts). Notation c2 := (curve_of (bls_fq2 o) (inj2 inj) bls_g2_consts).
Notation g1 := (gen_aff inj bls_g1_consts). Notation g2 := (gen_aff (inj2 inj) bls_g2_consts).
Let HP : prime_field (modulus bls12381_fq) o inj := lf_pf7 bls12381_fq ltac:(in_fields) Hc.
Let H12 : field_laws (bls_fq12 o) := en_field _ _ _ _ _ _ _ _ _ _ (crate_engine_facts o inj _ _ _ _ _ _ _ _ _ (eng_bls12381 o inj HP)).
Let Is : In bls12381_fr all_fields := ltac:(in_fields).
Notation sf := (signs_first o c1 (bls_fq2 o) c2 g2 bls12381_fr (bls_pairing o inj)).
Lemma bls_sf q R : prep o c1 q R -> pt_mulz o (ca c1) (modulus bls12381_fr) R = None -> sf q.
Proof.
  exact (first_ok o c1 g1 _ c2 g2 bls12381_fr (cv_bls_g1 _ o inj HP) (cv_bls_g2 _ o inj HP) Is _ H12 _
    (C49_bls12381 _ o inj HP) (proj1 (C50_bls12381 _ o inj HP)) q R).
Qed.
Lemma bls_second : scheme "BLS12381G2_XMD:SHA-256_SSWU_RO_" (bls_g2_hash o inj (t2_odd _ Hc) (t2_from_uniform_bytes _ Hc 64))
  (signs_second o c1 g1 (bls_fq2 o) c2 bls12381_fr (bls_pairing o inj)).
Proof.
  refine (h2c_first (bls_fq2 o) c2 _ _ _ _ _ _ _ _ _ _ _ (C52_bls_g2_partial Hc) _). intros q R hq kR.
  exact (second_ok o c1 g1 _ c2 g2 bls12381_fr (cv_bls_g1 _ o inj HP) (cv_bls_g2 _ o inj HP) Is _ H12 _
    (C49_bls12381 _ o inj HP) (proj1 (C50_bls12381 _ o inj HP)) q R hq kR).
Qed.
Definition h1 := 0xd201000000010001.
Lemma h1_prime : rel_prime h1 (modulus bls12381_fr).
Proof. apply Zgcd_1_rel_prime. vm_compute. reflexivity. Qed.
Lemma three : let P := Some (inj 0, inj 2) in on_curve o (ca c1) (cb c1) P /\ pt_mulz o (ca c1) 3 P = None.
Proof.
  refine (prime_pt bls_g1_consts _ o inj HP bls_g1_ok 0 2 3 _). vm_compute. reflexivity.
Qed.
End Bls.

(** Every message has exactly one signature in the group that verifies, namely the one that
    signing computes.  bn256, signatures in G1 and in G2: *)
Theorem C60_bn256 : forall Hc, let o := lf_ops bn256_fq Hc in let inj := lf_inj bn256_fq Hc in let o2 := bn256_fq2 o in
  let c1 := curve_of_bn256_g1 o inj bn256_g1_consts in let c2 := curve_of o2 (inj2 inj) bn256_g2_consts in
  let g1 := gen_aff inj bn256_g1_consts in let g2 := gen_aff (inj2 inj) bn256_g2_consts in
  scheme "BN254G1_XMD:SHA-256_SVDW_RO_" (bn256_g1_hash o inj (lf_odd _) (lf_nonres _) (lf_fu _ Hc))
    (signs_first o c1 o2 c2 g2 bn256_fr (bn256_pairing o inj)) /\
  scheme "BN254G2_XMD:SHA-256_SVDW_RO_" (bn256_g2_hash o inj (t2_odd _ Hc) (t2_nonres _ Hc) (t2_from_uniform_bytes _ Hc 48))
    (signs_second o c1 g1 o2 c2 bn256_fr (bn256_pairing o inj)).
Proof. exact (fun Hc => conj (bn256_first Hc) (bn256_second Hc)). Qed.
Print Assumptions C60_bn256.
(** pluto (the crate does not hash to triton): *)
Theorem C60_pluto : forall Hc, let o := lf_ops pluto_eris_fp Hc in let inj := lf_inj pluto_eris_fp Hc in let o2 := pluto_fp2 o in
  scheme "pluto_XMD:SHA-256_SVDW_RO_" (pluto_hash o inj (lf_odd _) (lf_nonres _) (lf_fu _ Hc))
    (signs_first o (curve_of o inj pluto_consts) o2 (curve_of o2 (inj2 inj) triton_consts) (gen_aff (inj2 inj) triton_consts)
       pluto_eris_fq (pluto_pairing o inj)).
Proof. exact pluto_first. Qed.
Print Assumptions C60_pluto.
(** bls12-381, signatures in G2: *)
Theorem C60_bls_g2 : forall Hc, let o := lf_ops bls12381_fq Hc in let inj := lf_inj bls12381_fq Hc in let o2 := bls_fq2 o in
  scheme "BLS12381G2_XMD:SHA-256_SSWU_RO_" (bls_g2_hash o inj (t2_odd _ Hc) (t2_from_uniform_bytes _ Hc 64))
    (signs_second o (curve_of o inj bls_g1_consts) (gen_aff inj bls_g1_consts) o2 (curve_of o2 (inj2 inj) bls_g2_consts)
       bls12381_fr (bls_pairing o inj)).
Proof. exact bls_second. Qed.
Print Assumptions C60_bls_g2.
(** bls12-381, signatures in G1.  The part that is missing is the hash of a message whose map hits the kernel of
    the isogeny (C52_bls_g1_partial). *)
Theorem C60_bls_g1_partial : forall Hc, let o := lf_ops bls12381_fq Hc in let inj := lf_inj bls12381_fq Hc in let o2 := bls_fq2 o in
  let a := inj (sw_a bls_g1_sswu) in let b := inj (sw_b bls_g1_sswu) in
  forall D, digest_ok D -> output_size D = 32%nat -> forall prefix msg,
  let DST := prefix ++ ascii_bytes "BLS12381G1_XMD:SHA-256_SSWU_RO_" in (length DST <= 255)%nat ->
  let u := rfc_u (fun k => inj (k 0%nat)) (modulus bls12381_fq) 1 64 D msg DST in
  (forall i t s, (i < 2)%nat -> sswu_spec o (sgn0 _) a b (inj 11) (u i) t s ->
     peval o (nth 1 (map (map inj) (sw_iso bls_g1_sswu)) []) t <> f0 o) ->
  exists h, bls_g1_hash o inj (lf_odd _) (lf_fu _ Hc) D prefix msg = HRet h /\
  signs_first o (curve_of o inj bls_g1_consts) o2 (curve_of o2 (inj2 inj) bls_g2_consts) (gen_aff (inj2 inj) bls_g2_consts)
    bls12381_fr (bls_pairing o inj) h.
Proof.
  intros Hc o inj o2 a b D HD H32 prefix msg DST HL u HK.
  destruct (C52_bls_g1_partial Hc D HD H32 prefix msg HL HK) as (q & Q0 & Q1 & E0 & _ & _ & hp & _ & kR).
  exists q. split; [exact E0|]. exact (bls_sf Hc q _ hp kR).
Qed.
Print Assumptions C60_bls_g1_partial.
(** Nothing in the crate's decoders tests membership in G1 (C33, C55), and the pairing equation does
    not either: it accepts every point of the curve that differs from the signature by a point killed by
    1-x, such as the point (0, 2) of order 3. *)
Theorem C60_subgroup_refuted : forall Hc, let o := lf_ops bls12381_fq Hc in let inj := lf_inj bls12381_fq Hc in let o2 := bls_fq2 o in
  let c1 := curve_of o inj bls_g1_consts in let c2 := curve_of o2 (inj2 inj) bls_g2_consts in let g2 := gen_aff (inj2 inj) bls_g2_consts in
  let e := bls_pairing o inj in let mul := pt_mulz o (ca c1) in
  forall h R, prep o c1 h R -> mul (modulus bls12381_fr) R = None ->
  forall sk d, represents (num_limbs bls12381_fr) (modulus bls12381_fr) sk d ->
  let pk := secret_mul o2 c2 bls12381_fr (proj_generator o2 g2) sk in let H := to_affine o h in
  (forall s S, arep o c1 s S -> (e s g2 = e H pk <-> mul 0xd201000000010001 (pt_sub o c1 S (mul d R)) = None)) /\
  (exists s, arep o c1 s (pt_add o (ca c1) (mul d R) (Some (inj 0, inj 2))) /\ e s g2 = e H pk /\ s <> secret_mul o c1 bls12381_fr h sk).
Proof.
  intros Hc o inj o2 c1 c2 g2 e mul h R hh kR sk d Rd pk H.
  assert (Hi : In bls12381_fq all_fields) by in_fields. pose proof (lf_pf7 _ Hi Hc) as HP. fold o inj in HP.
  assert (Is : In bls12381_fr all_fields) by in_fields. pose proof (field_prime _ Is) as Hr.
  pose proof (en_field _ _ _ _ _ _ _ _ _ _ (crate_engine_facts o inj _ _ _ _ _ _ _ _ _ (eng_bls12381 o inj HP))) as H12.
  pose proof (cv_bls_g1 _ o inj HP) as V1. pose proof (cv_bls_g2 _ o inj HP) as V2.
  pose proof (crate_curve_facts _ _ _ _ V1) as C1. pose proof (crate_curve_facts _ _ _ _ V2) as C2.
  pose proof (cf_laws _ _ _ _ C1) as HC1. pose proof (cf_laws _ _ _ _ C2) as HC2.
  pose proof (to_affine_repr o c1 HC1 _ _ hh) as hH. pose proof (proj1 (cf_gen _ _ _ _ C2)) as O2. pose proof (cf_order _ _ _ _ C2) as R2.
  pose proof (sm_rep bls12381_fr o2 c2 g2 V2 _ _ sk d (gprep o2 c2 g2 HC2 O2) Rd) as hpk.
  pose proof (rep_of o2 c2 g2 O2) as hg. pose proof (sm_rep bls12381_fr o c1 _ V1 _ _ sk d hh Rd) as hs.
  pose proof (C43_bls_g1 _ o inj HP) as CS.
  assert (K : forall P, on_curve o (ca c1) (cb c1) P -> mul (modulus bls12381_fr) (mul h1 P) = None).
  { intros P OP. apply (cs_group _ _ _ _ _ _ _ CS); [exact (mulz_on o c1 HC1 _ P OP)|]. exact (cs_into _ _ _ _ _ _ _ CS P OP). }
  assert (X : forall s S, arep o c1 s S -> (e s g2 = e H pk <-> mul h1 (pt_sub o c1 S (mul d R)) = None)).
  { intros s S hS. refine (first_cofactor o c1 HC1 o2 c2 HC2 _ H12 _ Hr e (C49_bls12381 _ o inj HP) (proj1 (C50_bls12381 _ o inj HP))
      H s R S g2 pk _ d hH hS hg hpk R2 _ h1 _ h1_prime K); [discriminate|reflexivity]. }
  split; [exact X|]. destruct (three Hc) as [OT ET]. fold o inj c1 in OT, ET.
  assert (Od : on_curve o (ca c1) (cb c1) (mul d R)) by exact (proj1 hs).
  destruct (arep_ex o c1 _ (add_on o (ca c1) (cb c1) (cl_field _ _ HC1) (cl_two _ _ HC1) _ _ Od OT)) as (s & hS).
  exists s. split; [exact hS|]. split.
  - apply (X s _ hS). rewrite (add_sub o c1 HC1 _ _ Od OT). replace h1 with (h1 / 3 * 3) by (vm_compute; reflexivity).
    unfold mul. rewrite (mulz_mul o c1 HC1 _ _ _ OT), ET. apply pt_mulz_none.
  - intros ->. pose proof (arepr_inj o c1 HC1 _ _ _ hS hs) as E0.
    pose proof (add_sub o c1 HC1 _ _ Od OT) as E1. rewrite E0 in E1.
    pose proof (eq_trans (eq_sym E1) (proj2 (sub_eq o c1 HC1 _ _ Od Od) eq_refl)) as E2. discriminate E2.
Qed.
Print Assumptions C60_subgroup_refuted.

(** SHA-256, the prefix "halo2-" and the message "abc", with the secret key 10. *)
Example C60_example : forall Hc, let o := lf_ops bn256_fq Hc in let inj := lf_inj bn256_fq Hc in let o2 := bn256_fq2 o in
  let c1 := curve_of_bn256_g1 o inj bn256_g1_consts in let c2 := curve_of o2 (inj2 inj) bn256_g2_consts in
  let g2 := gen_aff (inj2 inj) bn256_g2_consts in let e := bn256_pairing o inj in let sk := from_u64 bn256_fr 10 in
  exists h, bn256_g1_hash o inj (lf_odd _) (lf_nonres _) (lf_fu _ Hc) sha256_digest (ascii_bytes "halo2-") (ascii_bytes "abc") = HRet h /\
  (forall s S, arep o c1 s S -> pt_mulz o (ca c1) (modulus bn256_fr) S = None ->
    (e s g2 = e (to_affine o h) (secret_mul o2 c2 bn256_fr (proj_generator o2 g2) sk) <-> s = secret_mul o c1 bn256_fr h sk)).
Proof.
  intros Hc o inj o2 c1 c2 g2 e sk.
  destruct (proj1 (C60_bn256 Hc) _ (proj1 C52_sha256) (proj2 C52_sha256) (ascii_bytes "halo2-") (ascii_bytes "abc")) as (h & E & K).
  { vm_compute. repeat constructor. }
  exists h. split; [exact E|]. refine (proj2 (K sk 10 _)).
  assert (I : In bn256_fr all_fields) by in_fields. exact (C03_from_u64 bn256_fr 10 (field_odd _ I) ltac:(lia)).
Qed.
