(** C64: the cycles of curves and the embedding degrees. *)
From Bignums Require Import BigZ.
From Verif Require Import Base Word Bytes Field SpecField Params FieldFacts BytesFacts Algebra Pow Tower PrimeField Primality
  SpecCurve SpecCurveFacts Group Curve CurveFacts CurveGroup CurveParams CurveCheck CurveCerts CurveInst CrateCurves CurveSum LimbField
  Inverse Serde SerdeFacts OrderFacts SerdeInst SmallOrder Props_Field2 Props_Curve Props_Serde Props_Cofactor.
Local Open Scope Z_scope.

(** [cycle_half c1 crv g c2]: a curve of the crate over the field [c1] (in the limb representation)
    with generator [g] and scalar field [c2]. *)
Inductive cycle_half : forall c1 (H1 : odd_conf c1), cconf (lf c1) -> aff (lf c1) -> fconf -> Prop :=
| ch_bn256 H : cycle_half bn256_fq H (curve_of_bn256_g1 (lf_ops _ H) (lf_inj _ H) bn256_g1_consts) (gen_aff (lf_inj _ H) bn256_g1_consts) bn256_fr
| ch_grumpkin H : cycle_half bn256_fr H (curve_of (lf_ops _ H) (lf_inj _ H) grumpkin_consts) (gen_aff (lf_inj _ H) grumpkin_consts) bn256_fq
| ch_secp256k1 H : cycle_half secp256k1_fp H (curve_of (lf_ops _ H) (lf_inj _ H) secp256k1_consts) (gen_aff (lf_inj _ H) secp256k1_consts) secp256k1_fq
| ch_secq256k1 H : cycle_half secp256k1_fq H (curve_of (lf_ops _ H) (lf_inj _ H) secq256k1_consts) (gen_aff (lf_inj _ H) secq256k1_consts) secp256k1_fp
| ch_pluto H : cycle_half pluto_eris_fp H (curve_of (lf_ops _ H) (lf_inj _ H) pluto_consts) (gen_aff (lf_inj _ H) pluto_consts) pluto_eris_fq
| ch_eris H : cycle_half pluto_eris_fq H (curve_of (lf_ops _ H) (lf_inj _ H) eris_consts) (gen_aff (lf_inj _ H) eris_consts) pluto_eris_fp.
Lemma half_whole c1 H1 crv g c2 : cycle_half c1 H1 crv g c2 ->
  whole_curve (lf_ops c1 H1) crv g c2 /\ In c2 all_fields.
Proof.
  intros [H|H|H|H|H|H]; (split; [|in_fields]);
    [apply wc_bn256_g1|apply wc_grumpkin|apply wc_secp256k1|apply wc_secq256k1|apply wc_pluto|apply wc_eris];
    apply lf_pf; in_fields.
Qed.

Lemma sub_cong a b r : r <> 0 -> (a - b) mod r = 0 -> a mod r = b mod r.
Proof.
  intros R E. replace a with (b + (a - b)) by ring. rewrite Z.add_mod, E, Z.add_0_r, Z.mod_mod by exact R. reflexivity.
Qed.

(** Each of the six curves has a partner: its scalar field is the base field of the partner and
    the other way round, and the two numbers of points are the two moduli. *)
Theorem C64_cycle : forall c1 H1 crv1 g1 c2, cycle_half c1 H1 crv1 g1 c2 ->
  point_count (lf_ops c1 H1) crv1 (modulus c2) /\
  exists H2 crv2 g2, cycle_half c2 H2 crv2 g2 c1 /\ point_count (lf_ops c2 H2) crv2 (modulus c1) /\ modulus c1 <> modulus c2.
Proof.
  intros c1 H1 crv1 g1 c2 X. split; [exact (C48_prime _ _ _ _ _ (proj1 (half_whole _ _ _ _ _ X)))|].
  assert (Y : exists H2 crv2 g2, cycle_half c2 H2 crv2 g2 c1 /\ modulus c1 <> modulus c2).
  { destruct X as [H|H|H|H|H|H].
    - exists (field_odd bn256_fr ltac:(in_fields)). eexists _, _. split; [apply ch_grumpkin|vm_compute; discriminate].
    - exists (field_odd bn256_fq ltac:(in_fields)). eexists _, _. split; [apply ch_bn256|vm_compute; discriminate].
    - exists (field_odd secp256k1_fq ltac:(in_fields)). eexists _, _. split; [apply ch_secq256k1|vm_compute; discriminate].
    - exists (field_odd secp256k1_fp ltac:(in_fields)). eexists _, _. split; [apply ch_secp256k1|vm_compute; discriminate].
    - exists (field_odd pluto_eris_fq ltac:(in_fields)). eexists _, _. split; [apply ch_eris|vm_compute; discriminate].
    - exists (field_odd pluto_eris_fp ltac:(in_fields)). eexists _, _. split; [apply ch_pluto|vm_compute; discriminate]. }
  destruct Y as (H2 & crv2 & g2 & Y & N). exists H2, crv2, g2. split; [exact Y|]. split; [|exact N].
  exact (C48_prime _ _ _ _ _ (proj1 (half_whole _ _ _ _ _ Y))).
Qed.
Print Assumptions C64_cycle.

(** What recursion uses: an element [x] of the base field of the partner, for instance a coordinate of
    a point there, is a scalar here without conversion; multiplying a point by it multiplies by its
    integer value, and every point is [x] times the generator for exactly one such [x]. *)
Theorem C64_transfer : forall c1 H1 crv g c2, cycle_half c1 H1 crv g c2 -> forall H2 : odd_conf c2,
  let o := lf_ops c1 H1 in
  (forall p P (x : lf c2), prep o crv p P -> prep o crv (proj_mul o crv p (to_repr c2 (limbs x))) (pt_mulz o (ca crv) (lf_val c2 x) P)) /\
  (forall P, on_curve o (ca crv) (cb crv) P -> exists! x : lf c2, pt_mulz o (ca crv) (lf_val c2 x) (Some (ax g, ay g)) = P).
Proof.
  intros c1 H1 crv g c2 X H2 o. destruct (half_whole _ _ _ _ _ X) as [Wc I2]. pose proof (whole_crate _ _ _ _ Wc) as Cr.
  pose proof (lf_zrep c2 H2 (field_sized _ I2) (field_prime _ I2)) as Z2. split.
  - intros p P x Hp. exact (C27_mul _ o crv g c2 Cr p P (limbs x) (lf_val c2 x) Hp (lf_repr c2 H2 x)).
  - intros P On. destruct (C33_whole _ o crv g c2 Wc P On) as ((n & En) & _).
    pose proof (crate_curve_facts o crv g c2 Cr) as CF. pose proof (cf_laws _ _ _ _ CF) as HC.
    destruct (C44_generator _ o crv g c2 Cr) as (Gon & _ & Ord).
    assert (Md : forall u v, pt_mulz o (ca crv) u (Some (ax g, ay g)) = pt_mulz o (ca crv) v (Some (ax g, ay g)) <-> (modulus c2 | u - v)).
    { intros u v. set (G := mkpt o crv HC _ Gon). pose proof (cpt_laws o crv HC) as GL.
      assert (Eu : forall k, pt_mulz o (ca crv) k (Some (ax g, ay g)) = proj1_sig (gmul (cpt_ops o crv HC) k G)) by (intros k; symmetry; apply (gmul_pt o crv HC)).
      split.
      - intros E. apply Ord. rewrite Eu. rewrite !Eu in E. apply cpt_ext in E.
        replace (u - v) with (u + - v) by ring. rewrite (gmul_add _ GL), (gmul_opp _ GL), E, (gl_neg _ GL). reflexivity.
      - intros D. apply Ord in D. rewrite Eu in D. rewrite !Eu. f_equal.
        replace u with ((u - v) + v) by ring. rewrite (gmul_add _ GL).
        replace (gmul (cpt_ops o crv HC) (u - v) G) with (g0 (cpt_ops o crv HC)) by (symmetry; apply cpt_ext; exact D). apply (gl_0 _ GL). }
    exists (lf_inj c2 H2 n). split.
    + rewrite En. apply Md. rewrite (zr_val_inj _ _ _ _ Z2). apply Z.mod_divide; [destruct (field_prime c2 I2); lia|].
      rewrite Zminus_mod, Z.mod_mod, Z.sub_diag by (destruct (field_prime c2 I2); lia). reflexivity.
    + intros x E. apply (zr_ext _ _ _ _ Z2). rewrite (zr_val_inj _ _ _ _ Z2). rewrite En in E. apply Md in E.
      pose proof (field_prime c2 I2) as Pr. destruct Pr as [P1 _].
      apply Z.mod_divide in E; [|lia].
      rewrite <- (zr_inj_val _ _ _ _ Z2 x), (zr_val_inj _ _ _ _ Z2). symmetry. apply sub_cong; [lia|exact E].
Qed.
Print Assumptions C64_transfer.

(** * Embedding degrees *)
(** The least number [k] such that the group of points of order [r] needs the extension of degree [k]. *)
Definition embedding_degree (p r k : Z) : Prop := 0 < k /\ (r | p ^ k - 1) /\ forall j, 0 < j < k -> ~ (r | p ^ j - 1).

(** The check, with machine integers. *)
Fixpoint no_one (k : nat) (p r acc : bigZ) : bool :=
  match k with O => true | S k' => negb (acc =? 1)%bigZ && no_one k' p r (acc * p mod r)%bigZ end.
Lemma no_one_spec k p r : 1 < [r]%bigZ -> forall acc i, 0 <= i -> [acc]%bigZ = [p]%bigZ ^ i mod [r]%bigZ -> no_one k p r acc = true ->
  forall j, i <= j < i + Z.of_nat k -> ~ ([r]%bigZ | [p]%bigZ ^ j - 1).
Proof.
  intros R. induction k as [|k IH]; intros acc i Hi Ha Hk j Hj; [lia|].
  cbn [no_one] in Hk. apply andb_prop in Hk as [N Hk].
  destruct (Z.eq_dec i j) as [<-|D].
  - intros V. apply Z.mod_divide in V; [|lia]. apply Bool.negb_true_iff in N. rewrite BigZ.spec_eqb in N. apply Z.eqb_neq in N. apply N.
    rewrite Ha. change [1]%bigZ with 1. rewrite <- (Z.mod_1_l [r]%bigZ) by lia. apply sub_cong; [lia|exact V].
  - apply (IH (acc * p mod r)%bigZ (i + 1)); [lia| |exact Hk|lia].
    rewrite BigZ.spec_modulo, BigZ.spec_mul, Ha, Z.pow_add_r, Z.pow_1_r, Z.mul_mod_idemp_l by lia. reflexivity.
Qed.
Lemma no_one_from_1 k p r : 1 < r -> no_one k (BigZ.of_Z p) (BigZ.of_Z r) (BigZ.of_Z p mod BigZ.of_Z r)%bigZ = true ->
  forall j, 0 < j <= Z.of_nat k -> ~ (r | p ^ j - 1).
Proof.
  intros R E j Hj. pose proof (no_one_spec k (BigZ.of_Z p) (BigZ.of_Z r)) as X. rewrite !BigZ.spec_of_Z in X.
  apply (X R _ 1) with (j := j) in E; [exact E|lia| |lia].
  rewrite BigZ.spec_modulo, !BigZ.spec_of_Z, Z.pow_1_r. reflexivity.
Qed.

Definition degree_12 (p r : Z) : bool :=
  let bp := BigZ.of_Z p in let br := BigZ.of_Z r in
  (1 <? r) && (bp ^ 12 mod br =? 1)%bigZ && no_one 11 bp br (bp mod br)%bigZ.
Lemma degree_12_spec p r : degree_12 p r = true -> embedding_degree p r 12.
Proof.
  intros E. apply andb_prop in E as [E N]. apply andb_prop in E as [R E]. apply Z.ltb_lt in R.
  rewrite BigZ.spec_eqb, BigZ.spec_modulo, BigZ.spec_pow, !BigZ.spec_of_Z in E. apply Z.eqb_eq in E.
  change [12]%bigZ with 12 in E. change [1]%bigZ with 1 in E. split; [lia|]. split.
  - apply Z.mod_divide; [lia|]. rewrite Zminus_mod, E, Z.mod_1_l, Z.sub_diag by lia. apply Z.mod_0_l. lia.
  - intros j Hj. apply (no_one_from_1 11 p r R N). lia.
Qed.
(** The pairings of the three pairing curves take values in the extension of degree twelve, and the groups
    do not embed in a smaller one. *)
Theorem C64_embedding : forall p r, In (p, r) [(bn256_fq, bn256_fr); (bls12381_fq, bls12381_fr); (pluto_eris_fp, pluto_eris_fq)] ->
  embedding_degree (modulus p) (modulus r) 12.
Proof.
  assert (E : forallb (fun pr : fconf * fconf => let p := modulus (fst pr) in let r := modulus (snd pr) in degree_12 p r)
    [(bn256_fq, bn256_fr); (bls12381_fq, bls12381_fr); (pluto_eris_fp, pluto_eris_fq)] = true) by (vm_compute; reflexivity).
  intros p r I. rewrite forallb_forall in E. apply (degree_12_spec _ _ (E (p, r) I)).
Qed.
Print Assumptions C64_embedding.

(** The other curves have no embedding degree up to a hundred, and none of the curves of prime order has as many
    points as its field has elements. *)
Theorem C64_no_small_degree : forall p r, In (p, r) [(bn256_fr, bn256_fq); (secp256k1_fp, secp256k1_fq); (secp256k1_fq, secp256k1_fp);
    (secp256r1_fp, secp256r1_fq); (pluto_eris_fq, pluto_eris_fp)] ->
  modulus p <> modulus r /\ forall k, 0 < k <= 100 -> ~ embedding_degree (modulus p) (modulus r) k.
Proof.
  assert (E : forallb (fun pr : fconf * fconf => let p := modulus (fst pr) in let r := modulus (snd pr) in
      let bp := BigZ.of_Z p in let br := BigZ.of_Z r in
      (1 <? r) && negb (p =? r) && no_one 100 bp br (bp mod br)%bigZ)
    [(bn256_fr, bn256_fq); (secp256k1_fp, secp256k1_fq); (secp256k1_fq, secp256k1_fp);
    (secp256r1_fp, secp256r1_fq); (pluto_eris_fq, pluto_eris_fp)] = true) by (vm_compute; reflexivity).
  intros p r I. rewrite forallb_forall in E. specialize (E (p, r) I). cbv beta zeta in E. cbn [fst snd] in E.
  apply andb_prop in E as [E N]. apply andb_prop in E as [R E]. apply Z.ltb_lt in R. split.
  - apply Bool.negb_true_iff, Z.eqb_neq in E. exact E.
  - intros k Hk (_ & D & _). exact (no_one_from_1 100 _ _ R N k Hk D).
Qed.
Print Assumptions C64_no_small_degree.

(** The definition on small numbers: two has order four modulo five. *)
Example ex_embedding_degree : embedding_degree 2 5 4.
Proof.
  split; [lia|]. split; [exists 3; reflexivity|]. intros j Hj [q E].
  assert (j = 1 \/ j = 2 \/ j = 3) as [-> | [-> | ->]] by lia; cbn in E; lia.
Qed.
(** Grumpkin: the coordinate 1 of the generator of bn256 as a scalar. *)
Example ex_C64_transfer H : exists crv g, cycle_half bn256_fr H crv g bn256_fq /\ point_count (lf_ops bn256_fr H) crv (modulus bn256_fq).
Proof.
  eexists _, _. split; [apply ch_grumpkin|]. exact (proj1 (C64_cycle _ _ _ _ _ (ch_grumpkin H))).
Qed.
