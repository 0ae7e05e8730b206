(** A subgroup of a curve over a field of [q] elements that has odd exponent and more than a
    third of [2 q + 1] elements is the whole group. *)
From Verif Require Import Base Algebra TowerFacts FiniteField Primality Group GroupSum SpecCurve SpecCurveFacts
  Curve CurveFacts CurveGroup OrderFacts CofactorFacts.

Section Whole.
Context {F : Type} (o : fops F) (c : cconf F) (HC : curve_laws o c) (q : Z) (HF : finite_field o q).
Notation G := (cpt o c). Notation g := (cpt_ops o c HC). Notation gm := (gmul g).
Notation on := (on_curve o (ca c) (cb c)).
Let GL := cpt_laws o c HC.
Infix "+" := (gadd g). Notation "- x" := (gneg g x).

Theorem whole_subgrp mem n e : subgrp g mem n e -> Z.odd e = true -> (2 * q + 1 < 3 * n)%Z -> forall P, mem P.
Proof.
  intros S Hodd Hbig P. destruct (sg_list _ _ _ _ S) as (s & Nd & I & L).
  destruct (in_dec (cpt_eq_dec o c HC) P s) as [IP|NP]; [apply I; exact IP|exfalso].
  assert (N1 : ~ mem P) by (intros X; apply NP, I, X).
  assert (N2 : ~ mem (gm 2 P)).
  { intros X. apply N1. rewrite Zodd_mod in Hodd. apply Zeq_bool_eq in Hodd.
    pose proof (Z.div_mod e 2 ltac:(lia)) as D.
    assert (E : P = gm (e / 2 + 1) (gm 2 P)).
    { assert (E0 : P + - gm (e / 2 + 1) (gm 2 P) = g0 g).
      { apply (no_two_torsion o c HC). rewrite (gmul_gadd _ GL), (gmul_gneg _ GL), <- (gmul_mul _ GL).
        rewrite <- (gmul_1 _ GL (gm 2 P)) at 1. rewrite <- (gmul_sub _ GL).
        replace (1 - 2 * (e / 2 + 1))%Z with (- e)%Z by lia.
        rewrite (gmul_opp _ GL), (sg_exp _ _ _ _ S _ X). apply (g_neg_0 _ GL). }
      apply (g_cancel_r _ GL (- gm (e / 2 + 1) (gm 2 P))). rewrite E0. symmetry. apply (gl_neg _ GL). }
    rewrite E. apply (sg_mul g GL _ _ _ _ _ S). exact X. }
  set (dom := list_prod [0%Z; 1%Z; (-1)%Z] s).
  set (f := fun ei : Z * G => gm (fst ei) P + snd ei).
  assert (Inj : forall u v, In u dom -> In v dom -> f u = f v -> u = v).
  { intros [k x] [k' x'] Hu Hv E. apply in_prod_iff in Hu, Hv. destruct Hu as [Hk Hx], Hv as [Hk' Hx'].
    apply I in Hx, Hx'. unfold f in E. cbn [fst snd] in E.
    assert (D : gm (k - k') P = x' + - x).
    { rewrite (gmul_sub _ GL). apply (g_cancel_r _ GL (gm k' P + x)).
      rewrite (gl_assoc _ GL (gm k P)), <- (gl_assoc _ GL (- gm k' P)), (g_neg_l _ GL), (gl_0 _ GL), E.
      rewrite (gl_comm _ GL (gm k' P) x), (gl_assoc _ GL x'), <- (gl_assoc _ GL (- x)), (g_neg_l _ GL), (gl_0 _ GL).
      apply (gl_comm _ GL). }
    assert (M : mem (gm (k - k') P)).
    { rewrite D. apply (sg_add _ _ _ _ S); [exact Hx'|]. apply (sg_neg _ _ _ _ S). exact Hx. }
    assert (Mn : mem (gm (- (k - k')) P)) by (rewrite (gmul_opp _ GL); apply (sg_neg _ _ _ _ S); exact M).
    assert (Cases : (k - k' = 0 \/ k - k' = 1 \/ k - k' = -1 \/ k - k' = 2 \/ k - k' = -2)%Z).
    { cbn [In] in Hk, Hk'. lia. }
    destruct Cases as [C|[C|[C|[C|C]]]]; rewrite C in M, Mn, D.
    - rewrite (gmul_0 g) in D. f_equal; [lia|]. symmetry.
      apply (g_cancel_r _ GL (- x)). rewrite <- D. symmetry. apply (gl_neg _ GL).
    - exfalso. rewrite (gmul_1 _ GL) in M. exact (N1 M).
    - exfalso. change (- -1)%Z with 1%Z in Mn. rewrite (gmul_1 _ GL) in Mn. exact (N1 Mn).
    - exfalso. exact (N2 M).
    - exfalso. exact (N2 Mn). }
  assert (Ndf : NoDup (map (fun u => proj1_sig (f u)) dom)).
  { apply NoDup_map_in.
    - apply NoDup_list_prod; [|exact Nd]. repeat constructor; cbn [In]; lia.
    - intros u v Hu Hv E. apply Inj; auto. apply cpt_ext. exact E. }
  assert (On : Forall on (map (fun u => proj1_sig (f u)) dom)).
  { apply Forall_forall. intros Q HQ. apply in_map_iff in HQ. destruct HQ as (u & <- & _). apply (cpt_on o c HC). }
  pose proof (points_bound o c HC q HF _ Ndf On) as Bd. rewrite map_length in Bd. unfold dom in Bd.
  rewrite prod_length in Bd. cbn [length] in Bd. lia.
Qed.

(** ** The number of points *)
Definition point_count (n : Z) : Prop :=
  exists l : list (point (F := F)), NoDup l /\ (forall P, In P l <-> on P) /\ Z.of_nat (length l) = n.
Lemma whole_count mem n e : subgrp g mem n e -> (forall P, mem P) -> point_count n.
Proof.
  intros S W. destruct (sg_list _ _ _ _ S) as (s & Nd & I & L).
  exists (map (@proj1_sig _ _) s). split; [|split].
  - apply NoDup_map_in; [exact Nd|]. intros u v _ _ E. apply cpt_ext. exact E.
  - intros P. rewrite in_map_iff. split.
    + intros (u & <- & _). apply (cpt_on o c HC).
    + intros O. exists (mkpt o c HC P O). split; [reflexivity|]. apply I. apply W.
  - rewrite map_length. exact L.
Qed.

(** ** Planes made from an endomorphism *)
Context (h : G -> G) (h_add : forall P Q, h (P + Q) = h P + h Q).
Lemma hmul k P : h (gm k P) = gm k (h P).
Proof. exact (h_mul g GL h h_add k P). Qed.

(** [T] and [h T] are independent when [h^2 + h + 1 = 0] and [l = 2 mod 3] *)
Lemma indep2_omega l T : prime l -> (l mod 3 = 2)%Z -> (2 < l)%Z -> (forall P, P + h P = - h (h P)) -> T <> g0 g -> gm l T = g0 g ->
  indep2 g l T (h T).
Proof.
  intros Hl M3 H2 Rel N E. apply (indep2_prime g GL); try assumption.
  { rewrite <- hmul, E. apply (h_0 g GL h h_add). }
  intros k Ek. pose proof (Rel T) as R. rewrite Ek, hmul, Ek, <- (gmul_mul _ GL) in R.
  assert (Z0 : gm (k * k + k + 1) T = g0 g).
  { rewrite !(gmul_add _ GL), (gmul_1 _ GL), (gl_assoc _ GL), (gl_comm _ GL (gm k T) T), R. apply (gl_neg _ GL). }
  pose proof (indep1_prime g GL l T Hl N E) as [_ I]. apply I in Z0.
  assert (K3 : (l | k * k * k - 1)%Z).
  { replace (k * k * k - 1)%Z with ((k - 1) * (k * k + k + 1))%Z by ring. apply Z.divide_mul_r. exact Z0. }
  assert (Nk : ~ (l | k)%Z).
  { intros D. assert (D1 : (l | 1)%Z).
    { replace 1%Z with ((k * k + k + 1) - (k + 1) * k)%Z by ring. apply Z.divide_sub_r; [exact Z0|]. apply Z.divide_mul_r. exact D. }
    apply Z.divide_1_r_nonneg in D1; lia. }
  (* k^(l-1) = 1 and l - 1 = 3 m + 1, so k = 1 *)
  assert (Fm : (k ^ (l - 1) mod l = 1)%Z).
  { destruct (congr1_fermat l k Hl Nk) as [w Ew]. replace (k ^ (l - 1))%Z with (1 + w * l)%Z by lia.
    rewrite Z_mod_plus_full. apply Z.mod_small. lia. }
  pose proof (Z.div_mod l 3 ltac:(lia)) as D3. set (m := (l / 3)%Z) in *.
  assert (Hm0 : (0 <= m)%Z) by (apply Z.div_pos; lia).
  assert (K1 : (l | k - 1)%Z).
  { assert (Pm : ((k * k * k) ^ m mod l = 1)%Z).
    { assert (X : ((k * k * k) mod l = 1)%Z).
      { destruct K3 as [w Ew]. replace (k * k * k)%Z with (1 + w * l)%Z by lia. rewrite Z_mod_plus_full. apply Z.mod_small. lia. }
      rewrite Zpower_mod, X by lia. rewrite Z.pow_1_l by lia. apply Z.mod_small. lia. }
    assert (Ex : (k ^ (l - 1) = (k * k * k) ^ m * k)%Z).
    { replace (k * k * k)%Z with (k ^ 3)%Z by ring. rewrite <- Z.pow_mul_r by lia.
      replace (l - 1)%Z with (3 * m + 1)%Z by lia. rewrite Z.pow_add_r by lia. rewrite Z.pow_1_r. reflexivity. }
    rewrite Ex, <- Zmult_mod_idemp_l, Pm, Z.mul_1_l in Fm.
    exists (k / l)%Z. pose proof (Z.div_mod k l ltac:(lia)). lia. }
  assert (D3' : (l | 3)%Z).
  { replace 3%Z with ((k * k + k + 1) - (k + 2) * (k - 1))%Z by ring. apply Z.divide_sub_r; [exact Z0|]. apply Z.divide_mul_r. exact K1. }
  assert (L3 : (l <= 3)%Z) by (apply Z.divide_pos_le; [lia|exact D3']).
  assert (l = 3)%Z by lia. subst l. discriminate.
Qed.

(** The same for [h^4 - h^2 + 1 = 0] and a small [l] without a root of that polynomial. *)
Definition no_root12 (l : Z) : bool :=
  forallb (fun i => let k := Z.of_nat i in negb ((k * k * k * k - k * k + 1) mod l =? 0)%Z) (seq O (Z.to_nat l)).
Lemma indep2_zeta12 l T : prime l -> no_root12 l = true -> (forall P, h (h (h (h P))) + P = h (h P)) -> T <> g0 g -> gm l T = g0 g ->
  indep2 g l T (h T).
Proof.
  intros Hl C Rel N E. pose proof (prime_ge_2 l Hl) as L2. apply (indep2_prime g GL); try assumption.
  { rewrite <- hmul, E. apply (h_0 g GL h h_add). }
  intros k0 Ek. unfold no_root12 in C. rewrite forallb_forall in C. specialize (C (Z.to_nat (k0 mod l)) (zseq_in l k0 ltac:(lia))).
  pose proof (Z.mod_pos_bound k0 l ltac:(lia)) as B. cbv zeta in C. rewrite Z2Nat.id in C by lia. set (k := (k0 mod l)%Z) in *.
  rewrite <- (gmul_mod _ GL l k0 T E) in Ek. fold k in Ek.
  pose proof (Rel T) as R. repeat rewrite ?Ek, ?hmul in R. rewrite <- !(gmul_mul _ GL) in R.
  assert (Z0 : gm (k * k * k * k + 1 - k * k) T = g0 g).
  { rewrite (gmul_sub _ GL), (gmul_add _ GL), (gmul_1 _ GL). replace (k * k * k * k)%Z with (k * (k * (k * k)))%Z by ring.
    rewrite ?Z.mul_assoc in *. rewrite R. apply (gl_neg _ GL). }
  apply (indep1_prime g GL l T Hl N E) in Z0. apply negb_true_iff, Z.eqb_neq in C. apply C.
  apply Z.mod_divide; [lia|]. replace (k * k * k * k - k * k + 1)%Z with (k * k * k * k + 1 - k * k)%Z by ring. exact Z0.
Qed.
End Whole.
