(** Property theorem C49: the pairings of bn256, bls12-381 and pluto are bilinear. *)
From Verif Require Import Base Algebra Pow Tower TowerFacts FiniteField PrimeField Primality Certs Field Params TowerParams TowerInst
  SpecCurve SpecCurveFacts Curve CurveFacts CurveGroup CurveParams CurveCheck CurveCerts CurveInst CrateCurves Compute
  PairingParams SpecPairing Pairing PairingFacts PairingInst PairingLines TwistFrob PairingMiller SerdeInst SmallOrder CofPoints CofCerts CofBls2
  Bilinear BilinearTower Props_Curve Props_Pairing Props_Miller Props_Cofactor.
From Bignums Require Import BigZ.
Local Open Scope Z_scope.

(** [e] is a bilinear map from E(Fp) and the points of order r of the twist to the r-th
    roots of unity of Fp12.  It takes affine coordinates ([arep]: coordinates of a
    point of the curve, the identity as (0,0)); [None]: panic. *)
Definition bilinear {F E} (o : fops F) (c1 : cconf F) (o2 : fops (quad F)) (c2 : cconf (quad F)) (o12 : fops E) (r : Z)
    (e : aff F -> aff (quad F) -> option E) : Prop :=
  (forall A B P Q, arep o c1 A P -> arep o2 c2 B Q -> pt_mulz o2 (ca c2) r Q = None ->
     exists x, e A B = Some x /\ fpowz o12 x r = f1 o12)
  /\ (forall A A' A'' B P P' Q x x', arep o c1 A P -> arep o c1 A' P' -> arep o c1 A'' (pt_add o (ca c1) P P') ->
     arep o2 c2 B Q -> pt_mulz o2 (ca c2) r Q = None ->
     e A B = Some x -> e A' B = Some x' -> e A'' B = Some (fmul o12 x x'))
  /\ (forall A B B' B'' P Q Q' x x', arep o c1 A P -> arep o2 c2 B Q -> arep o2 c2 B' Q' ->
     arep o2 c2 B'' (pt_add o2 (ca c2) Q Q') -> pt_mulz o2 (ca c2) r Q = None -> pt_mulz o2 (ca c2) r Q' = None ->
     e A B = Some x -> e A B' = Some x' -> e A B'' = Some (fmul o12 x x'))
  /\ (forall A A' B B' P Q m n x, arep o c1 A P -> arep o c1 A' (pt_mulz o (ca c1) m P) ->
     arep o2 c2 B Q -> arep o2 c2 B' (pt_mulz o2 (ca c2) n Q) -> pt_mulz o2 (ca c2) r Q = None ->
     e A B = Some x -> e A' B' = Some (fpowz o12 x ((m * n) mod r))).

Section Gen.
Context {F E : Type} (o : fops F) (c1 : cconf F) (HC1 : curve_laws o c1) (o2 : fops (quad F)) (c2 : cconf (quad F)) (HC2 : curve_laws o2 c2).
Context (o12 : fops E) (H12 : field_laws o12) (r : Z) (Hr : 0 < r).
Context (e : aff F -> aff (quad F) -> option E) (S : point (F := F) -> point (F := quad F) -> E).
Notation on1 := (on_curve o (ca c1) (cb c1)). Notation on2 := (on_curve o2 (ca c2) (cb c2)).
Notation m1 := (pt_mulz o (ca c1)). Notation m2 := (pt_mulz o2 (ca c2)).
Let HR := fl_rl _ H12.
Add Ring RGen : (rl_ring _ HR).
Hypothesis Sval : forall A B P Q, arep o c1 A P -> arep o2 c2 B Q -> m2 r Q = None -> e A B = Some (S P Q).
Hypothesis Sr : forall P Q, on1 P -> on2 Q -> m2 r Q = None -> fpowz o12 (S P Q) r = f1 o12.
Hypothesis S1 : forall P P' Q, on1 P -> on1 P' -> on2 Q -> m2 r Q = None ->
  S (pt_add o (ca c1) P P') Q = fmul o12 (S P Q) (S P' Q).
Hypothesis S2 : forall P Q Q', on1 P -> on2 Q -> on2 Q' -> m2 r Q = None -> m2 r Q' = None ->
  S P (pt_add o2 (ca c2) Q Q') = fmul o12 (S P Q) (S P Q').
(** A homomorphism from the integers whose value at 1 has order r. *)
Lemma hom_mod (h : Z -> E) : (forall m n, h (m + n) = fmul o12 (h m) (h n)) -> fpowz o12 (h 1) r = f1 o12 ->
  forall m, h m = fpowz o12 (h 1) (m mod r).
Proof.
  intros Hh H1 m.
  assert (N1 : h 1 <> f0 o12).
  { intros Z0. rewrite Z0, (fpowz_zero o12 HR) in H1 by exact Hr. exact (fl_1_0 _ H12 (eq_sym H1)). }
  assert (H0 : h 0 = f1 o12).
  { apply (mul_cancel_l o12 H12 (h 1) _ _ N1). rewrite <- Hh. change (1 + 0) with 1. ring. }
  assert (Pos : forall n, 0 <= n -> h n = fpowz o12 (h 1) n).
  { intros n Hn. pattern n. apply natlike_ind; [|clear n Hn; intros n Hn IH|exact Hn].
    - rewrite H0. reflexivity.
    - rewrite <- Z.add_1_r, Hh, IH, (fpowz_succ o12 HR) by exact Hn. ring. }
  assert (Rk : forall n, 0 <= n -> h (r * n) = f1 o12).
  { intros n Hn. rewrite Pos, (fpowz_mul o12 HR), H1 by (try apply Z.mul_nonneg_nonneg; lia). apply (fpowz_one o12 HR). }
  assert (Rm : forall n, h (r * n) = f1 o12).
  { intros n. destruct (Z_le_gt_dec 0 n) as [Hn|Hn]; [apply Rk; exact Hn|].
    pose proof (Hh (r * n) (r * (- n))) as X. rewrite (Rk (- n)) in X by lia.
    replace (r * n + r * - n) with 0 in X by ring. rewrite H0 in X. rewrite X. ring. }
  rewrite (Z.div_mod m r) at 1 by lia. rewrite Hh, Rm, Pos by (apply Z.mod_pos_bound; exact Hr). ring.
Qed.
Lemma kill_mul n Q : on2 Q -> m2 r Q = None -> m2 r (m2 n Q) = None.
Proof. intros O E0. rewrite <- (mulz_mul o2 c2 HC2), Z.mul_comm, (mulz_mul o2 c2 HC2), E0 by exact O. apply pt_mulz_none. Qed.
Lemma kill_add Q Q' : on2 Q -> on2 Q' -> m2 r Q = None -> m2 r Q' = None -> m2 r (pt_add o2 (ca c2) Q Q') = None.
Proof. intros O O' E0 E1. rewrite (mulz_pt_add o2 c2 HC2) by assumption. rewrite E0, E1. reflexivity. Qed.
Lemma S_mul P Q m n : on1 P -> on2 Q -> m2 r Q = None -> S (m1 m P) (m2 n Q) = fpowz o12 (S P Q) ((m * n) mod r).
Proof.
  intros O O2 E0. pose proof (mulz_on o2 c2 HC2) as M2. pose proof (mulz_on o c1 HC1) as M1.
  rewrite <- (mulz_1 o c1 HC1 P O) at 2. rewrite <- (mulz_1 o2 c2 HC2 Q O2) at 2.
  rewrite (hom_mod (fun k => S (m1 k P) (m2 n Q))).
  - cbv beta. rewrite (hom_mod (fun k => S (m1 1 P) (m2 k Q))).
    + cbv beta. pose proof (Z.mod_pos_bound m r Hr). pose proof (Z.mod_pos_bound n r Hr).
      rewrite <- (fpowz_mul o12 HR) by lia. 
      set (s := S (m1 1 P) (m2 1 Q)). assert (Es : fpowz o12 s r = f1 o12) by (apply Sr; auto using kill_mul).
      assert (X : forall k, 0 <= k -> fpowz o12 s k = fpowz o12 s (k mod r)).
      { intros k hk. rewrite (Z.div_mod k r) at 1 by lia. pose proof (Z.mod_pos_bound k r Hr). pose proof (Z.div_pos k r hk Hr).
        rewrite (fpowz_add o12 HR), (fpowz_mul o12 HR), Es, (fpowz_one o12 HR) by (try apply Z.mul_nonneg_nonneg; lia). ring. }
      rewrite X by (apply Z.mul_nonneg_nonneg; lia). f_equal. rewrite Z.mul_comm. symmetry. apply Z.mul_mod. lia.
    + intros k k'. rewrite (mulz_add o2 c2 HC2) by exact O2. apply S2; auto using kill_mul.
    + apply Sr; auto using kill_mul.
  - intros k k'. rewrite (mulz_add o c1 HC1) by exact O. apply S1; auto using kill_mul.
  - apply Sr; auto using kill_mul.
Qed.
Theorem bilinear_of : bilinear o c1 o2 c2 o12 r e.
Proof.
  assert (Inj : forall A B P Q x, arep o c1 A P -> arep o2 c2 B Q -> m2 r Q = None -> e A B = Some x -> x = S P Q).
  { intros A B P Q x hA hB E0 Ex. rewrite (Sval A B P Q hA hB E0) in Ex. apply some_inj in Ex. symmetry. exact Ex. }
  split; [|split; [|split]].
  - intros A B P Q hA hB E0. exists (S P Q). split; [exact (Sval A B P Q hA hB E0)|]. apply Sr; [exact (proj1 hA)|exact (proj1 hB)|exact E0].
  - intros A A' A'' B P P' Q x x' hA hA' hA'' hB E0 Ex Ex'.
    rewrite (Inj _ _ _ _ _ hA hB E0 Ex), (Inj _ _ _ _ _ hA' hB E0 Ex'), (Sval _ _ _ _ hA'' hB E0). f_equal.
    apply S1; [exact (proj1 hA)|exact (proj1 hA')|exact (proj1 hB)|exact E0].
  - intros A B B' B'' P Q Q' x x' hA hB hB' hB'' E0 E0' Ex Ex'.
    rewrite (Inj _ _ _ _ _ hA hB E0 Ex), (Inj _ _ _ _ _ hA hB' E0' Ex').
    rewrite (Sval _ _ _ _ hA hB'' (kill_add _ _ (proj1 hB) (proj1 hB') E0 E0')). f_equal.
    apply S2; [exact (proj1 hA)|exact (proj1 hB)|exact (proj1 hB')|exact E0|exact E0'].
  - intros A A' B B' P Q m n x hA hA' hB hB' E0 Ex.
    rewrite (Inj _ _ _ _ _ hA hB E0 Ex), (Sval _ _ _ _ hA' hB' (kill_mul n Q (proj1 hB) E0)). f_equal.
    apply S_mul; [exact (proj1 hA)|exact (proj1 hB)|exact E0].
Qed.
End Gen.

(** ** The three pairings *)
Section Engine.
Context (t : tower_conf) {F : Type} (o : fops F) (inj : Z -> F) (o2 : fops (quad F)) (mnr2 : quad F -> quad F).
Notation p := (modulus (t_field t)). Notation o12 := (fq12_ops o2 mnr2).
Context (T : tower_facts t o inj o2 mnr2).
Context (sc : fconf) (c : Z) (cj : quad (cubic (quad F)) -> quad (cubic (quad F))).
Context (ml : list (aff F * aff (quad F)) -> quad (cubic (quad F))).
Context (fe : quad (cubic (quad F)) -> option (quad (cubic (quad F)))).
Context (pr : aff F -> aff (quad F) -> option (quad (cubic (quad F)))).
Context (HE : crate_engine o inj p sc c o2 o12 cj ml fe pr).
Context (c1 : cconf F) (HC1 : curve_laws o c1) (c2 : cconf (quad F)) (HC2 : curve_laws o2 c2).
Context (gen : point (F := quad F)) (Og : on_curve o2 (ca c2) (cb c2) gen).
Notation r := (modulus sc). Notation m2 := (pt_mulz o2 (ca c2)).
Hypothesis Kill : forall Q, on_curve o2 (ca c2) (cb c2) Q -> m2 r Q = None -> exists n, Q = m2 n gen.
Context (S : point (F := F) -> point (F := quad F) -> quad (cubic (quad F))) (j : Z).
Notation on1 := (on_curve o (ca c1) (cb c1)).
Hypothesis Sn1 : forall Q, S None Q = f1 o12.
Hypothesis Sn2 : forall P, on1 P -> S P None = f1 o12.
Hypothesis Sr : forall P n, on1 P -> fpowz o12 (S P (m2 n gen)) r = f1 o12.
Hypothesis S1 : forall P P' n, on1 P -> on1 P' -> S (pt_add o (ca c1) P P') (m2 n gen) = fmul o12 (S P (m2 n gen)) (S P' (m2 n gen)).
Hypothesis S2 : forall P n m, on1 P -> S P (m2 (n + m) gen) = fmul o12 (S P (m2 n gen)) (S P (m2 m gen)).
Hypothesis Hj : 0 <= j.
Hypothesis Sval : forall A B, on1 (Some (ax A, ay A)) -> on_curve o2 (ca c2) (cb c2) (Some (ax B, ay B)) -> m2 r (Some (ax B, ay B)) = None ->
  pr A B = Some (fpowz o12 (S (Some (ax A, ay A)) (Some (ax B, ay B))) j).
Let EF := crate_engine_facts _ _ _ _ _ _ _ _ _ _ _ HE.
Let H12 := tf_12 _ _ _ _ _ T.
Let HR := fl_rl _ H12.
Lemma engine_bilinear : bilinear o c1 o2 c2 o12 r pr.
Proof.
  pose proof (prime_ge_2 _ (en_r _ _ _ _ _ _ _ _ _ _ EF)) as Hr.
  assert (Dead : forall A B, aff_is_identity o A = true \/ aff_is_identity o2 B = true -> pr A B = Some (f1 o12)).
  { intros A B D. rewrite (en_pairing _ _ _ _ _ _ _ _ _ _ EF).
    rewrite (proj1 (proj2 (C39 _ _ _ _ _ _ _ _ _ _ _ _ HE)) A B D). exact (fe_one _ _ _ _ _ _ _ _ _ _ _ HE). }
  refine (bilinear_of o c1 HC1 o2 c2 HC2 o12 H12 r _ pr (fun P Q => fpowz o12 (S P Q) j) _ _ _ _).
  - lia.
  - intros A B P Q hA hB E0.
    pose proof (aff_is_identity_repr o c1 HC1 A P hA) as IA. pose proof (aff_is_identity_repr o2 c2 HC2 B Q hB) as IB.
    destruct P as [[x y]|]; [destruct Q as [[x' y']|]|].
    + destruct hA as (OA & <- & <-). destruct hB as (OB & <- & <-). exact (Sval A B OA OB E0).
    + rewrite (Dead A B (or_intror IB)), (Sn2 _ (proj1 hA)), (fpowz_one o12 HR). reflexivity.
    + rewrite (Dead A B (or_introl IA)), Sn1, (fpowz_one o12 HR). reflexivity.
  - intros P Q O O' E0. destruct (Kill Q O' E0) as (n & ->). rewrite <- (fpowz_mul o12 HR), Z.mul_comm, (fpowz_mul o12 HR), Sr by (exact O || lia).
    apply (fpowz_one o12 HR).
  - intros P P' Q O O' OQ E0. destruct (Kill Q OQ E0) as (n & ->). cbv beta. rewrite S1 by assumption. apply (fpowz_mul_base o12 HR).
  - intros P Q Q' O OQ OQ' E0 E0'. destruct (Kill Q OQ E0) as (n & ->). destruct (Kill Q' OQ' E0') as (m & ->). cbv beta.
    rewrite <- (mulz_add o2 c2 HC2) by exact Og. rewrite S2 by assumption. apply (fpowz_mul_base o12 HR).
Qed.
End Engine.
Section Exponent.
Context (t : tower_conf) {F : Type} (o : fops F) (inj : Z -> F) (o2 : fops (quad F)) (mnr2 : quad F -> quad F).
Notation p := (modulus (t_field t)). Notation o12 := (fq12_ops o2 mnr2).
Context (sc : fconf) (c : Z) (cj : quad (cubic (quad F)) -> quad (cubic (quad F))).
Context (ml : list (aff F * aff (quad F)) -> quad (cubic (quad F))).
Context (fe : quad (cubic (quad F)) -> option (quad (cubic (quad F)))).
Context (pr : aff F -> aff (quad F) -> option (quad (cubic (quad F)))).
Context (HE : crate_engine o inj p sc c o2 o12 cj ml fe pr).
Notation r := (modulus sc).
(** The final exponent is positive and gives elements of order r. *)
Lemma chi_r_engine : let k := c * ((p ^ 4 - p ^ 2 + 1) / r) in 0 < k /\ easy t * k = c * ((p ^ 12 - 1) / r)
  /\ forall x, x <> f0 o12 -> fpowz o12 (chi o12 (easy t * k) x) r = f1 o12.
Proof.
  intros k. pose proof (crate_engine_facts _ _ _ _ _ _ _ _ _ _ _ HE) as EF. pose proof (fexp_e_val _ _ _ _ _ _ _ _ _ _ _ HE) as (Ev & _). pose proof (en_c _ _ _ _ _ _ _ _ _ _ EF) as Hc.
  pose proof (en_p _ _ _ _ _ _ _ _ _ _ EF) as Hp. pose proof (en_rPhi _ _ _ _ _ _ _ _ _ _ EF) as Hphi.
  split; [|split].
  - apply Z.mul_pos_pos; [lia|].
    assert (P0 : 0 < p ^ 4 - p ^ 2 + 1). { change 4 with (2 + 2). rewrite Z.pow_add_r by lia. assert (0 < p ^ 2) by (apply Z.pow_pos_nonneg; lia). nia. }
    destruct Hphi as (q & Eq). rewrite Eq in *. rewrite Z.div_mul by lia. nia.
  - exact Ev.
  - intros x Nx. apply (fe_order _ _ _ _ _ _ _ _ _ _ _ HE x). exact (fe_some _ _ _ _ _ _ _ _ _ _ _ HE x Nx).
Qed.
End Exponent.

Lemma quad_emb_hom {F} (o : fops F) mnr sq beta (HR : ring_laws o) (Hm : forall x, mnr x = fmul o beta x)
  (Hsq : forall a, sq a = quad_mul o mnr a a) : fhom o (quad_ops o mnr sq) (fun x => mk_quad x (f0 o)).
Proof.
  pose proof (rl_ring _ HR) as R.
  assert (Z0 : forall x, fmul o x (f0 o) = f0 o) by (intros x; rewrite (Rmul_comm R); apply mul_zero_l; exact HR).
  assert (Z1 : forall x, fmul o (f0 o) x = f0 o) by (intros x; apply mul_zero_l; exact HR).
  assert (A0 : forall x, fadd o x (f0 o) = x) by (intros x; rewrite (Radd_comm R); apply (Radd_0_l R)).
  assert (N0 : fneg o (f0 o) = f0 o) by (rewrite <- (Radd_0_l R (fneg o (f0 o))); apply (Ropp_def R)).
  constructor; intros; unfold quad_ops; cbn [f0 f1 fadd fsub fmul fneg fsqr fdbl];
    rewrite ?Hsq, ?(quad_mul_school o mnr beta HR Hm); unfold quad_zero, quad_one, quad_add, quad_sub, quad_neg, quad_double;
    cbn [q0 q1]; rewrite ?(rl_dbl _ HR), ?(rl_sqr _ HR), ?Z0, ?Z1, ?(Rsub_def R), ?N0, ?A0; reflexivity.
Qed.
Lemma gcd_pow l p : prime l -> 0 <= p -> ((p mod l) ^ 12 - 1) mod l <> 0 -> Z.gcd l (p ^ 12 - 1) = 1.
Proof.
  intros Pl Hp N. apply Zgcd_1_rel_prime. apply (prime_rel_prime l Pl). intros D. apply N.
  assert (Hl : l <> 0) by (pose proof (prime_ge_2 _ Pl); lia).
  apply Z.mod_divide in D; [|exact Hl]. rewrite <- Zminus_mod_idemp_l in D |- *.
  rewrite <- Zpower_mod by (pose proof (prime_ge_2 _ Pl); lia). exact D.
Qed.
(** The loop ends in a multiple of the Frobenius map; the auxiliary order. *)
Definition loop_chk (t : tower_conf) (r : Z) (ds : list Z) (us : list (list bool)) (w : list bool) (l : Z) : bool :=
  let p := modulus (t_field t) in
  forallb (fun d => (d =? 1) || (d =? 0) || (d =? -1)) ds && ((end_mult t ds us - zact t w) mod r =? 0)
  && ((tail_exp r p us (dig_exp ds 1) - cact r p w) mod r =? 0)
  && (14 <? l) && negb (l =? r) && (3 <? r) && negb (((p mod l) ^ 12 - 1) mod l =? 0).
Lemma loop_chk_ok t r ds us w l : loop_chk t r ds us w l = true ->
  let p := modulus (t_field t) in
  forallb (fun d => (d =? 1) || (d =? 0) || (d =? -1)) ds = true /\ (end_mult t ds us - zact t w) mod r = 0
  /\ (tail_exp r p us (dig_exp ds 1) - cact r p w) mod r = 0
  /\ 14 < l /\ l <> r /\ 3 < r /\ ((p mod l) ^ 12 - 1) mod l <> 0.
Proof.
  unfold loop_chk. cbv zeta. intros E. apply andb_prop in E as (E & E7). apply andb_prop in E as (E & E6). apply andb_prop in E as (E & E5).
  apply andb_prop in E as (E & E4). apply andb_prop in E as (E & E3). apply andb_prop in E as (E1 & E2).
  apply Z.eqb_eq in E2, E3. apply negb_true_iff, Z.eqb_neq in E5, E7. apply Z.ltb_lt in E4, E6.
  repeat (split; [assumption|]). exact E7.
Qed.
Definition bn256_us : list (list bool) := [[true]; [false; true; true]].
Definition pluto_us : list (list bool) := [[false; true]; [true; true]].
Lemma bn256_end : loop_chk bn256_tower (modulus bn256_fr) (skipn 1 (rev six_u_plus_2_naf)) bn256_us [false; true; true; true] 10069 = true.
Proof. vm_compute. reflexivity. Qed.
Lemma pluto_end : loop_chk pluto_tower (modulus pluto_eris_fq) (skipn 1 (rev neg_six_u_plus_2_naf)) pluto_us [true; true; true] 143653 = true.
Proof. vm_compute. reflexivity. Qed.
Lemma bls_end : loop_chk bls12381_tower (modulus bls12381_fr) (skipn 1 bls_x) [] [false; true] 2713 = true.
Proof. vm_compute. reflexivity. Qed.
Lemma aux_pts : quad_pt_chk bn256_tower bn256_g2_consts (fst bn256_g2_pt10069) (snd bn256_g2_pt10069) 10069 = true
  /\ quad_pt_chk bls12381_tower bls_g2_consts (fst g2_t2713) (snd g2_t2713) 2713 = true
  /\ quad_pt_chk pluto_tower triton_consts (fst tr_t143653) (snd tr_t143653) 143653 = true.
Proof. vm_compute. repeat split. Qed.
Lemma aux_primes : prime 10069 /\ prime 2713 /\ prime 143653.
Proof. split; [|split]; apply cof_prime; vm_compute; reflexivity. Qed.
Lemma bls_psi_ok : psi_check bls12381_tower bls_g2_consts bls_u (modulus bls12381_fq mod modulus bls12381_fr) = true.
Proof. vm_compute. reflexivity. Qed.
Definition inv_chk (t : tower_conf) (u v : Z * Z) : bool :=
  let ob := bz_ops (BigZ.of_Z (modulus (t_field t))) in
  let bmnr := fun x => fmul ob (BigZ.of_Z (t_beta t)) x in
  let o2b := quad_ops ob bmnr (quad_square ob bmnr) in
  feqb o2b (fmul o2b (b2 u) (b2 v)) (f1 o2b).
Lemma inv_chk_ok t u v {F} (o : fops F) inj (HP : prime_field (modulus (t_field t)) o inj) mnr sq
  (Hm : forall x, mnr x = fmul o (inj (t_beta t)) x) (Hsq : forall a, sq a = quad_mul o mnr a a) :
  inv_chk t u v = true -> fmul (quad_ops o mnr sq) (inj2 inj u) (inj2 inj v) = f1 (quad_ops o mnr sq).
Proof.
  unfold inv_chk. cbv zeta. intros E. apply (phi2_eqb t inj) in E.
  pose proof (phi2_hom t o inj HP mnr sq Hm Hsq) as Hf. rewrite (fh_mul _ _ _ Hf), (fh_1 _ _ _ Hf), !(phi2_b2 inj) in E. exact E.
Qed.
Lemma bls_u_inv : inv_chk bls12381_tower bls_u (nth 1 bls12381_c12 (0, 0)) = true.
Proof. vm_compute. reflexivity. Qed.

Section All.
Context (t : tower_conf) {F : Type} (o : fops F) (inj : Z -> F) (o2 : fops (quad F)) (mnr2 : quad F -> quad F).
Notation p := (modulus (t_field t)). Notation o12 := (fq12_ops o2 mnr2).
Context (HP : prime_field p o inj) (T : tower_facts t o inj o2 mnr2).
Context (sc : fconf) (c : Z) (cj : quad (cubic (quad F)) -> quad (cubic (quad F))).
Context (ml : list (aff F * aff (quad F)) -> quad (cubic (quad F))).
Context (fe : quad (cubic (quad F)) -> option (quad (cubic (quad F)))).
Context (pr : aff F -> aff (quad F) -> option (quad (cubic (quad F)))).
Context (HE : crate_engine o inj p sc c o2 o12 cj ml fe pr).
Notation r := (modulus sc).
Hypothesis Hcjh : fhom o2 o2 (quad_conjugate o).
Hypothesis Hinvol : forall x, quad_conjugate o (quad_conjugate o x) = x.
Hypothesis Hq1 : fhom o o2 (fun x => mk_quad x (f0 o)).
Context (c1 : cconf F) (HC1 : curve_laws o c1) (Ha1 : ca c1 = f0 o).
Context (c2 : cconf (quad F)) (HC2 : curve_laws o2 c2) (Ha2 : ca c2 = f0 o2).
Context (u : quad (cubic (quad F))) (V2 : quad F).
Hypothesis Hu : u <> f0 o12.
Hypothesis Htw : fmul o12 (emb2 o2 (cb c2)) (fmul o12 (fmul o12 (fmul o12 u u) u) (fmul o12 (fmul o12 u u) u)) = emb1 o o2 (cb c1).
Hypothesis Hu2 : fpowz o12 (fmul o12 u u) (p ^ 6) = fmul o12 u u.
Hypothesis Hsep : forall X x, emb1 o o2 X = fmul o12 (emb2 o2 x) (fmul o12 u u) -> x = f0 o2.
Hypothesis Hpu : fpowz o12 u p = fmul o12 (emb2 o2 V2) u.
Context (gen : quad F * quad F).
Notation m2 := (pt_mulz o2 (ca c2)).
Hypothesis Og : on_curve o2 (ca c2) (cb c2) (Some gen).
Hypothesis Rg : m2 r (Some gen) = None.
Hypothesis Hpsi : tau o2 (quad_conjugate o) V2 (Some gen) = m2 p (Some gen).
Hypothesis H3 : fadd o2 (fadd o2 (f1 o2) (f1 o2)) (f1 o2) <> f0 o2.
Context (ds : list Z) (us : list (list bool)) (w : list bool) (l : Z) (R : quad F * quad F).
Hypothesis Hchk : loop_chk t r ds us w l = true.
Hypothesis Hl : prime l.
Hypothesis OR : on_curve o2 (ca c2) (cb c2) (Some R).
Hypothesis RR : m2 l (Some R) = None.
Hypothesis Kill : forall Q, on_curve o2 (ca c2) (cb c2) Q -> (m2 r Q = None <-> exists n, Q = m2 n (Some gen)).
Context (j : Z) (Hj : 0 <= j).
Hypothesis Hval : forall A B, on_curve o (ca c1) (cb c1) (Some (ax A, ay A)) -> on_curve o2 (ca c2) (cb c2) (Some (ax B, ay B)) ->
  m2 r (Some (ax B, ay B)) = None ->
  pr A B = Some (fpowz o12 (fpowz o12
    (fst (Bilinear.ml o12 (f0 o12) (fun z => fpowz o12 z p) ds us
       (Some (fmul o12 (emb2 o2 (ax B)) (fmul o12 u u), fmul o12 (emb2 o2 (ay B)) (fmul o12 (fmul o12 u u) u)))
       (emb1 o o2 (ax A)) (emb1 o o2 (ay A)))) (c * ((p ^ 12 - 1) / r))) j).
Theorem all_bilinear : bilinear o c1 o2 c2 o12 r pr.
Proof.
  destruct (loop_chk_ok _ _ _ _ _ _ Hchk) as (L1 & L2 & L3 & L4 & L5 & L6 & L7).
  destruct (chi_r_engine t o inj o2 mnr2 sc c cj ml fe pr HE) as (Kp & Ke & Kr).
  set (k := c * ((p ^ 4 - p ^ 2 + 1) / r)) in *.
  pose proof (crate_engine_facts _ _ _ _ _ _ _ _ _ _ _ HE) as EF.
  pose proof (en_r _ _ _ _ _ _ _ _ _ _ EF) as Pr. pose proof (en_p _ _ _ _ _ _ _ _ _ _ EF) as Pp.
  assert (H3' : fadd o12 (fadd o12 (f1 o12) (f1 o12)) (f1 o12) <> f0 o12).
  { intros E. apply H3. exact (f_equal (fun z => k0 (q0 z)) E). }
  assert (lq : Z.gcd l (p ^ 12 - 1) = 1) by (apply gcd_pow; [exact Hl|lia|exact L7]).
  refine (engine_bilinear t o inj o2 mnr2 T sc c cj ml fe pr HE c1 HC1 c2 HC2 (Some gen) Og (fun Q O K => proj1 (Kill Q O) K)
    (pair t o o2 mnr2 u k ds us) j _ _ _ _ _ Hj _).
  - intros Q. reflexivity.
  - exact (pair_none2 t o inj o2 mnr2 HP T Hcjh Hinvol Hq1 c1 HC1 Ha1 c2 HC2 Ha2 u V2 Hu Htw Hu2 Hsep Hpu r Pr L6 (Some gen) Og Rg Hpsi H3'
      k Kp ds us w L1 L2 L3 Kr l Hl L4 L5 R OR RR lq).
  - exact (pair_r t o inj o2 mnr2 HP T Hcjh Hinvol Hq1 c1 HC1 Ha1 c2 HC2 Ha2 u V2 Hu Htw Hu2 Hsep Hpu r Pr L6 (Some gen) Og Rg Hpsi H3'
      k Kp ds us w L1 L2 L3 Kr R).
  - exact (pair_first t o inj o2 mnr2 HP T Hcjh Hinvol Hq1 c1 HC1 Ha1 c2 HC2 Ha2 u V2 Hu Htw Hu2 Hsep Hpu r Pr L6 (Some gen) Og Rg Hpsi H3'
      k Kp ds us w L1 L2 L3 Kr R).
  - exact (pair_second t o inj o2 mnr2 HP T Hcjh Hinvol Hq1 c1 HC1 Ha1 c2 HC2 Ha2 u V2 Hu Htw Hu2 Hsep Hpu r Pr L6 (Some gen) Og Rg Hpsi H3'
      k Kp ds us w L1 L2 L3 Kr l Hl L4 L5 R OR RR lq).
  - intros A B OA OB KB. rewrite (Hval A B OA OB KB). unfold pair. cbn [pt_map value tau]. unfold chi. rewrite Ke. reflexivity.
Qed.
End All.
Lemma ml_pos {E} (o : fops E) a pi ds Q X Y :
  fst (Bilinear.ml o a pi ds bn256_us Q X Y) = miller_function_bn o a ds Q (pt_map pi Q) (pt_neg o (pt_map pi (pt_map pi Q))) X Y.
Proof. unfold Bilinear.ml, miller_function_bn. destruct (miller_digits o a ds Q X Y (f1 o) Q) as [f S]. reflexivity. Qed.
Lemma ml_neg {E} (o : fops E) a pi ds Q X Y :
  fst (Bilinear.ml o a pi ds pluto_us Q X Y) = miller_function_bn o a ds Q (pt_neg o (pt_map pi Q)) (pt_map pi (pt_map pi Q)) X Y.
Proof. unfold Bilinear.ml, miller_function_bn. destruct (miller_digits o a ds Q X Y (f1 o) Q) as [f S]. reflexivity. Qed.
Lemma ml_nil {E} (o : fops E) a pi ds Q X Y : fst (Bilinear.ml o a pi ds [] Q X Y) = miller_function o a ds Q X Y.
Proof. unfold Bilinear.ml, miller_function. destruct (miller_digits o a ds Q X Y (f1 o) Q) as [f S]. reflexivity. Qed.

Theorem C49_bn256 : forall F (o : fops F) inj, prime_field (modulus bn256_fq) o inj ->
  bilinear o (curve_of_bn256_g1 o inj bn256_g1_consts) (bn256_fq2 o) (curve_of (bn256_fq2 o) (inj2 inj) bn256_g2_consts)
    (bn256_fq12 o) (modulus bn256_fr) (bn256_pairing o inj).
Proof.
  intros F o inj HP.
  pose proof (bn256_tower_facts o inj HP) as T.
  pose proof (fl_rl _ (pf_laws _ _ _ HP)) as HR.
  pose proof (crate_curve_facts _ _ _ _ (cv_bn256_g1 F o inj HP)) as C1.
  pose proof (crate_curve_facts _ _ _ _ (cv_bn256_g2 F o inj HP)) as C2.
  set (o2 := bn256_fq2 o) in *.
  assert (Hc0 : quad_conjugate o (f0 o2) = f0 o2) by exact (conj_0 o _ _ HR).
  assert (Hc1 : quad_conjugate o (f1 o2) = f1 o2) by exact (conj_1 o _ _ HR).
  pose proof (nth_inj2 o inj (mnr_neg o) (quad_square_complex o) bn256_c12 ltac:(vm_compute; lia)) as EU.
  destruct (psi_facts bn256_tower bn256_g2_consts bn256_g2_noroot o inj HP (mnr_neg o) (quad_square_complex o)
    (mnr_neg_inj o inj _ HP) (sq_complex o inj _ HP) (tf_2 _ _ _ _ _ T) (tf_2z _ _ _ _ _ T) (tf_2fin _ _ _ _ _ T) bn256_g2_ok
    _ _ bn256_psi_ok) as (U1 & U2 & U3).
  pose proof (eq_trans U3 (mulz_mod _ _ (cf_laws _ _ _ _ C2) _ _ _ (proj1 (cf_gen _ _ _ _ C2)) (cf_order _ _ _ _ C2))) as U3'. clear U3.
  rewrite <- EU in U3'.
  pose proof (d_twist bn256_tower bn256_g2_consts o inj HP (mnr_neg o) (quad_square_complex o)
    (mnr_neg_inj o inj _ HP) (sq_complex o inj _ HP) _ bn256_d_twist) as TB.
  pose proof (quad_pt bn256_tower bn256_g2_consts _ o inj HP (mnr_neg o) (quad_square_complex o)
      (mnr_neg_inj o inj _ HP) (sq_complex o inj _ HP) (tf_2 _ _ _ _ _ T) (tf_2z _ _ _ _ _ T)
      (tf_2fin _ _ _ _ _ T) bn256_g2_ok _ _ 10069 (proj1 aux_pts)) as (OR & RR).
  pose proof (C43_bn256_g2 F o inj HP) as CS. cbv zeta in CS. destruct CS as [Kill _ _ _ _].
  pose proof (bn256_engine_facts o inj HP) as EF.
  refine (all_bilinear bn256_tower o inj o2 (bn256_fq2_mnr o) HP T bn256_fr 1 _ _ _ _ (eng_bn256 o inj HP)
    (conj_hom bn256_tower o inj HP (mnr_neg o) (quad_square_complex o) (mnr_neg_inj o inj _ HP) (sq_complex o inj _ HP))
    (conj_invol bn256_tower o inj HP)
    (quad_emb_hom o (mnr_neg o) (quad_square_complex o) _ HR (mnr_neg_inj o inj _ HP) (sq_complex o inj _ HP))
    _ (cf_laws _ _ _ _ C1) (zh_0 _ _ (pf_hom _ _ _ HP)) _ (cf_laws _ _ _ _ C2)
    (qc_a0 bn256_tower bn256_g2_consts bn256_g2_noroot o inj HP (mnr_neg o) (quad_square_complex o) bn256_g2_ok)
    (w12 o2) _ (w_nz bn256_tower o inj o2 _ T) (twist_b bn256_tower o inj o2 _ T bn256_g2_consts _ TB)
    (w2_fixed bn256_tower o inj o2 _ T (en_conj _ _ _ _ _ _ _ _ _ _ EF)) (w_sep bn256_tower o inj o2 _ T)
    (pi_w bn256_tower o inj o2 _ T Hc1 Hc0)
    _ (proj1 (cf_gen _ _ _ _ C2)) (cf_order _ _ _ _ C2) U3' (cf_three _ _ _ _ C2)
    (skipn 1 (rev six_u_plus_2_naf)) bn256_us [false; true; true; true] 10069 _ bn256_end (proj1 aux_primes) OR RR Kill 1 ltac:(lia) _).
  intros A B OA OB KB. rewrite ml_pos, Z.mul_1_l, fpowz_1. exact (proj2 (C47_bn256_killed F o inj HP A B OA OB KB)).
Qed.
Print Assumptions C49_bn256.

Theorem C49_pluto : forall F (o : fops F) inj, prime_field (modulus pluto_eris_fp) o inj ->
  bilinear o (curve_of o inj pluto_consts) (pluto_fp2 o) (curve_of (pluto_fp2 o) (inj2 inj) triton_consts)
    (pluto_fp12 o inj) (modulus pluto_eris_fq) (pluto_pairing o inj).
Proof.
  intros F o inj HP.
  pose proof (pluto_tower_facts o inj HP) as T.
  pose proof (fl_rl _ (pf_laws _ _ _ HP)) as HR.
  pose proof (crate_curve_facts _ _ _ _ (cv_pluto F o inj HP)) as C1.
  pose proof (crate_curve_facts _ _ _ _ (cv_triton F o inj HP)) as C2.
  set (o2 := pluto_fp2 o) in *.
  assert (Hc0 : quad_conjugate o (f0 o2) = f0 o2) by exact (conj_0 o _ _ HR).
  assert (Hc1 : quad_conjugate o (f1 o2) = f1 o2) by exact (conj_1 o _ _ HR).
  pose proof (nth_inj2 o inj (mnr_m5 o) (quad_square o (mnr_m5 o)) pluto_c12 ltac:(vm_compute; lia)) as EU.
  destruct (psi_facts pluto_tower triton_consts triton_noroot o inj HP (mnr_m5 o) (quad_square o (mnr_m5 o))
    (mnr_m5_inj o inj _ HP) (quad_square_mul o (mnr_m5 o) _ HR (mnr_m5_inj o inj _ HP)) (tf_2 _ _ _ _ _ T) (tf_2z _ _ _ _ _ T) (tf_2fin _ _ _ _ _ T) triton_ok
    _ _ pluto_psi_ok) as (U1 & U2 & U3).
  pose proof (eq_trans U3 (mulz_mod _ _ (cf_laws _ _ _ _ C2) _ _ _ (proj1 (cf_gen _ _ _ _ C2)) (cf_order _ _ _ _ C2))) as U3'. clear U3.
  rewrite <- EU in U3'.
  pose proof (d_twist pluto_tower triton_consts o inj HP (mnr_m5 o) (quad_square o (mnr_m5 o))
    (mnr_m5_inj o inj _ HP) (quad_square_mul o (mnr_m5 o) _ HR (mnr_m5_inj o inj _ HP)) _ pluto_d_twist) as TB.
  pose proof (quad_pt pluto_tower triton_consts _ o inj HP (mnr_m5 o) (quad_square o (mnr_m5 o))
      (mnr_m5_inj o inj _ HP) (quad_square_mul o (mnr_m5 o) _ HR (mnr_m5_inj o inj _ HP)) (tf_2 _ _ _ _ _ T) (tf_2z _ _ _ _ _ T)
      (tf_2fin _ _ _ _ _ T) triton_ok _ _ 143653 (proj2 (proj2 aux_pts))) as (OR & RR).
  pose proof (C43_triton F o inj HP) as CS. cbv zeta in CS. destruct CS as [Kill _ _ _ _].
  pose proof (pluto_engine_facts o inj HP) as EF.
  refine (all_bilinear pluto_tower o inj o2 (pluto_mnr o inj) HP T pluto_eris_fq 1 _ _ _ _ (eng_pluto o inj HP)
    (conj_hom pluto_tower o inj HP (mnr_m5 o) (quad_square o (mnr_m5 o)) (mnr_m5_inj o inj _ HP) (quad_square_mul o (mnr_m5 o) _ HR (mnr_m5_inj o inj _ HP)))
    (conj_invol pluto_tower o inj HP)
    (quad_emb_hom o (mnr_m5 o) (quad_square o (mnr_m5 o)) _ HR (mnr_m5_inj o inj _ HP) (quad_square_mul o (mnr_m5 o) _ HR (mnr_m5_inj o inj _ HP)))
    _ (cf_laws _ _ _ _ C1) (zh_0 _ _ (pf_hom _ _ _ HP)) _ (cf_laws _ _ _ _ C2)
    (qc_a0 pluto_tower triton_consts triton_noroot o inj HP (mnr_m5 o) (quad_square o (mnr_m5 o)) triton_ok)
    (w12 o2) _ (w_nz pluto_tower o inj o2 _ T) (twist_b pluto_tower o inj o2 _ T triton_consts _ TB)
    (w2_fixed pluto_tower o inj o2 _ T (en_conj _ _ _ _ _ _ _ _ _ _ EF)) (w_sep pluto_tower o inj o2 _ T)
    (pi_w pluto_tower o inj o2 _ T Hc1 Hc0)
    _ (proj1 (cf_gen _ _ _ _ C2)) (cf_order _ _ _ _ C2) U3' (cf_three _ _ _ _ C2)
    (skipn 1 (rev neg_six_u_plus_2_naf)) pluto_us [true; true; true] 143653 _ pluto_end (proj2 (proj2 aux_primes)) OR RR Kill 1 ltac:(lia) _).
  intros A B OA OB KB. rewrite ml_neg, Z.mul_1_l, fpowz_1. exact (proj2 (C47_pluto_killed F o inj HP A B OA OB KB)).
Qed.
Print Assumptions C49_pluto.

Theorem C49_bls12381 : forall F (o : fops F) inj, prime_field (modulus bls12381_fq) o inj ->
  bilinear o (curve_of o inj bls_g1_consts) (bls_fq2 o) (curve_of (bls_fq2 o) (inj2 inj) bls_g2_consts)
    (bls_fq12 o) (modulus bls12381_fr) (bls_pairing o inj).
Proof.
  intros F o inj HP.
  pose proof (bls_tower_facts o inj HP) as T.
  pose proof (fl_rl _ (pf_laws _ _ _ HP)) as HR.
  pose proof (crate_curve_facts _ _ _ _ (cv_bls_g1 F o inj HP)) as C1.
  pose proof (crate_curve_facts _ _ _ _ (cv_bls_g2 F o inj HP)) as C2.
  set (o2 := bls_fq2 o) in *.
  assert (Hc0 : quad_conjugate o (f0 o2) = f0 o2) by exact (conj_0 o _ _ HR).
  assert (Hc1 : quad_conjugate o (f1 o2) = f1 o2) by exact (conj_1 o _ _ HR).
  pose proof (nth_inj2 o inj (mnr_neg o) (quad_square_complex o) bls12381_c12 ltac:(vm_compute; lia)) as EU.
  destruct (psi_facts bls12381_tower bls_g2_consts bls_g2_noroot o inj HP (mnr_neg o) (quad_square_complex o)
    (mnr_neg_inj o inj _ HP) (sq_complex o inj _ HP) (tf_2 _ _ _ _ _ T) (tf_2z _ _ _ _ _ T) (tf_2fin _ _ _ _ _ T) bls_g2_ok
    _ _ bls_psi_ok) as (U1 & U2 & U3).
  pose proof (eq_trans U3 (mulz_mod _ _ (cf_laws _ _ _ _ C2) _ _ _ (proj1 (cf_gen _ _ _ _ C2)) (cf_order _ _ _ _ C2))) as U3'. clear U3.
  pose proof (inv_chk_ok bls12381_tower _ _ o inj HP (mnr_neg o) (quad_square_complex o)
    (mnr_neg_inj o inj _ HP) (sq_complex o inj _ HP) bls_u_inv) as IV. rewrite <- EU in IV.
  pose proof (m_twist bls12381_tower bls_g2_consts o inj HP (mnr_neg o) (quad_square_complex o)
    (mnr_neg_inj o inj _ HP) (sq_complex o inj _ HP) _ bls_m_twist) as TB.
  pose proof (quad_pt bls12381_tower bls_g2_consts _ o inj HP (mnr_neg o) (quad_square_complex o)
      (mnr_neg_inj o inj _ HP) (sq_complex o inj _ HP) (tf_2 _ _ _ _ _ T) (tf_2z _ _ _ _ _ T)
      (tf_2fin _ _ _ _ _ T) bls_g2_ok _ _ 2713 (proj1 (proj2 aux_pts))) as (OR & RR).
  pose proof (C43_bls_g2 F o inj HP) as CS. cbv zeta in CS. destruct CS as [Kill _ _ _ _].
  pose proof (bls_engine_facts o inj HP) as EF.
  pose proof (tf_12 _ _ _ _ _ T) as H12. destruct (fl_inv _ H12 _ (w_nz _ _ _ _ _ T)) as (u & _ & Eu').
  assert (Eu : fmul (bls_fq12 o) u (w12 o2) = f1 (bls_fq12 o)).
  { pose proof (Rmul_comm (rl_ring _ (fl_rl _ H12))) as MC. etransitivity; [apply MC|exact Eu']. }
  pose proof (w2_fixed bls12381_tower o inj o2 _ T (en_conj _ _ _ _ _ _ _ _ _ _ EF)) as W2.
  refine (all_bilinear bls12381_tower o inj o2 (bls_fq2_mnr o) HP T bls12381_fr 3 _ _ _ _ (eng_bls12381 o inj HP)
    (conj_hom bls12381_tower o inj HP (mnr_neg o) (quad_square_complex o) (mnr_neg_inj o inj _ HP) (sq_complex o inj _ HP))
    (conj_invol bls12381_tower o inj HP)
    (quad_emb_hom o (mnr_neg o) (quad_square_complex o) _ HR (mnr_neg_inj o inj _ HP) (sq_complex o inj _ HP))
    _ (cf_laws _ _ _ _ C1) (zh_0 _ _ (pf_hom _ _ _ HP)) _ (cf_laws _ _ _ _ C2)
    (qc_a0 bls12381_tower bls_g2_consts bls_g2_noroot o inj HP (mnr_neg o) (quad_square_complex o) bls_g2_ok)
    u _ (u_nz bls12381_tower o inj o2 _ T u Eu) (twist_bm bls12381_tower o inj o2 _ T _ _ TB u Eu)
    (winv_fixed bls12381_tower o inj o2 _ T u Eu W2) (winv_sep bls12381_tower o inj o2 _ T u Eu)
    (winv_pi bls12381_tower o inj o2 _ T u _ _ Eu (pi_w bls12381_tower o inj o2 _ T Hc1 Hc0) IV)
    _ (proj1 (cf_gen _ _ _ _ C2)) (cf_order _ _ _ _ C2) U3' (cf_three _ _ _ _ C2)
    (skipn 1 bls_x) [] [false; true] 2713 _ bls_end (proj1 (proj2 aux_primes)) OR RR Kill (modulus bls12381_fq ^ 6) _ _).
  - apply Z.pow_nonneg. pose proof (prime_ge_2 _ (pf_prime _ _ _ HP)). lia.
  - intros A B OA OB KB. rewrite ml_nil. exact (proj1 (proj2 (C47_bls12381 F o inj HP u Eu A B OA OB KB))).
Qed.
Print Assumptions C49_bls12381.

(** The hypotheses hold for the generators: their pairing exists, and doubling one of them squares it. *)
Example ex_C49_bn256 : let o := zp_ops (modulus bn256_fq) in let inj := zp_inj (modulus bn256_fq) in
  let c1 := curve_of_bn256_g1 o inj bn256_g1_consts in let g1 := gen_aff inj bn256_g1_consts in
  let c2 := curve_of (bn256_fq2 o) (inj2 inj) bn256_g2_consts in let g2 := gen_aff (inj2 inj) bn256_g2_consts in
  prime_field (modulus bn256_fq) o inj /\ exists x, bn256_pairing o inj g1 g2 = Some x
  /\ forall A, arep o c1 A (pt_mulz o (ca c1) 2 (Some (ax g1, ay g1))) ->
     bn256_pairing o inj A g2 = Some (fpowz (bn256_fq12 o) x 2).
Proof.
  assert (HP : prime_field (modulus bn256_fq) (zp_ops (modulus bn256_fq)) (zp_inj (modulus bn256_fq))) by (apply ex_field; in_fields).
  cbv zeta. split; [exact HP|]. set (o := zp_ops (modulus bn256_fq)) in *. set (inj := zp_inj (modulus bn256_fq)) in *.
  pose proof (crate_curve_facts _ _ _ _ (cv_bn256_g1 _ o inj HP)) as C1. pose proof (crate_curve_facts _ _ _ _ (cv_bn256_g2 _ o inj HP)) as C2.
  destruct (C49_bn256 _ o inj HP) as (B1 & _ & _ & B4).
  set (g1 := gen_aff inj bn256_g1_consts) in *. set (g2 := gen_aff (inj2 inj) bn256_g2_consts) in *.
  assert (R1 : arep o (curve_of_bn256_g1 o inj bn256_g1_consts) g1 (Some (ax g1, ay g1))) by (split; [exact (proj1 (cf_gen _ _ _ _ C1))|split; reflexivity]).
  assert (R2 : arep (bn256_fq2 o) (curve_of (bn256_fq2 o) (inj2 inj) bn256_g2_consts) g2 (Some (ax g2, ay g2))) by (split; [exact (proj1 (cf_gen _ _ _ _ C2))|split; reflexivity]).
  destruct (B1 _ _ _ _ R1 R2 (cf_order _ _ _ _ C2)) as (x & Ex & _). exists x. split; [exact Ex|].
  intros A hA. assert (R2' := R2). rewrite <- (mulz_1 _ _ (cf_laws _ _ _ _ C2) _ (proj1 R2)) in R2'.
  exact (B4 g1 A g2 g2 _ _ 2 1 x R1 hA R2 R2' (cf_order _ _ _ _ C2) Ex).
Qed.
