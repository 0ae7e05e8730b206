(** The groups of the four curves with a cofactor as sums of groups spanned by explicit points. *)
From Verif Require Import Base Field SpecField Params
  Algebra Pow Tower TowerFacts FiniteField PrimeField Primality Certs Compute TowerParams TowerInst SpecCurve SpecCurveFacts Group GroupSum
  Curve CurveFacts CurveGroup CurveParams CurveCheck CurveCerts CurveInst CrateCurves PairingParams PairingLines TwistFrob CofactorFacts CurveSum
  OrderFacts PointFacts CofPoints CofCerts.
Local Open Scope Z_scope.

(** ** Consequences of a decomposition *)
Section Cons.
Context {F : Type} (o : fops F) (c : cconf F) (HC : curve_laws o c) (q : Z) (HF : finite_field o q).
Notation G := (cpt o c). Notation g := (cpt_ops o c HC). Notation gm := (gmul g).
Let GL := cpt_laws o c HC.
(** the whole group is spanned by [Gen] of prime order [r] and a group with [h] elements killed by [e] *)
Record cof_group (r h e : Z) (Gen : G) (bs : list G) : Prop := {
  cg_prime : prime r;
  cg_gen : indep1 g r Gen;
  cg_rest : subgrp g (span g bs) h e;
  cg_co : Z.gcd r e = 1;
  cg_all : forall P, span g (Gen :: bs) P }.
Lemma cof_group_intro r h e Gen bs : prime r -> indep1 g r Gen -> subgrp g (span g bs) h e -> Z.gcd r e = 1 ->
  Z.odd (r * e) = true -> 2 * q + 1 < 3 * (r * h) -> cof_group r h e Gen bs.
Proof.
  intros Hr Hg S Co Odd Big. constructor; try assumption.
  exact (whole_subgrp o c HC q HF _ _ _ (span_cyc g GL r Gen bs h e (or_introl Hr) Hg S Co) Odd Big).
Qed.
Context (r h e : Z) (Gen : G) (bs : list G) (C : cof_group r h e Gen bs).
Lemma cg_count : point_count o c (r * h).
Proof.
  destruct C. exact (whole_count o c HC _ _ _ (span_cyc g GL r Gen bs h e (or_introl cg_prime0) cg_gen0 cg_rest0 cg_co0) cg_all0).
Qed.
Lemma cg_killed P : gm r P = g0 g <-> exists k, P = gm k Gen.
Proof. destruct C. exact (span_killed g GL r Gen bs h e P cg_gen0 cg_rest0 cg_co0 (cg_all0 P)). Qed.
Lemma cg_exp P : gm (r * e) P = g0 g.
Proof.
  destruct C. exact (sg_exp _ _ _ _ (span_cyc g GL r Gen bs h e (or_introl cg_prime0) cg_gen0 cg_rest0 cg_co0) P (cg_all0 P)).
Qed.
Context (f : G -> G) (Hf : forall P Q, f (gadd g P Q) = gadd g (f P) (f Q)).
Lemma cg_is k m : Forall (fun B => f B = g0 g) bs -> f Gen = gm k Gen -> (r | m - k) -> (e | m) -> forall P, f P = gm m P.
Proof.
  intros FA Ek D1 D2 P. destruct C. refine (span_hom g GL f (gm m) (Gen :: bs) Hf (gmul_gadd g GL m) _ P (cg_all0 P)).
  constructor.
  - rewrite Ek. replace m with (m - k + k) by lia. rewrite (gmul_add _ GL). destruct D1 as [w ->].
    rewrite (gmul_mul _ GL), (proj1 cg_gen0), (gmul_g0 _ GL), (gl_0 _ GL). reflexivity.
  - destruct D2 as [w ->]. clear -FA cg_rest0 GL. apply Forall_forall. intros B HB. rewrite Forall_forall in FA. rewrite (FA B HB).
    assert (SB : span g bs B).
    { clear -HB GL. revert HB. induction bs as [|B' bs' IH]; intros []; cbn [span].
      - subst B'. exists 1, (g0 g). split; [|rewrite (gmul_1 _ GL); symmetry; apply (g_0_r _ GL)].
        clear IH. induction bs' as [|B' bs' IH]; cbn [span]; [reflexivity|]. exists 0, (g0 g). split; [exact IH|]. symmetry. apply (gl_0 _ GL).
      - exists 0, B. split; [apply IH; assumption|]. symmetry. apply (gl_0 _ GL). }
    rewrite (gmul_mul _ GL), (sg_exp _ _ _ _ cg_rest0 B SB). symmetry. apply (gmul_g0 _ GL).
Qed.
Lemma cg_clear : Forall (fun B => f B = g0 g) bs -> forall P, exists k, f P = gm k Gen.
Proof.
  intros FA P. apply cg_killed. destruct C.
  assert (HM : forall k Q, f (gm k Q) = gm k (f Q)) by (intros; apply (h_mul g GL f Hf)).
  rewrite <- HM.
  refine (span_hom g GL (fun Q => f (gm r Q)) (fun _ => g0 g) (Gen :: bs) _ _ _ P (cg_all0 P)).
  - intros x y. rewrite (gmul_gadd _ GL). apply Hf.
  - intros _ _. symmetry. apply (gl_0 _ GL).
  - constructor; [rewrite (proj1 cg_gen0); apply (h_0 g GL f Hf)|].
    apply Forall_forall. intros B HB. rewrite Forall_forall in FA. rewrite HM, (FA B HB). apply (gmul_g0 _ GL).
Qed.
Lemma cg_onto k : f Gen = gm k Gen -> ~ (r | k) -> forall j, exists P, f P = gm j Gen.
Proof.
  intros Ek D j. destruct C.
  assert (HM : forall k Q, f (gm k Q) = gm k (f Q)) by (intros; apply (h_mul g GL f Hf)).
  destruct (rel_prime_bezout _ _ (prime_rel_prime r cg_prime0 k D)) as [u v Euv].
  exists (gm (j * v) Gen). rewrite HM, Ek, <- (gmul_mul _ GL).
  replace (j * v * k) with (j + (- (j * u)) * r) by (transitivity (j * (u * r + v * k) - j * u * r); [rewrite Euv; ring|ring]).
  rewrite (gmul_add _ GL), (gmul_mul _ GL (- (j * u))), (proj1 cg_gen0), (gmul_g0 _ GL). apply (g_0_r _ GL).
Qed.
End Cons.
Arguments cg_all {F o c HC r h e Gen bs}.

(** ** bls12-381 G1 *)
Definition g1_h : Z := 3 * 11 ^ 2 * 10177 ^ 2 * 859267 ^ 2 * 52437899 ^ 2.
Definition g1_e : Z := 3 * 11 * 10177 * 859267 * 52437899.
Lemma g1_e_is : g1_e = 0xd201000000010001.
Proof. vm_compute. reflexivity. Qed.
Definition g1_z : Z := zeta bls12381_fq.
Lemma g1_points :
  p_kill bls_g1_consts g1_t3 3 && p_kill bls_g1_consts g1_t11 11 && p_kill bls_g1_consts g1_t52437899 52437899
  && (p_kill bls_g1_consts g1_t10177 10177 && p_endo bls_g1_consts g1_z g1_t10177 g1_s10177)
  && (p_kill bls_g1_consts g1_u10177 10177 && p_endo bls_g1_consts g1_z g1_u10177 g1_v10177)
  && (p_kill bls_g1_consts g1_t859267 859267 && p_endo bls_g1_consts g1_z g1_t859267 g1_s859267)
  && (p_kill bls_g1_consts g1_u859267 859267 && p_endo bls_g1_consts g1_z g1_u859267 g1_v859267) = true.
Proof. vm_compute. reflexivity. Qed.
Lemma g1_nums :
  ((g1_z * g1_z + g1_z + 1) mod modulus bls12381_fq =? 0)
  && negb ((Zpos g1_s10177 - Zpos g1_v10177) mod 10177 =? 0) && negb ((Zpos g1_s859267 - Zpos g1_v859267) mod 859267 =? 0)
  && (2 * modulus bls12381_fq + 1 <? 3 * (modulus bls12381_fr * g1_h)) && Z.odd (modulus bls12381_fr * g1_e)
  && (Z.gcd (modulus bls12381_fr) g1_e =? 1)
  && (Z.gcd 11 (3 * 1) =? 1) && (Z.gcd 52437899 (11 * (3 * 1)) =? 1) && (Z.gcd 10177 (52437899 * (11 * (3 * 1))) =? 1)
  && (Z.gcd 859267 (10177 * (52437899 * (11 * (3 * 1)))) =? 1)
  && (859267 * 859267 * (10177 * 10177 * (52437899 * 52437899 * (11 * 11 * (3 * 1)))) =? g1_h)
  && (859267 * (10177 * (52437899 * (11 * (3 * 1)))) =? g1_e) = true.
Proof. vm_compute. reflexivity. Qed.
Lemma small_primes : prime 3 /\ prime 11 /\ prime 10177 /\ prime 859267 /\ prime 52437899.
Proof. split; [|split; [|split; [|split]]]; apply cof_prime; vm_compute; reflexivity. Qed.
Lemma not_div_of a l : 0 < l -> negb (a mod l =? 0) = true -> ~ (l | a).
Proof. intros Hl E D. apply Z.mod_divide in D; [|lia]. rewrite D in E. discriminate. Qed.

Section BlsG1.
Context {F : Type} (o : fops F) (inj : Z -> F) (HP : prime_field (modulus bls12381_fq) o inj).
Let c := curve_of o inj bls_g1_consts.
Let HC := prime_curve_laws bls_g1_consts _ o inj HP bls_g1_ok.
Let GL := cpt_laws o c HC.
Let z := inj g1_z.
Notation g := (cpt_ops o c HC).
Lemma g1_endo : ca c = f0 o /\ fmul o (fmul o z z) z = f1 o.
Proof.
  assert (He : prime_endo_check bls_g1_consts = true).
  { apply (proj1 (forallb_forall _ _) endo_curves_ok). cbn [endo_curves In]. auto. }
  destruct (prime_curve_endo bls_g1_consts _ o inj HP bls_g1_ok He) as (A & B & _). split; [exact A|exact B].
Qed.
Definition g1_phi (P : cpt o c) : cpt o c :=
  mkpt o c HC (pt_endo o z (proj1_sig P)) (endo_on o c HC z (proj1 g1_endo) (proj2 g1_endo) _ (cpt_on o c HC P)).
Lemma g1_phi_add P Q : g1_phi (gadd g P Q) = gadd g (g1_phi P) (g1_phi Q).
Proof.
  apply cpt_ext. cbn [g1_phi cpt_ops gadd mkpt proj1_sig].
  apply (endo_add o c HC z (proj1 g1_endo) (proj2 g1_endo)); apply (cpt_on o c HC).
Qed.
Lemma g1_phi_rel P : gadd g P (g1_phi P) = gneg g (g1_phi (g1_phi P)).
Proof.
  apply cpt_ext. cbn [g1_phi cpt_ops gadd gneg mkpt proj1_sig].
  apply (endo_rel o c HC (proj1 g1_endo)); [|apply (cpt_on o c HC)].
  pose proof g1_nums as E. do 11 (apply andb_prop in E; destruct E as [E _]). apply Z.eqb_eq in E.
  unfold z. rewrite <- (zh_mul _ _ (pf_hom _ _ _ HP)), <- (zh_1 _ _ (pf_hom _ _ _ HP)), <- !(zh_add _ _ (pf_hom _ _ _ HP)).
  rewrite <- (pf_mod _ _ _ HP). refine (eq_trans (f_equal inj E) _). apply (zh_0 _ _ (pf_hom _ _ _ HP)).
Qed.
Lemma g1_eigen P k T : p_endo bls_g1_consts g1_z P k = true -> is_pt o c inj P T -> g1_phi T = gmul g (Zpos k) T.
Proof.
  intros E A. apply cpt_ext. symmetry. exact (p_endo_ok bls_g1_consts _ o inj HP bls_g1_ok g1_z P k T E A).
Qed.
Lemma g1_gen : exists Gen : cpt o c, is_pt o c inj (cc_gx bls_g1_consts, cc_gy bls_g1_consts) Gen /\ gmul g (modulus bls12381_fr) Gen = g0 g.
Proof.
  pose proof (prime_curve_facts bls_g1_consts _ o inj HP bls_g1_ok) as CF.
  exists (mkpt o c HC _ (proj1 (cf_gen _ _ _ _ CF))). split; [reflexivity|].
  apply cpt_ext. rewrite (gmul_pt o c HC). exact (cf_order _ _ _ _ CF).
Qed.

Theorem bls_g1_group : exists Gen bs, is_pt o c inj (cc_gx bls_g1_consts, cc_gy bls_g1_consts) Gen
  /\ cof_group o c HC (modulus bls12381_fr) g1_h g1_e Gen bs.
Proof.
  destruct g1_gen as (Gen & Eg & Kg). pose proof g1_points as E. pose proof g1_nums as N.
  destruct small_primes as (P3 & P11 & P10177 & P859267 & P52437899).
  apply andb_prop in E as (E & X4). apply andb_prop in E as (E & X3). apply andb_prop in E as (E & X2). apply andb_prop in E as (E & X1).
  apply andb_prop in E as (E & K3). apply andb_prop in E as (K1 & K2).
  apply andb_prop in X1 as (X1 & Y1). apply andb_prop in X2 as (X2 & Y2). apply andb_prop in X3 as (X3 & Y3). apply andb_prop in X4 as (X4 & Y4).
  apply andb_prop in N as (N & N12). apply andb_prop in N as (N & N11). apply andb_prop in N as (N & N10). apply andb_prop in N as (N & N9).
  apply andb_prop in N as (N & N8). apply andb_prop in N as (N & N7). apply andb_prop in N as (N & N6). apply andb_prop in N as (N & N5).
  apply andb_prop in N as (N & N4). apply andb_prop in N as (N & N3). apply andb_prop in N as (_ & N2).
  destruct (p_kill_ok bls_g1_consts _ o inj HP bls_g1_ok _ _ K1) as (T3 & A3 & L3).
  destruct (p_kill_ok bls_g1_consts _ o inj HP bls_g1_ok _ _ K2) as (T11 & A11 & L11).
  destruct (p_kill_ok bls_g1_consts _ o inj HP bls_g1_ok _ _ K3) as (T5 & A5 & L5).
  destruct (p_kill_ok bls_g1_consts _ o inj HP bls_g1_ok _ _ X1) as (Ta & Aa & La).
  destruct (p_kill_ok bls_g1_consts _ o inj HP bls_g1_ok _ _ X2) as (Ua & Ba & Ma).
  destruct (p_kill_ok bls_g1_consts _ o inj HP bls_g1_ok _ _ X3) as (Tb & Ab & Lb).
  destruct (p_kill_ok bls_g1_consts _ o inj HP bls_g1_ok _ _ X4) as (Ub & Bb & Mb).
  pose proof (fun k T => h_mul g GL g1_phi g1_phi_add k T) as HM.
  assert (S1 : subgrp g (span g [T3]) (3 * 1) (3 * 1)).
  { apply (span_cyc g GL); [left; exact P3| |apply (span_nil g GL)|reflexivity].
    apply (indep1_prime g GL); [exact P3|exact (is_pt_nz o c HC inj _ _ A3)|exact L3]. }
  assert (S2 : subgrp g (span g [T11; g1_phi T11; T3]) (11 * 11 * (3 * 1)) (11 * (3 * 1))).
  { apply (span_plane g GL); [reflexivity| |exact S1|apply Z.eqb_eq; exact N7].
    apply (indep2_omega o c HC g1_phi g1_phi_add); [exact P11|reflexivity|reflexivity|exact g1_phi_rel|exact (is_pt_nz o c HC inj _ _ A11)|exact L11]. }
  assert (S3 : subgrp g (span g [T5; g1_phi T5; T11; g1_phi T11; T3]) (52437899 * 52437899 * (11 * 11 * (3 * 1))) (52437899 * (11 * (3 * 1)))).
  { apply (span_plane g GL); [reflexivity| |exact S2|apply Z.eqb_eq; exact N8].
    apply (indep2_omega o c HC g1_phi g1_phi_add); [exact P52437899|reflexivity|reflexivity|exact g1_phi_rel|exact (is_pt_nz o c HC inj _ _ A5)|exact L5]. }
  assert (S4 : subgrp g (span g [Ta; Ua; T5; g1_phi T5; T11; g1_phi T11; T3]) (10177 * 10177 * (52437899 * 52437899 * (11 * 11 * (3 * 1)))) (10177 * (52437899 * (11 * (3 * 1))))).
  { apply (span_plane g GL); [reflexivity| |exact S3|apply Z.eqb_eq; exact N9].
    exact (indep2_eigen g GL g1_phi 10177 Ta Ua _ _ P10177 (is_pt_nz o c HC inj _ _ Aa) (is_pt_nz o c HC inj _ _ Ba) La Ma
      (fun k => HM k Ta) (g1_eigen _ _ _ Y1 Aa) (g1_eigen _ _ _ Y2 Ba) (not_div_of _ 10177 eq_refl N2)). }
  assert (S5 : subgrp g (span g [Tb; Ub; Ta; Ua; T5; g1_phi T5; T11; g1_phi T11; T3])
    (859267 * 859267 * (10177 * 10177 * (52437899 * 52437899 * (11 * 11 * (3 * 1))))) (859267 * (10177 * (52437899 * (11 * (3 * 1)))))).
  { apply (span_plane g GL); [reflexivity| |exact S4|apply Z.eqb_eq; exact N10].
    exact (indep2_eigen g GL g1_phi 859267 Tb Ub _ _ P859267 (is_pt_nz o c HC inj _ _ Ab) (is_pt_nz o c HC inj _ _ Bb) Lb Mb
      (fun k => HM k Tb) (g1_eigen _ _ _ Y3 Ab) (g1_eigen _ _ _ Y4 Bb) (not_div_of _ 859267 eq_refl N3)). }
  apply Z.eqb_eq in N11, N12, N6. apply Z.ltb_lt in N4. rewrite N11, N12 in S5.
  exists Gen, [Tb; Ub; Ta; Ua; T5; g1_phi T5; T11; g1_phi T11; T3]. split; [exact Eg|].
  assert (Pr : prime (modulus bls12381_fr)).
  { pose proof all_moduli_prime as M. rewrite Forall_forall in M. apply M. cbn [all_fields In]. auto 20. }
  apply (cof_group_intro o c HC (modulus bls12381_fq) (prime_field_finite _ _ _ HP)); try assumption.
  apply (indep1_prime g GL); [exact Pr|exact (is_pt_nz o c HC inj _ _ Eg)|exact Kg].
Qed.
End BlsG1.
