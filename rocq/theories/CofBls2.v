(** The group of bls12-381 G2. *)
From Verif Require Import Base Field SpecField Params
  Algebra Pow Tower TowerFacts FiniteField PrimeField Primality Certs Compute TowerParams TowerInst SpecCurve SpecCurveFacts Group GroupSum
  Curve CurveFacts CurveGroup CurveParams CurveCheck CurveCerts CurveInst CrateCurves PairingParams PairingLines TwistFrob CofactorFacts CurveSum
  OrderFacts PointFacts CofPoints CofCerts CofGroups CofGroups2.
Local Open Scope Z_scope.

Definition bls_p448 : Z := 402096035359507321594726366720466575392706800671181159425656785868777272553337714697862511267018014931937703598282857976535744623203249.
Definition g2_h : Z := 13 ^ 2 * 23 ^ 2 * 2713 * 11953 * 262069 * bls_p448.
Definition g2_e : Z := 13 * 23 * 2713 * 11953 * 262069 * bls_p448.
Definition bls_u : Z * Z :=
  (0x5b2cfd9013a5fd8df47fa6b48b1e045f39816240c0b8fee8beadf4d8e9c0566c63a3e6e257f87329b18fae980078116,
   0x5b2cfd9013a5fd8df47fa6b48b1e045f39816240c0b8fee8beadf4d8e9c0566c63a3e6e257f87329b18fae980078116).
Notation tw := bls12381_tower (only parsing). Notation cc := bls_g2_consts (only parsing).
Definition bls_xa : Z := 0xd201000000010000.
(** the norm of [bls_cc] up to a factor, and its cofactor in Z[t]/(t^4 - t^2 + 1) *)
Definition bls_cc_k : Z := 7623156010315677 * bls_p448.
Definition bls_cc_b : quart := (13385985134520626734723354367822662187616530837737396993370787072270994194162980837485682044241118517300024604930, 884592408839705142275785620550079651130827073698031377179142401982468997781305315624053575164, -58456939994566544574038891119575939974019856010443734870628647850487490439, -11589113130681111435310761028792058222018013007046820735).

Lemma g2_tw : q_tw_chk tw cc bls_u && q_norm_chk tw bls_u = true.
Proof. vm_compute. reflexivity. Qed.
Lemma g2_gen_chk : q_mul tw cc (cc_gx cc, cc_gy cc) (Z.to_pos (bls_xa + 1)) g2_ga && q_psi tw bls_u (cc_gx cc, cc_gy cc) g2_gf
  && q_sum tw cc g2_ga g2_gf (cc_gx cc, cc_gy cc) = true.
Proof. vm_compute. reflexivity. Qed.
Lemma g2_eigen_chk :
  eigen_chk tw cc bls_u g2_t2713 2713 g2_f2713 g2_s2713 bls_cc && eigen_chk tw cc bls_u g2_t11953 11953 g2_f11953 g2_s11953 bls_cc
  && eigen_chk tw cc bls_u g2_t262069 262069 g2_f262069 g2_s262069 bls_cc
  && eigen_chk tw cc bls_u g2_t13 13 g2_tf13 g2_ts13 bls_cc && eigen_chk tw cc bls_u g2_u13 13 g2_uf13 g2_us13 bls_cc = true.
Proof. vm_compute. reflexivity. Qed.
Lemma g2_23_chk : q_kill tw cc g2_t23 23 && q_psi tw bls_u g2_t23 g2_u23 && q_psi tw bls_u g2_u23 g2_v23
  && q_mul tw cc g2_t23 g2_ka23 g2_a23 && q_mul tw cc g2_u23 g2_kb23 g2_b23 && q_sum tw cc g2_a23 g2_b23 g2_v23 && no_root12 23
  && (let '(a0, a1, a2, a3) := bls_cc in
      ((a0 + a2 * Zpos g2_ka23) mod 23 =? 0) && ((a1 + a2 * Zpos g2_kb23) mod 23 =? 0) && (a3 =? 0)) = true.
Proof. vm_compute. reflexivity. Qed.
(** [bls_cc] kills the point [g2_w] *)
Lemma g2_w_chk : q_on tw cc g2_w && q_psi tw bls_u g2_w g2_w1 && q_psi tw bls_u g2_w1 g2_w2
  && q_mul tw cc g2_w (Z.to_pos (bls_xa * bls_xa + bls_xa - 1)) g2_wa && q_mul tw cc g2_w2 2 g2_wd
  && q_mul tw cc g2_w1 (Z.to_pos (bls_xa + 1)) g2_we && q_sum tw cc g2_wa g2_wd g2_we
  && q_mul tw cc g2_w 7623156010315677 g2_t448 = true.
Proof. vm_compute. reflexivity. Qed.
Lemma bls_cc_is : bls_cc = (bls_xa * bls_xa + bls_xa - 1, - (bls_xa + 1), 2, 0).
Proof. vm_compute. reflexivity. Qed.
Lemma bls_cc_norm : qt_mul bls_cc_b bls_cc = (bls_cc_k, 0, 0, 0).
Proof. vm_compute. reflexivity. Qed.
Definition g2_s1 : Z := 2713 * 1.
Definition g2_s2 : Z := 11953 * g2_s1.
Definition g2_s3 : Z := 262069 * g2_s2.
Definition g2_s4 : Z := bls_p448 * g2_s3.
Definition g2_s5 : Z := 13 * g2_s4.
Lemma g2_nums :
  (2 * (modulus bls12381_fq * modulus bls12381_fq) + 1 <? 3 * (modulus bls12381_fr * g2_h)) && Z.odd (modulus bls12381_fr * g2_e)
  && (Z.gcd (modulus bls12381_fr) g2_e =? 1)
  && (Z.gcd 11953 g2_s1 =? 1) && (Z.gcd 262069 g2_s2 =? 1) && (Z.gcd bls_p448 g2_s3 =? 1) && (Z.gcd 13 g2_s4 =? 1) && (Z.gcd 23 g2_s5 =? 1)
  && (23 * 23 * (13 * 13 * g2_s4) =? g2_h) && (23 * g2_s5 =? g2_e) && negb ((Zpos g2_ts13 - Zpos g2_us13) mod 13 =? 0) = true.
Proof. vm_compute. reflexivity. Qed.
Lemma g2_primes : prime 13 /\ prime 23 /\ prime 2713 /\ prime 11953 /\ prime 262069 /\ prime bls_p448.
Proof. split; [|split; [|split; [|split; [|split]]]]; apply cof_prime; vm_compute; reflexivity. Qed.

Section BlsG2.
Context {F : Type} (o : fops F) (inj : Z -> F) (HP : prime_field (modulus bls12381_fq) o inj).
Let T := bls_tower_facts o inj HP.
Let o2 := bls_fq2 o.
Let mnr := mnr_neg o.
Let sq := quad_square_complex o.
Let Hm := mnr_neg_inj o inj _ HP : forall x, mnr x = fmul o (inj (t_beta tw)) x.
Let Hsq := sq_complex o inj _ HP : forall a, sq a = quad_mul o mnr a a.
Let H2 := tf_2 _ _ _ _ _ T : field_laws o2.
Let H2z := tf_2z _ _ _ _ _ T : is0_law o2.
Let H2f := tf_2fin _ _ _ _ _ T : finite_field o2 (modulus bls12381_fq * modulus bls12381_fq).
Let c := curve_of o2 (inj2 inj) cc.
Definition g2_HC : curve_laws o2 c := quad_curve_laws tw cc bls_g2_noroot o inj HP mnr sq Hm Hsq H2 H2z H2f bls_g2_ok.
Let GL := cpt_laws o2 c g2_HC.
Notation g := (cpt_ops o2 c g2_HC).
Notation gm := (gmul g).
Notation is_pt := (is_pt o2 c (inj2 inj)).
Lemma bls_a0 : cc_a cc = (0, 0).
Proof. reflexivity. Qed.
Let Htw := proj1 (andb_prop _ _ g2_tw).
Let Hnm := proj2 (andb_prop _ _ g2_tw).
Definition g2_psi : cpt o2 c -> cpt o2 c := qpsi tw cc bls_g2_noroot o inj HP mnr sq Hm Hsq H2 H2z H2f bls_g2_ok bls_u bls_a0 Htw.
Notation act := (act g g2_psi).
Lemma g2_psi_add P Q : g2_psi (gadd g P Q) = gadd g (g2_psi P) (g2_psi Q).
Proof. exact (qpsi_add tw cc bls_g2_noroot o inj HP mnr sq Hm Hsq H2 H2z H2f bls_g2_ok bls_u bls_a0 Htw P Q). Qed.
Lemma g2_psi_four P : gadd g (g2_psi (g2_psi (g2_psi (g2_psi P)))) P = g2_psi (g2_psi P).
Proof. exact (qpsi_four tw cc bls_g2_noroot o inj HP mnr sq Hm Hsq H2 H2z H2f bls_g2_ok bls_u bls_a0 Htw Hnm P). Qed.
Lemma g2_psi_is P Q S : q_psi tw bls_u P Q = true -> is_pt P S -> is_pt Q (g2_psi S).
Proof. exact (qpsi_is tw cc bls_g2_noroot o inj HP mnr sq Hm Hsq H2 H2z H2f bls_g2_ok bls_u bls_a0 Htw P Q S). Qed.
Lemma g2_mul_is P k Q S : q_mul tw cc P k Q = true -> is_pt P S -> is_pt Q (gm (Zpos k) S).
Proof. exact (q_mul_ok tw cc bls_g2_noroot o inj HP mnr sq Hm Hsq H2 H2z H2f bls_g2_ok P k Q S). Qed.
Lemma g2_sum_is P Q R S S' : q_sum tw cc P Q R = true -> is_pt P S -> is_pt Q S' -> is_pt R (gadd g S S').
Proof. exact (q_sum_ok tw cc bls_g2_noroot o inj HP mnr sq Hm Hsq H2 H2z H2f bls_g2_ok P Q R S S'). Qed.
Lemma g2_act_add a P Q : act a (gadd g P Q) = gadd g (act a P) (act a Q).
Proof. exact (act_gadd g GL g2_psi g2_psi_add a P Q). Qed.

Lemma g2_gen_eigen Gen : is_pt (cc_gx cc, cc_gy cc) Gen -> g2_psi Gen = gm (- bls_xa) Gen.
Proof.
  intros A. pose proof g2_gen_chk as E. apply andb_prop in E as (E & E3). apply andb_prop in E as (E1 & E2).
  pose proof (g2_mul_is _ _ _ _ E1 A) as A1. pose proof (g2_psi_is _ _ _ E2 A) as A2. pose proof (g2_sum_is _ _ _ _ _ E3 A1 A2) as A3.
  pose proof (is_pt_uniq o2 c (inj2 inj) _ _ _ A3 A) as X.
  change (Zpos (Z.to_pos (bls_xa + 1))) with (bls_xa + 1) in X.
  apply (g_cancel_l _ GL (gm (bls_xa + 1) Gen)). refine (eq_trans X _). rewrite <- (gmul_add _ GL). symmetry.
  replace (bls_xa + 1 + - bls_xa) with 1 by lia. apply (gmul_1 _ GL).
Qed.
Lemma g2_w_killed : exists W, is_pt g2_w W /\ act bls_cc W = g0 g.
Proof.
  pose proof g2_w_chk as E. apply andb_prop in E as (E & _). apply andb_prop in E as (E & E7). apply andb_prop in E as (E & E6).
  apply andb_prop in E as (E & E5). apply andb_prop in E as (E & E4). apply andb_prop in E as (E & E3). apply andb_prop in E as (E1 & E2).
  destruct (q_on_ok tw cc bls_g2_noroot o inj HP mnr sq Hm Hsq H2 H2z H2f bls_g2_ok _ E1) as (W & A). exists W. split; [exact A|].
  pose proof (g2_psi_is _ _ _ E2 A) as A1. pose proof (g2_psi_is _ _ _ E3 A1) as A2.
  pose proof (g2_mul_is _ _ _ _ E4 A) as B1. pose proof (g2_mul_is _ _ _ _ E5 A2) as B2. pose proof (g2_mul_is _ _ _ _ E6 A1) as B3.
  pose proof (is_pt_uniq o2 c (inj2 inj) _ _ _ (g2_sum_is _ _ _ _ _ E7 B1 B2) B3) as X. clear -X GL.
  change (Zpos (Z.to_pos (bls_xa * bls_xa + bls_xa - 1))) with (bls_xa * bls_xa + bls_xa - 1) in X.
  change (Zpos (Z.to_pos (bls_xa + 1))) with (bls_xa + 1) in X.
  rewrite bls_cc_is. cbn [CofactorFacts.act]. rewrite (gmul_opp _ GL), (gmul_0 g).
  change (Zpos 2) with 2 in X. 
  set (a := gm (bls_xa * bls_xa + bls_xa - 1) W) in *. set (b := gm (bls_xa + 1) (g2_psi W)) in *. set (d := gm 2 (g2_psi (g2_psi W))) in *.
  clearbody a b d. subst b. rewrite ?(g_0_r _ GL).
  rewrite (gl_comm _ GL a), (gl_assoc _ GL). apply (g_neg_l _ GL).
Qed.
Notation indep := (q_indep tw cc bls_g2_noroot o inj HP mnr sq Hm Hsq H2 H2z H2f bls_g2_ok).
Notation eigen := (eigen_ok tw cc bls_g2_noroot o inj HP mnr sq Hm Hsq H2 H2z H2f bls_g2_ok bls_u bls_a0 Htw Hnm).
Lemma g2_23 : exists S, indep2 g 23 S (g2_psi S) /\ act bls_cc S = g0 g /\ act bls_cc (g2_psi S) = g0 g.
Proof.
  pose proof g2_23_chk as E. apply andb_prop in E as (E & E8). apply andb_prop in E as (E & E7). apply andb_prop in E as (E & E6).
  apply andb_prop in E as (E & E5). apply andb_prop in E as (E & E4). apply andb_prop in E as (E & E3). apply andb_prop in E as (E1 & E2).
  destruct g2_primes as (_ & P23 & _). destruct (indep 23%positive _ P23 E1) as (S & A & I). exists S.
  pose proof (is_pt_nz o2 c g2_HC (inj2 inj) _ _ A) as Nz.
  split; [exact (indep2_zeta12 o2 c g2_HC g2_psi g2_psi_add 23 S P23 E7 g2_psi_four Nz (proj1 I))|].
  pose proof (g2_psi_is _ _ _ E2 A) as A1. pose proof (g2_psi_is _ _ _ E3 A1) as A2.
  pose proof (g2_mul_is _ _ _ _ E4 A) as B1. pose proof (g2_mul_is _ _ _ _ E5 A1) as B2.
  pose proof (is_pt_uniq o2 c (inj2 inj) _ _ _ (g2_sum_is _ _ _ _ _ E6 B1 B2) A2) as X.
  assert (K : act bls_cc S = g0 g).
  { destruct bls_cc as [[[a0 a1] a2] a3]. apply andb_prop in E8 as (E8 & Z3). apply andb_prop in E8 as (Z1 & Z2).
    apply Z.eqb_eq in Z1, Z2, Z3. subst a3. cbn [CofactorFacts.act]. rewrite <- X, (gmul_0 g), (g_0_r _ GL), (gmul_gadd _ GL), (g_swap _ GL).
    rewrite <- !(gmul_mul _ GL), <- !(gmul_add _ GL).
    assert (K1 : gm 23 S = g0 g) by exact (proj1 I). assert (K2 : gm 23 (g2_psi S) = g0 g).
    { rewrite <- (h_mul g GL g2_psi g2_psi_add), K1. apply (h_0 g GL g2_psi g2_psi_add). }
    rewrite <- (gmul_mod _ GL 23 (a0 + _) S K1), <- (gmul_mod _ GL 23 (a1 + _) (g2_psi S) K2), Z1, Z2. apply (gl_0 _ GL). }
  split; [exact K|].
  rewrite <- (act_h g GL g2_psi S), (act_mul g GL g2_psi g2_psi_add g2_psi_four).
  replace (qt_mul bls_cc (0, 1, 0, 0)) with (qt_mul (0, 1, 0, 0) bls_cc) by (vm_compute; reflexivity).
  rewrite <- (act_mul g GL g2_psi g2_psi_add g2_psi_four), K, (act_h g GL). apply (h_0 g GL g2_psi g2_psi_add).
Qed.

Theorem bls_g2_group : exists Gen bs, is_pt (cc_gx cc, cc_gy cc) Gen
  /\ cof_group o2 c g2_HC (modulus bls12381_fr) g2_h g2_e Gen bs
  /\ g2_psi Gen = gm (- bls_xa) Gen /\ Forall (fun B => act bls_cc B = g0 g) bs.
Proof.
  destruct (q_gen tw cc bls_g2_noroot o inj HP mnr sq Hm Hsq H2 H2z H2f bls_g2_ok) as (Gen & Eg & Kg).
  pose proof g2_eigen_chk as E. pose proof g2_nums as N.
  destruct g2_primes as (P13 & P23 & P2713 & P11953 & P262069 & P448).
  apply andb_prop in E as (E & E5). apply andb_prop in E as (E & E4). apply andb_prop in E as (E & E3). apply andb_prop in E as (E1 & E2).
  apply andb_prop in N as (N & N11). apply andb_prop in N as (N & N10). apply andb_prop in N as (N & N9).
  apply andb_prop in N as (N & N8). apply andb_prop in N as (N & N7). apply andb_prop in N as (N & N6). apply andb_prop in N as (N & N5).
  apply andb_prop in N as (N & N4). apply andb_prop in N as (N & N3). apply andb_prop in N as (N1 & N2).
  destruct (eigen _ _ _ _ _ P2713 E1) as (T1 & A1 & I1 & _ & K1).
  destruct (eigen _ _ _ _ _ P11953 E2) as (T2 & A2 & I2 & _ & K2).
  destruct (eigen _ _ _ _ _ P262069 E3) as (T3 & A3 & I3 & _ & K3).
  destruct (eigen _ _ _ _ _ P13 E4) as (T5 & A5 & I5 & V5 & K5).
  destruct (eigen _ _ _ _ _ P13 E5) as (T6 & A6 & I6 & V6 & K6).
  destruct g2_23 as (T7 & I7 & K7 & K8).
  destruct g2_w_killed as (W & AW & KW).
  pose proof g2_w_chk as EW. apply andb_prop in EW as (_ & EW).
  destruct (kernel_ok tw cc bls_g2_noroot o inj HP mnr sq Hm Hsq H2 H2z H2f bls_g2_ok bls_u bls_a0 Htw Hnm bls_cc bls_cc_b bls_cc_k
    7623156010315677 g2_w bls_p448 g2_t448 W P448 bls_cc_norm eq_refl AW KW EW) as (T4 & A4 & I4 & K4).
  pose proof (fun k S => h_mul g GL g2_psi g2_psi_add k S) as HM.
  assert (S1 : subgrp g (span g [T1]) g2_s1 g2_s1).
  { exact (span_cyc g GL 2713 T1 [] 1 1 (or_introl P2713) I1 (span_nil g GL) eq_refl). }
  assert (S2 : subgrp g (span g [T2; T1]) g2_s2 g2_s2).
  { exact (span_cyc g GL 11953 T2 [T1] g2_s1 g2_s1 (or_introl P11953) I2 S1 (proj1 (Z.eqb_eq _ _) N4)). }
  assert (S3 : subgrp g (span g [T3; T2; T1]) g2_s3 g2_s3).
  { exact (span_cyc g GL 262069 T3 _ g2_s2 g2_s2 (or_introl P262069) I3 S2 (proj1 (Z.eqb_eq _ _) N5)). }
  assert (S4 : subgrp g (span g [T4; T3; T2; T1]) g2_s4 g2_s4).
  { exact (span_cyc g GL bls_p448 T4 _ g2_s3 g2_s3 (or_introl P448) I4 S3 (proj1 (Z.eqb_eq _ _) N6)). }
  assert (S5 : subgrp g (span g [T5; T6; T4; T3; T2; T1]) (13 * 13 * g2_s4) g2_s5).
  { refine (span_plane g GL 13 T5 T6 _ g2_s4 g2_s4 eq_refl _ S4 (proj1 (Z.eqb_eq _ _) N7)).
    exact (indep2_eigen g GL g2_psi 13 T5 T6 _ _ P13 (is_pt_nz o2 c g2_HC (inj2 inj) _ _ A5) (is_pt_nz o2 c g2_HC (inj2 inj) _ _ A6)
      (proj1 I5) (proj1 I6) (fun k => HM k T5) V5 V6 (not_div_of _ 13 eq_refl N11)). }
  assert (S6 : subgrp g (span g [T7; g2_psi T7; T5; T6; T4; T3; T2; T1]) (23 * 23 * (13 * 13 * g2_s4)) (23 * g2_s5)).
  { exact (span_plane g GL 23 T7 (g2_psi T7) _ (13 * 13 * g2_s4) g2_s5 eq_refl I7 S5 (proj1 (Z.eqb_eq _ _) N8)). }
  apply Z.eqb_eq in N9, N10, N3. apply Z.ltb_lt in N1. rewrite N9, N10 in S6.
  exists Gen, [T7; g2_psi T7; T5; T6; T4; T3; T2; T1]. split; [exact Eg|]. split; [|split].
  - assert (Pr : prime (modulus bls12381_fr)).
    { pose proof all_moduli_prime as M. rewrite Forall_forall in M. apply M. cbn [all_fields In]. auto 20. }
    apply (cof_group_intro o2 c g2_HC _ H2f); try assumption.
    apply (indep1_prime g GL); [exact Pr|exact (is_pt_nz o2 c g2_HC (inj2 inj) _ _ Eg)|exact Kg].
  - exact (g2_gen_eigen Gen Eg).
  - repeat (apply Forall_cons; [assumption|]). apply Forall_nil.
Qed.
End BlsG2.
