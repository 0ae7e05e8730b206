(** The group of bn256 G2. *)
From Verif Require Import Base Field SpecField Params
  Algebra Pow Tower TowerFacts FiniteField PrimeField Primality Certs Compute TowerParams TowerInst SpecCurve SpecCurveFacts Group GroupSum
  Curve CurveFacts CurveGroup CurveParams CurveCheck CurveCerts CurveInst CrateCurves Pairing PairingParams PairingLines TwistFrob CofactorFacts CurveSum
  OrderFacts PointFacts CofPoints CofCerts CofGroups CofGroups2 Props_Miller.
Local Open Scope Z_scope.

Definition bn_p177 : Z := 197620364512881247228717050342013327560683201906968909.
Definition bn_h : Z := 10069 * 5864401 * 1875725156269 * bn_p177.
Notation tw := bn256_tower (only parsing). Notation cc := bn256_g2_consts (only parsing).
Definition bn_u : Z * Z := nth 1 bn256_c12 (0, 0).
Definition bn_cc_b : quart := (-1469306990098747947464455738335385361623926168280369446177, 2203960485148121921122710229062183382962817874538213132747, 734653495049373973954148004490376659305662138295100565859, -2203960485148121921418603742825762020959382274778627105323).

Lemma bn_tw : q_tw_chk tw cc bn_u && q_norm_chk tw bn_u = true.
Proof. vm_compute. reflexivity. Qed.
Lemma bn_eigen_chk :
  eigen_chk tw cc bn_u bn_t10069 10069 bn_f10069 bn_s10069 bn_cc && eigen_chk tw cc bn_u bn_t5864401 5864401 bn_f5864401 bn_s5864401 bn_cc
  && eigen_chk tw cc bn_u bn_t1875725156269 1875725156269 bn_f1875725156269 bn_s1875725156269 bn_cc = true.
Proof. vm_compute. reflexivity. Qed.
(** [bn_cc] kills the point [bn_w] *)
Lemma bn_w_chk : q_on tw cc bn_w && (q_psi tw bn_u bn_w bn_w1 && q_psi tw bn_u bn_w1 bn_w2 && q_psi tw bn_u bn_w2 bn_w3)
  && (q_mul tw cc bn_w (Z.to_pos bn_x) bn_wa && q_psi tw bn_u bn_wa bn_wa1 && q_psi tw bn_u bn_wa1 bn_wa2)
  && (q_sum tw cc bn_wa bn_wa2 bn_ws && q_mul tw cc bn_wa1 3 bn_wb && q_sum tw cc bn_ws bn_wb bn_wn)
  && (q_sum tw cc bn_w3 bn_w bn_wc && q_sum tw cc bn_wn bn_wc bn_w)
  && q_mul tw cc bn_w 110759045130759085200961 bn_t177 = true.
Proof. vm_compute. reflexivity. Qed.
Lemma bn_cc_is : bn_cc = (bn_x, 3 * bn_x, bn_x, 1).
Proof. vm_compute. reflexivity. Qed.
Lemma bn_cc_norm : qt_mul bn_cc_b bn_cc = (bn_h, 0, 0, 0).
Proof. vm_compute. reflexivity. Qed.
Lemma bn_h_is : bn_h = 2 * modulus bn256_fq - modulus bn256_fr.
Proof. vm_compute. reflexivity. Qed.
Lemma bn_h_177 : 110759045130759085200961 * bn_p177 = bn_h.
Proof. vm_compute. reflexivity. Qed.
Definition bn_b1 : Z := 10069 * 1.
Definition bn_b2 : Z := 5864401 * bn_b1.
Definition bn_b3 : Z := 1875725156269 * bn_b2.
Lemma bn_nums :
  (2 * (modulus bn256_fq * modulus bn256_fq) + 1 <? 3 * (modulus bn256_fr * bn_h)) && Z.odd (modulus bn256_fr * bn_h)
  && (Z.gcd (modulus bn256_fr) bn_h =? 1)
  && (Z.gcd 5864401 bn_b1 =? 1) && (Z.gcd 1875725156269 bn_b2 =? 1) && (Z.gcd bn_p177 bn_b3 =? 1)
  && (bn_p177 * bn_b3 =? bn_h) = true.
Proof. vm_compute. reflexivity. Qed.
Lemma bn_primes : prime 10069 /\ prime 5864401 /\ prime 1875725156269 /\ prime bn_p177.
Proof. split; [|split; [|split]]; apply cof_prime; vm_compute; reflexivity. Qed.

Section BnG2.
Context {F : Type} (o : fops F) (inj : Z -> F) (HP : prime_field (modulus bn256_fq) o inj).
Let T := bn256_tower_facts o inj HP.
Let o2 := bn256_fq2 o.
Let mnr := mnr_neg o.
Let sq := quad_square_complex o.
Let Hm := mnr_neg_inj o inj _ HP : forall x, mnr x = fmul o (inj (t_beta tw)) x.
Let Hsq := sq_complex o inj _ HP : forall a, sq a = quad_mul o mnr a a.
Let H2 := tf_2 _ _ _ _ _ T : field_laws o2.
Let H2z := tf_2z _ _ _ _ _ T : is0_law o2.
Let H2f := tf_2fin _ _ _ _ _ T : finite_field o2 (modulus bn256_fq * modulus bn256_fq).
Let c := curve_of o2 (inj2 inj) cc.
Definition bn2_HC : curve_laws o2 c := quad_curve_laws tw cc bn256_g2_noroot o inj HP mnr sq Hm Hsq H2 H2z H2f bn256_g2_ok.
Let GL := cpt_laws o2 c bn2_HC.
Notation g := (cpt_ops o2 c bn2_HC).
Notation gm := (gmul g).
Notation is_pt := (is_pt o2 c (inj2 inj)).
Lemma bn_a0 : cc_a cc = (0, 0).
Proof. reflexivity. Qed.
Let Htw := proj1 (andb_prop _ _ bn_tw).
Let Hnm := proj2 (andb_prop _ _ bn_tw).
Definition bn2_psi : cpt o2 c -> cpt o2 c := qpsi tw cc bn256_g2_noroot o inj HP mnr sq Hm Hsq H2 H2z H2f bn256_g2_ok bn_u bn_a0 Htw.
Notation act := (act g bn2_psi).
Lemma bn2_psi_add P Q : bn2_psi (gadd g P Q) = gadd g (bn2_psi P) (bn2_psi Q).
Proof. exact (qpsi_add tw cc bn256_g2_noroot o inj HP mnr sq Hm Hsq H2 H2z H2f bn256_g2_ok bn_u bn_a0 Htw P Q). Qed.
Lemma bn2_psi_four P : gadd g (bn2_psi (bn2_psi (bn2_psi (bn2_psi P)))) P = bn2_psi (bn2_psi P).
Proof. exact (qpsi_four tw cc bn256_g2_noroot o inj HP mnr sq Hm Hsq H2 H2z H2f bn256_g2_ok bn_u bn_a0 Htw Hnm P). Qed.
Lemma bn2_psi_is P Q S : q_psi tw bn_u P Q = true -> is_pt P S -> is_pt Q (bn2_psi S).
Proof. exact (qpsi_is tw cc bn256_g2_noroot o inj HP mnr sq Hm Hsq H2 H2z H2f bn256_g2_ok bn_u bn_a0 Htw P Q S). Qed.
Lemma bn2_mul_is P k Q S : q_mul tw cc P k Q = true -> is_pt P S -> is_pt Q (gm (Zpos k) S).
Proof. exact (q_mul_ok tw cc bn256_g2_noroot o inj HP mnr sq Hm Hsq H2 H2z H2f bn256_g2_ok P k Q S). Qed.
Lemma bn2_sum_is P Q R S S' : q_sum tw cc P Q R = true -> is_pt P S -> is_pt Q S' -> is_pt R (gadd g S S').
Proof. exact (q_sum_ok tw cc bn256_g2_noroot o inj HP mnr sq Hm Hsq H2 H2z H2f bn256_g2_ok P Q R S S'). Qed.
Lemma bn2_act_add a P Q : act a (gadd g P Q) = gadd g (act a P) (act a Q).
Proof. exact (act_gadd g GL bn2_psi bn2_psi_add a P Q). Qed.


Lemma bn_gen_eigen Gen : is_pt (cc_gx cc, cc_gy cc) Gen -> bn2_psi Gen = gm (modulus bn256_fq mod modulus bn256_fr) Gen.
Proof.
  intros A. destruct (psi_facts bn256_tower bn256_g2_consts bn256_g2_noroot o inj HP mnr sq Hm Hsq H2 H2z H2f bn256_g2_ok
    _ _ bn256_psi_ok) as (_ & _ & E).
  apply cpt_ext. rewrite (gmul_pt o2 c bn2_HC). unfold PointFacts.is_pt in A. cbn [fst snd] in A. rewrite A.
  refine (eq_trans _ E). unfold bn2_psi, qpsi, hpsi. cbn [mkpt proj1_sig]. exact (f_equal _ A).
Qed.
Lemma bn_w_killed : exists W, is_pt bn_w W /\ act bn_cc W = g0 g.
Proof.
  pose proof bn_w_chk as E. apply andb_prop in E as (E & _). apply andb_prop in E as (E & E5). apply andb_prop in E as (E & E4).
  apply andb_prop in E as (E & E3). apply andb_prop in E as (E1 & E2).
  apply andb_prop in E2 as (E2 & P3). apply andb_prop in E2 as (P1 & P2).
  apply andb_prop in E3 as (E3 & Q2). apply andb_prop in E3 as (M1 & Q1).
  apply andb_prop in E4 as (E4 & S2). apply andb_prop in E4 as (S1 & M3).
  apply andb_prop in E5 as (S3 & S4).
  destruct (q_on_ok tw cc bn256_g2_noroot o inj HP mnr sq Hm Hsq H2 H2z H2f bn256_g2_ok _ E1) as (W & A). exists W. split; [exact A|].
  pose proof (bn2_psi_is _ _ _ P1 A) as A1. pose proof (bn2_psi_is _ _ _ P2 A1) as A2. pose proof (bn2_psi_is _ _ _ P3 A2) as A3.
  pose proof (bn2_mul_is _ _ _ _ M1 A) as B0. change (Zpos (Z.to_pos bn_x)) with bn_x in B0.
  pose proof (bn2_psi_is _ _ _ Q1 B0) as B1. pose proof (bn2_psi_is _ _ _ Q2 B1) as B2.
  pose proof (bn2_mul_is _ _ _ _ M3 B1) as B3.
  pose proof (bn2_sum_is _ _ _ _ _ S2 (bn2_sum_is _ _ _ _ _ S1 B0 B2) B3) as D1.
  pose proof (is_pt_uniq o2 c (inj2 inj) _ _ _ (bn2_sum_is _ _ _ _ _ S4 D1 (bn2_sum_is _ _ _ _ _ S3 A3 A)) A) as X.
  clear -X GL. change (Zpos 3) with 3 in X.
  pose proof (fun k S => h_mul g GL bn2_psi bn2_psi_add k S) as HM. rewrite !HM in X. rewrite <- (gmul_mul _ GL) in X.
  rewrite bn_cc_is. cbn [CofactorFacts.act]. rewrite (gmul_1 _ GL).
  set (w3 := bn2_psi (bn2_psi (bn2_psi W))) in *. set (a := gm bn_x W) in *. set (b := gm (3 * bn_x) (bn2_psi W)) in *. set (d := gm bn_x (bn2_psi (bn2_psi W))) in *.
  clearbody a b d w3. rewrite <- (gl_assoc _ GL) in X. rewrite <- (gl_0 _ GL W) in X at 2. apply (g_cancel_r _ GL) in X. rewrite <- X.
  rewrite !(gl_assoc _ GL). f_equal. rewrite <- !(gl_assoc _ GL). f_equal. apply (gl_comm _ GL).
Qed.
Notation eigen := (eigen_ok tw cc bn256_g2_noroot o inj HP mnr sq Hm Hsq H2 H2z H2f bn256_g2_ok bn_u bn_a0 Htw Hnm).

Theorem bn256_g2_group : exists Gen bs, is_pt (cc_gx cc, cc_gy cc) Gen
  /\ cof_group o2 c bn2_HC (modulus bn256_fr) bn_h bn_h Gen bs
  /\ bn2_psi Gen = gm (modulus bn256_fq mod modulus bn256_fr) Gen /\ Forall (fun B => act bn_cc B = g0 g) bs.
Proof.
  destruct (q_gen tw cc bn256_g2_noroot o inj HP mnr sq Hm Hsq H2 H2z H2f bn256_g2_ok) as (Gen & Eg & Kg).
  pose proof bn_eigen_chk as E. pose proof bn_nums as N.
  destruct bn_primes as (Pa & Pb & Pc & Pd).
  apply andb_prop in E as (E & E3). apply andb_prop in E as (E1 & E2).
  apply andb_prop in N as (N & N7). apply andb_prop in N as (N & N6). apply andb_prop in N as (N & N5).
  apply andb_prop in N as (N & N4). apply andb_prop in N as (N & N3). apply andb_prop in N as (N1 & N2).
  destruct (eigen _ _ _ _ _ Pa E1) as (T1 & A1 & I1 & _ & K1).
  destruct (eigen _ _ _ _ _ Pb E2) as (T2 & A2 & I2 & _ & K2).
  destruct (eigen _ _ _ _ _ Pc E3) as (T3 & A3 & I3 & _ & K3).
  destruct bn_w_killed as (W & AW & KW).
  pose proof bn_w_chk as EW. apply andb_prop in EW as (_ & EW).
  destruct (kernel_ok tw cc bn256_g2_noroot o inj HP mnr sq Hm Hsq H2 H2z H2f bn256_g2_ok bn_u bn_a0 Htw Hnm bn_cc bn_cc_b bn_h
    110759045130759085200961 bn_w bn_p177 bn_t177 W Pd bn_cc_norm bn_h_177 AW KW EW) as (T4 & A4 & I4 & K4).
  assert (S1 : subgrp g (span g [T1]) bn_b1 bn_b1).
  { exact (span_cyc g GL 10069 T1 [] 1 1 (or_introl Pa) I1 (span_nil g GL) eq_refl). }
  assert (S2 : subgrp g (span g [T2; T1]) bn_b2 bn_b2).
  { exact (span_cyc g GL 5864401 T2 [T1] bn_b1 bn_b1 (or_introl Pb) I2 S1 (proj1 (Z.eqb_eq _ _) N4)). }
  assert (S3 : subgrp g (span g [T3; T2; T1]) bn_b3 bn_b3).
  { exact (span_cyc g GL 1875725156269 T3 _ bn_b2 bn_b2 (or_introl Pc) I3 S2 (proj1 (Z.eqb_eq _ _) N5)). }
  assert (S4 : subgrp g (span g [T4; T3; T2; T1]) (bn_p177 * bn_b3) (bn_p177 * bn_b3)).
  { exact (span_cyc g GL bn_p177 T4 _ bn_b3 bn_b3 (or_introl Pd) I4 S3 (proj1 (Z.eqb_eq _ _) N6)). }
  apply Z.eqb_eq in N7, N3. apply Z.ltb_lt in N1. rewrite N7 in S4.
  exists Gen, [T4; T3; T2; T1]. split; [exact Eg|]. split; [|split].
  - assert (Pr : prime (modulus bn256_fr)).
    { pose proof all_moduli_prime as M. rewrite Forall_forall in M. apply M. cbn [all_fields In]. auto 20. }
    apply (cof_group_intro o2 c bn2_HC _ H2f); try assumption.
    apply (indep1_prime g GL); [exact Pr|exact (is_pt_nz o2 c bn2_HC (inj2 inj) _ _ Eg)|exact Kg].
  - exact (bn_gen_eigen Gen Eg).
  - repeat (apply Forall_cons; [assumption|]). apply Forall_nil.
Qed.
End BnG2.
