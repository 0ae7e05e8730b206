(** Miller's algorithm, raised to a power that kills the vertical lines, is additive in
    both arguments. *)
From Coq Require Import Permutation.
From Verif Require Import Base Algebra Pow Tower TowerFacts FiniteField Compute SpecCurve SpecCurveFacts SpecPairing PairingLines Divisors.
Local Open Scope Z_scope.

Ltac psolve := cbn [app]; repeat match goal with
  | |- Permutation [] [] => constructor
  | |- Permutation (?x :: _) (?x :: _) => apply perm_skip
  | |- Permutation (?x :: _) _ => refine (Permutation_trans _ (Permutation_sym (Permutation_cons_append _ _))); cbn [app]
  end.

Section Bil.
Context {F : Type} (o : fops F) (a b : F) (H : field_laws o).
Hypothesis H2 : fadd o (f1 o) (f1 o) <> f0 o.
Hypothesis Hns : forall x, fadd o (fadd o (fmul o (fmul o x x) x) (fmul o a x)) b = f0 o ->
  fadd o (fmul o (fadd o (fadd o (f1 o) (f1 o)) (f1 o)) (fmul o x x)) a <> f0 o.
Infix "+" := (fadd o) : Fs. Infix "-" := (fsub o) : Fs. Infix "*" := (fmul o) : Fs.
Delimit Scope Fs with F.
Notation "0" := (f0 o) : Fs. Notation "1" := (f1 o) : Fs. Notation "- x" := (fneg o x) : Fs.
Notation on := (on_curve o a b). Notation add := (pt_add o a). Notation neg := (pt_neg o).
Notation line := (line o a).
Let HR := fl_rl _ H.
Add Ring RB : (rl_ring _ HR).

(** The final exponent and the Frobenius map. *)
Context (e r p : Z) (pi : F -> F).
Hypothesis He : 0 < e.
Hypothesis Hr : 0 < r.
Hypothesis Hp : 0 <= p.
Definition chi (x : F) : F := fpowz o x e.
Hypothesis chi_r : forall x, x <> f0 o -> fpowz o (chi x) r = f1 o.
Hypothesis chi_m1 : chi (fneg o (f1 o)) = f1 o.
Hypothesis pi_pow : forall x, pi x = fpowz o x p.
Hypothesis pi_hom : fhom o o pi.

Lemma chi_mul x y : chi (x * y)%F = (chi x * chi y)%F.
Proof. apply (fpowz_mul_base o HR). Qed.
Lemma chi_1 : chi 1%F = 1%F.
Proof. apply (fpowz_one o HR). Qed.
Lemma chi_0 : chi 0%F = 0%F.
Proof. apply (fpowz_zero o HR). exact He. Qed.
Lemma chi_nz x : x <> 0%F -> chi x <> 0%F.
Proof. apply (fpowz_nonzero o H). Qed.
Lemma chi_prod l : chi (fprod o l) = fprod o (map chi l).
Proof.
  induction l as [|x l IH]; [exact chi_1|]. change (chi (x * fprod o l)%F = (chi x * fprod o (map chi l))%F).
  rewrite chi_mul, IH. reflexivity.
Qed.
Lemma chi_pi x : chi (pi x) = fpowz o (chi x) p.
Proof. unfold chi. rewrite pi_pow, <- !(fpowz_mul o HR), Z.mul_comm by lia. reflexivity. Qed.
Lemma chi_sg s : chi (sg o s) = 1%F.
Proof. destruct s; [exact chi_m1|exact chi_1]. Qed.

(** Powers of a root of unity of order r only depend on the exponent modulo r. *)
Lemma pow_mod x m n : 0 <= m -> 0 <= n -> fpowz o x r = 1%F -> (m - n) mod r = 0 -> fpowz o x m = fpowz o x n.
Proof.
  intros hm hn Er Em.
  assert (X : forall k, 0 <= k -> fpowz o x k = fpowz o x (k mod r)).
  { intros k hk. rewrite (Z.div_mod k r) at 1 by lia. pose proof (Z.mod_pos_bound k r Hr). pose proof (Z.div_pos k r hk Hr).
    rewrite (fpowz_add o HR), (fpowz_mul o HR), Er, (fpowz_one o HR) by (try apply Z.mul_nonneg_nonneg; lia). ring. }
  rewrite (X m), (X n) by assumption. f_equal.
  apply Z.mod_divide in Em; [|lia]. destruct Em as (q & Eq). replace m with (n + q * r) by lia. apply Z.mod_add. lia.
Qed.
Lemma pow_pred x n : 1 <= n -> fpowz o x n = (fpowz o x (n + -1) * x)%F.
Proof. intros hn. replace n with (n + -1 + 1) at 1 by lia. rewrite (fpowz_succ o HR) by lia. ring. Qed.
Lemma inv_pow x y : fpowz o x r = 1%F -> (x * y = 1)%F -> y = fpowz o x (r - 1).
Proof.
  intros Er E. transitivity (y * fpowz o x (r - 1 + 1))%F.
  - replace (r - 1 + 1) with r by lia. rewrite Er. ring.
  - rewrite (fpowz_succ o HR) by lia. transitivity ((x * y) * fpowz o x (r - 1))%F; [ring|]. rewrite E. ring.
Qed.

(** ** Maps built from the Frobenius map and negation *)
Definition prim (u : bool) (T : point (F := F)) : point := if u then pt_map pi T else neg T.
Fixpoint act (us : list bool) (T : point) : point := match us with [] => T | u :: us' => prim u (act us' T) end.
Definition cact (us : list bool) : Z := fold_right (fun u c => (if u : bool then p else r - 1) * c) 1 us.
Lemma cact_nonneg us : 0 <= cact us.
Proof.
  induction us as [|u us IH]; [cbn; lia|]. change (0 <= (if u then p else r - 1) * cact us). apply Z.mul_nonneg_nonneg; [|exact IH].
  destruct u; lia.
Qed.

Lemma pi_inj x y : pi x = pi y -> x = y.
Proof. exact (phi_inj o o H H pi pi_hom x y). Qed.
Lemma pi_quot n d : d <> 0%F -> pi (quot o n d) = quot o (pi n) (pi d).
Proof.
  intros Hd. assert (D : pi d <> 0%F). { intros E. apply Hd. apply pi_inj. rewrite E. symmetry. apply (fh_0 _ _ _ pi_hom). }
  apply (mul_cancel_l o H (pi d)); [exact D|]. transitivity (pi (quot o n d * d)%F).
  - rewrite (fh_mul _ _ _ pi_hom). ring.
  - rewrite (quot_mul o H _ _ Hd). transitivity (quot o (pi n) (pi d) * pi d)%F; [rewrite (quot_mul o H _ _ D); reflexivity|ring].
Qed.
Lemma pi_eqb x y : feqb o (pi x) (pi y) = feqb o x y.
Proof.
  destruct (feqb o x y) eqn:E.
  - apply (fl_eqb _ H) in E. subst. apply (feqb_refl o H).
  - apply (feqb_false o H) in E. apply (feqb_false o H). intros K. apply E. exact (pi_inj _ _ K).
Qed.
Hypothesis pi_a : pi a = a.
Lemma line_pi A B X Y : on A -> on B -> line (pt_map pi A) (pt_map pi B) (pi X) (pi Y) = pi (line A B X Y).
Proof.
  intros hA hB. pose proof (fh_sub _ _ _ pi_hom) as Es. pose proof (fh_mul _ _ _ pi_hom) as Em. pose proof (fh_add _ _ _ pi_hom) as Ea.
  destruct A as [[x1 y1]|], B as [[x2 y2]|]; cbn [pt_map SpecPairing.line]; rewrite ?Es; try reflexivity.
  - rewrite <- (fh_neg _ _ _ pi_hom), !pi_eqb. destruct (feqb o x1 x2) eqn:Ex.
    + destruct (feqb o y1 (fneg o y2)) eqn:Ey; [symmetry; apply Es|].
      rewrite !Es, Em, Es. f_equal. f_equal. rewrite pi_quot.
      * rewrite !Ea, !Em, !Ea, !(fh_1 _ _ _ pi_hom), pi_a. reflexivity.
      * apply (fl_eqb _ H) in Ex. subst x2. apply (feqb_false o H) in Ey. cbn [on_curve] in hA, hB.
        apply (mul_nonzero o H); [exact H2|]. intros Y0. apply Ey. rewrite Y0. symmetry. apply (neg_zero_iff o H).
        apply (sqr_zero o H). rewrite hB, <- hA, Y0. ring.
    + rewrite !Es, Em, Es. f_equal. f_equal. rewrite pi_quot, !Es; [reflexivity|]. apply (feqb_false o H) in Ex.
      apply (diff_nz o H). congruence.
  - symmetry. apply (fh_1 _ _ _ pi_hom).
Qed.

(** ** The subgroup of the second arguments *)
Context (G : point (F := F) -> Prop).
Hypothesis G_on : forall T, G T -> on T.
Hypothesis G_none : G None.
Hypothesis G_add : forall S T, G S -> G T -> G (add S T).
Hypothesis G_neg : forall T, G T -> G (neg T).
Hypothesis G_pi : forall T, G T -> G (pt_map pi T).
Hypothesis pi_add : forall S T, G S -> G T -> pt_map pi (add S T) = add (pt_map pi S) (pt_map pi T).

Lemma act_G us T : G T -> G (act us T).
Proof. intros h. induction us as [|[] us IH]; cbn [act prim]; auto. Qed.
Lemma act_add us S T : G S -> G T -> act us (add S T) = add (act us S) (act us T).
Proof.
  intros hS hT. induction us as [|u us IH]; [reflexivity|]. cbn [act]. rewrite IH. destruct u; cbn [prim].
  - apply pi_add; apply act_G; assumption.
  - apply (neg_add o a b H H2); apply G_on; apply act_G; assumption.
Qed.

(** ** The product of lines *)
Fixpoint tail (us : list (list bool)) (Q : point) (X Y f : F) (T : point) : F * point :=
  match us with [] => (f, T) | u :: us' => tail us' Q X Y (f * line T (act u Q) X Y)%F (add T (act u Q)) end.
Definition ml (ds : list Z) (us : list (list bool)) (Q : point) (X Y : F) : F * point :=
  let '(f, T) := miller_digits o a ds Q X Y (f1 o) Q in tail us Q X Y f T.
Definition value (ds : list Z) (us : list (list bool)) (P Q : point) : F :=
  match P with None => f1 o | Some (X, Y) => chi (fst (ml ds us Q X Y)) end.
Definition digit (d : Z) : Prop := d = 1 \/ d = 0 \/ d = -1.

(** Exponents: the digits, then the tail. *)
Definition dig_exp (ds : list Z) (n : Z) : Z := fold_left (fun n d => 2 * n + d) ds n.
Definition tail_exp (us : list (list bool)) (n : Z) : Z := fold_left (fun n u => n + cact u) us n.
Lemma dig_exp_pos ds : Forall digit ds -> forall n, 1 <= n -> 1 <= dig_exp ds n.
Proof.
  induction 1 as [|d ds Hd Hds IH]; intros n hn; cbn [dig_exp fold_left]; [exact hn|]. apply IH. destruct Hd as [-> | [-> | ->]]; lia.
Qed.
Lemma tail_exp_pos us : forall n, 0 <= n -> 0 <= tail_exp us n.
Proof.
  induction us as [|u us IH]; intros n hn; cbn [tail_exp fold_left]; [exact hn|]. apply IH. pose proof (cact_nonneg u). lia.
Qed.

Context (ds : list Z) (us : list (list bool)) (w : list bool).
Hypothesis Hds : Forall digit ds.
Hypothesis Hw : forall Q, G Q -> forall X Y, snd (ml ds us Q X Y) = act w Q.
Hypothesis Hexp : (tail_exp us (dig_exp ds 1) - cact w) mod r = 0.

(** ** Linearity in the first argument *)
Section First.
Context (P1 P2 : point (F := F)).
Hypothesis h1 : on P1.
Hypothesis h2 : on P2.
Hypothesis P1_pi : pt_map pi P1 = P1.
Hypothesis P2_pi : pt_map pi P2 = P2.
Let P3 := neg (add P1 P2).
Let zm := somes [P1; P2; P3].
Hypothesis HV : forall z x y, In z zm -> G (Some (x, y)) -> chi (fst z - x)%F = 1%F.
Let mu (T : point (F := F)) : F := match T with None => 1%F | Some (x, y) => chi (line P1 P2 x y) end.
Let Psi (f : F * F -> F) : F := chi (fprod o (map f zm)).
Lemma Psi_mul f g : Psi (fun z => f z * g z)%F = (Psi f * Psi g)%F.
Proof. unfold Psi. rewrite (fprod_map_mul2 o H), chi_mul. reflexivity. Qed.
Lemma Psi_ext f g : (forall z, f z = g z) -> Psi f = Psi g.
Proof. intros E. unfold Psi. f_equal. f_equal. apply map_ext. exact E. Qed.
Lemma Psi_one : Psi (fun _ => 1%F) = 1%F.
Proof. unfold Psi. rewrite (fprod_map_one o H). exact chi_1. Qed.

Lemma mu_neg T : G T -> (mu T * mu (neg T) = 1)%F.
Proof.
  intros hT. destruct T as [[x y]|]; [|cbn; ring]. cbn [pt_neg mu].
  destruct (line_div o a b H H2 P1 P2 h1 h2) as (fl & zs & E & Hf & Ez & _).
  rewrite !E, <- chi_mul. pose proof (G_on _ hT) as O. cbn [on_curve] in O.
  pose proof (recip_ff o a b H _ _ _ _ Hf (fz_one o a b _ _ (lz_V o a b x y O))) as R.
  change (Nat.odd (length [(x, y); (x, fneg o y)])) with false in R. rewrite Bool.andb_false_r in R. cbn [sg] in R.
  transitivity (chi (fprod o (map (feval o fl) [(x, y); (x, fneg o y)]))).
  { f_equal. cbn [map fprod fold_right]. ring. }
  rewrite R, chi_mul, chi_1, chi_prod, map_map, Ez. fold zm.
  assert (X : forall l, (forall z, In z l -> In z zm) -> fprod o (map (fun z => chi (feval o [Vt x] z)) l) = 1%F).
  { induction l as [|z l IH]; intros I; [reflexivity|].
    change (chi (feval o [Vt x] z) * fprod o (map (fun z => chi (feval o [Vt x] z)) l) = 1)%F.
    rewrite IH by (intros z' I'; apply I; right; exact I').
    replace (feval o [Vt x] z) with (fst z - x)%F by (unfold feval; cbn [map fprod fold_right leval]; ring).
    rewrite (HV z x y (I z (or_introl eq_refl)) hT). ring. }
  unfold zm, P3 in X. rewrite X; [ring|]. auto.
Qed.
Lemma mu_r T : G T -> fpowz o (mu T) r = 1%F.
Proof.
  intros hT. destruct T as [[x y]|]; [|apply (fpowz_one o HR)]. cbn [mu]. apply chi_r. intros E0.
  destruct (line_div o a b H H2 P1 P2 h1 h2) as (fl & zs & E & Hf & Ez & _). rewrite E in E0.
  pose proof (fz_zero o a b H _ _ _ Hf (G_on _ hT) E0) as I. rewrite Ez in I.
  pose proof (HV (x, y) x y I hT) as C. cbn [fst] in C. replace (x - x)%F with 0%F in C by ring. rewrite chi_0 in C.
  exact (fl_1_0 _ H (eq_sym C)).
Qed.
Lemma mu_pi T : G T -> mu (pt_map pi T) = fpowz o (mu T) p.
Proof.
  intros hT. destruct T as [[x y]|]; cbn [pt_map mu]; [|symmetry; apply (fpowz_one o HR)].
  rewrite <- P1_pi at 1. rewrite <- P2_pi at 1. rewrite line_pi by assumption. apply chi_pi.
Qed.
Lemma mu_act u T : G T -> mu (act u T) = fpowz o (mu T) (cact u).
Proof.
  intros hT. induction u as [|c u IH]; [symmetry; apply (fpowz_1 o HR) || reflexivity|].
  cbn [act]. pose proof (act_G u T hT) as hu. pose proof (cact_nonneg u) as N.
  change (cact (c :: u)) with ((if c then p else r - 1) * cact u). rewrite Z.mul_comm, (fpowz_mul o HR), <- IH by (destruct c; lia).
  destruct c; cbn [prim]; [apply mu_pi; exact hu|]. apply inv_pow; [apply mu_r; exact hu|apply mu_neg; exact hu].
Qed.
Lemma Psi_line A B : G A -> G B -> (Psi (fun z => line A B (fst z) (snd z)) * mu (add A B) = mu A * mu B)%F.
Proof.
  intros hA hB. destruct (line_div o a b H H2 P1 P2 h1 h2) as (fl & zs & E & Hf & Ez & _).
  destruct (line_div o a b H H2 A B (G_on _ hA) (G_on _ hB)) as (fm & zn & E' & Hm & En & _).
  assert (EP : Psi (fun z => line A B (fst z) (snd z)) = (mu A * mu B * mu (neg (add A B)))%F).
  { transitivity (Psi (feval o fm)); [apply Psi_ext; intros [x y]; apply E'|]. unfold Psi, zm, P3. rewrite <- Ez.
    rewrite (recip_ff o a b H _ _ _ _ Hm Hf), chi_mul, chi_sg, chi_prod, map_map, En.
    assert (X : forall L, fprod o (map (fun z => chi (feval o fl z)) (somes L)) = fprod o (map mu L)).
    { induction L as [|[[x y]|] L IH]; [reflexivity|..]; cbn [somes flat_map app map].
      - change (chi (feval o fl (x, y)) * fprod o (map (fun z => chi (feval o fl z)) (somes L)) = chi (line P1 P2 x y) * fprod o (map mu L))%F.
        rewrite IH, E. reflexivity.
      - change (fprod o (map (fun z => chi (feval o fl z)) (somes L)) = 1 * fprod o (map mu L))%F. rewrite IH. ring. }
    rewrite X. cbn [map fprod fold_right]. ring. }
  rewrite EP. transitivity (mu A * mu B * (mu (add A B) * mu (neg (add A B))))%F; [ring|].
  rewrite mu_neg by (apply G_add; assumption). ring.
Qed.

Section Fixed.
Context (Q : point (F := F)) (hQ : G Q).
Lemma dig_first l : Forall digit l -> forall f T n, 1 <= n -> G T -> (Psi f * mu T = fpowz o (mu Q) n)%F ->
  exists S, G S /\ (forall z, snd (miller_digits o a l Q (fst z) (snd z) (f z) T) = S) /\
    (Psi (fun z => fst (miller_digits o a l Q (fst z) (snd z) (f z) T)) * mu S = fpowz o (mu Q) (dig_exp l n))%F.
Proof.
  induction 1 as [|d l Hd Hl IH]; intros f T n hn hT E.
  { exists T. split; [exact hT|]. split; [reflexivity|exact E]. }
  pose proof (G_add _ _ hT hT) as hTT.
  assert (E2 : (Psi (fun z => f z * f z * line T T (fst z) (snd z)) * mu (add T T) = fpowz o (mu Q) (2 * n))%F).
  { rewrite (Psi_mul (fun z => (f z * f z)%F)), (Psi_mul f f).
    transitivity (Psi f * Psi f * (Psi (fun z => line T T (fst z) (snd z)) * mu (add T T)))%F; [ring|].
    rewrite Psi_line by assumption. transitivity ((Psi f * mu T) * (Psi f * mu T))%F; [ring|]. rewrite E.
    rewrite <- (fpowz_add o HR) by lia. f_equal. lia. }
  destruct Hd as [-> | [-> | ->]]; cbn [miller_digits]; cbv zeta; change (0 =? 1) with false; change (0 =? -1) with false;
    change (-1 =? 1) with false; change (1 =? 1) with true; change (-1 =? -1) with true; cbv iota;
    cbn [dig_exp fold_left].
  - apply IH; [lia|apply G_add; assumption|].
    rewrite (Psi_mul (fun z => (f z * f z * line T T (fst z) (snd z))%F)).
    transitivity (Psi (fun z => f z * f z * line T T (fst z) (snd z))%F * (Psi (fun z => line (add T T) Q (fst z) (snd z)) * mu (add (add T T) Q)))%F; [ring|].
    rewrite Psi_line by assumption. rewrite (fpowz_succ o HR), <- E2 by lia. ring.
  - replace (2 * n + 0) with (2 * n) by lia. apply IH; [lia|assumption|exact E2].
  - pose proof (G_neg _ hQ) as hN. apply IH; [lia|apply G_add; assumption|].
    rewrite (Psi_mul (fun z => (f z * f z * line T T (fst z) (snd z))%F)).
    transitivity (Psi (fun z => f z * f z * line T T (fst z) (snd z))%F * (Psi (fun z => line (add T T) (neg Q) (fst z) (snd z)) * mu (add (add T T) (neg Q))))%F; [ring|].
    rewrite Psi_line by assumption. transitivity (fpowz o (mu Q) (2 * n) * mu (neg Q))%F; [rewrite <- E2; ring|].
    rewrite (pow_pred (mu Q) (2 * n)) by lia.
    transitivity (fpowz o (mu Q) (2 * n + -1) * (mu Q * mu (neg Q)))%F; [ring|]. rewrite mu_neg by exact hQ. ring.
Qed.
Lemma tail_first l : forall f T n, 0 <= n -> G T -> (Psi f * mu T = fpowz o (mu Q) n)%F ->
  exists S, G S /\ (forall z, snd (tail l Q (fst z) (snd z) (f z) T) = S) /\
    (Psi (fun z => fst (tail l Q (fst z) (snd z) (f z) T)) * mu S = fpowz o (mu Q) (tail_exp l n))%F.
Proof.
  induction l as [|u l IH]; intros f T n hn hT E.
  { exists T. split; [exact hT|]. split; [reflexivity|exact E]. }
  pose proof (act_G u Q hQ) as hu. cbn [tail tail_exp fold_left].
  apply IH; [pose proof (cact_nonneg u); lia|apply G_add; assumption|].
  rewrite (Psi_mul f). transitivity (Psi f * (Psi (fun z => line T (act u Q) (fst z) (snd z)) * mu (add T (act u Q))))%F; [ring|].
  rewrite Psi_line, mu_act by assumption. rewrite (fpowz_add o HR), <- E by (assumption || apply cact_nonneg). ring.
Qed.
Theorem first_one : Psi (fun z => fst (ml ds us Q (fst z) (snd z))) = 1%F.
Proof.
  destruct (dig_first ds Hds (fun _ => 1%F) Q 1) as (S & hS & ES & E); [lia|exact hQ|rewrite Psi_one, (fpowz_1 o); ring|].
  pose proof (dig_exp_pos ds Hds 1 ltac:(lia)) as N.
  destruct (tail_first us _ S _ (Z.le_trans 0 1 _ ltac:(lia) N) hS E) as (S' & hS' & ES' & E').
  assert (EW : zm = [] \/ S' = act w Q).
  { destruct zm as [|z zm']; [left; reflexivity|right]. rewrite <- (ES' z), <- (Hw Q hQ (fst z) (snd z)). unfold ml.
    pose proof (ES z) as Ez. destruct (miller_digits o a ds Q (fst z) (snd z) (f1 o) Q) as [g T0]. cbn [fst snd] in Ez |- *. subst T0. reflexivity. }
  destruct EW as [EW|EW]. { unfold Psi. rewrite EW. exact chi_1. }
  rewrite EW, mu_act in E' by exact hQ.
  rewrite (pow_mod _ (tail_exp us (dig_exp ds 1)) (cact w)) in E'; [|apply tail_exp_pos; lia|apply cact_nonneg|apply mu_r; exact hQ|exact Hexp].
  assert (NZ : fpowz o (mu Q) (cact w) <> 0%F).
  { apply (fpowz_nonzero o H). intros Z. pose proof (mu_r Q hQ) as R. rewrite Z, (fpowz_zero o HR) in R by exact Hr.
    exact (fl_1_0 _ H (eq_sym R)). }
  transitivity (Psi (fun z => fst (tail us Q (fst z) (snd z) (fst (miller_digits o a ds Q (fst z) (snd z) (f1 o) Q)) S))).
  - apply Psi_ext. intros z. unfold ml. pose proof (ES z) as Ez.
    destruct (miller_digits o a ds Q (fst z) (snd z) (f1 o) Q) as [g T0]. cbn [fst snd] in Ez |- *. subst T0. reflexivity.
  - apply (mul_cancel_l o H _ _ _ NZ). transitivity (fpowz o (mu Q) (cact w)); [rewrite <- E' at 2; ring|ring].
Qed.
Theorem first_value : (value ds us P1 Q * value ds us P2 Q * value ds us P3 Q = 1)%F.
Proof.
  pose proof first_one as E. unfold Psi in E. rewrite chi_prod, map_map in E.
  assert (X : forall L, fprod o (map (fun z => chi (fst (ml ds us Q (fst z) (snd z)))) (somes L)) = fprod o (map (fun P => value ds us P Q) L)).
  { induction L as [|[[x y]|] L IH]; [reflexivity|..]; cbn [somes flat_map app map].
    - change (chi (fst (ml ds us Q x y)) * fprod o (map (fun z => chi (fst (ml ds us Q (fst z) (snd z)))) (somes L))
        = chi (fst (ml ds us Q x y)) * fprod o (map (fun P => value ds us P Q) L))%F. rewrite IH. reflexivity.
    - change (fprod o (map (fun z => chi (fst (ml ds us Q (fst z) (snd z)))) (somes L)) = 1 * fprod o (map (fun P => value ds us P Q) L))%F.
      rewrite IH. ring. }
  unfold zm in E. rewrite X in E. cbn [map fprod fold_right] in E. rewrite <- E. ring.
Qed.
End Fixed.
End First.

(** ** Linearity in the second argument *)
Section Second.
Context (l q : Z) (kR : Z -> point (F := F)).
Hypothesis Hl : prime l.
Hypothesis Hl14 : 14 < l.
Hypothesis R_on : forall i, on (kR i).
Hypothesis R_add : forall i j, kR (i + j) = add (kR i) (kR j).
Hypothesis R_neg : forall i, kR (- i) = neg (kR i).
Hypothesis R_none : forall i, kR i = None <-> (l | i).
Hypothesis R_out : forall i z, G (Some z) -> kR i <> Some z.
Hypothesis Hq : 1 <= q.
Hypothesis fer : forall x, x <> f0 o -> fpowz o x (q - 1) = f1 o.
Hypothesis lq : Z.gcd l (q - 1) = 1.
Context (X Y : F).
Hypothesis OP : on (Some (X, Y)).
Hypothesis X_pi : pi X = X.
Hypothesis Y_pi : pi Y = Y.
Hypothesis HV : forall x y, G (Some (x, y)) -> chi (X - x)%F = 1%F.

Definition pair_zeros (L : list (point (F := F) * point)) : list point :=
  flat_map (fun '(A, B) => [A; B; neg (add A B)]) L.
Lemma pairs_div L : (forall A B, In (A, B) L -> G A /\ G B) -> exists fl zs,
  fprod o (map (fun '(A, B) => line A B X Y) L) = feval o fl (X, Y) /\ fz o a b fl zs /\ zs = somes (pair_zeros L)
  /\ (length fl <= length L)%nat.
Proof.
  induction L as [|[A B] L IH]; intros I.
  { exists [], []. split; [reflexivity|]. split; [constructor|]. split; [reflexivity|cbn; lia]. }
  destruct (I A B (or_introl eq_refl)) as (hA & hB).
  destruct IH as (fl & zs & E & Hf & Ez & Hn). { intros A' B' I'. apply I. right. exact I'. }
  destruct (line_div o a b H H2 A B (G_on _ hA) (G_on _ hB)) as (fm & zn & E' & Hm & En & Hn').
  exists (fm ++ fl), (zn ++ zs). split; [|split; [|split]].
  - rewrite (feval_app o H), <- E, <- E'. reflexivity.
  - apply (fz_app o a b); assumption.
  - rewrite Ez, En. unfold pair_zeros. cbn [flat_map]. rewrite somes_app. reflexivity.
  - rewrite app_length. cbn [length]. lia.
Qed.
Lemma zeros_G L z : (forall A B, In (A, B) L -> G A /\ G B) -> In z (somes (pair_zeros L)) -> G (Some z).
Proof.
  intros I J. apply in_somes in J. unfold pair_zeros in J. apply in_flat_map in J. destruct J as ((A & B) & J1 & J2).
  destruct (I A B J1) as (hA & hB). cbn [In] in J2. destruct J2 as [<- | [<- | [<- | []]]]; auto.
Qed.
Lemma lines_agree L M : (forall A B, In (A, B) L -> G A /\ G B) -> (forall A B, In (A, B) M -> G A /\ G B) ->
  (length L <= 3)%nat -> (length M <= 3)%nat -> Permutation (pair_zeros L) (pair_zeros M) ->
  fprod o (map (fun '(A, B) => line A B X Y) L) = fprod o (map (fun '(A, B) => line A B X Y) M).
Proof.
  intros IL IM nL nM PP. destruct (pairs_div L IL) as (fl & zl & E & Hf & Ez & Hn).
  destruct (pairs_div M IM) as (fm & zm & E' & Hm & Em & Hn'). rewrite E, E'.
  apply (same_zeros o a b H H2 l q kR Hl R_on R_add R_neg R_none Hq fer lq fl fm zl zm Hf Hm) with (n := 7%nat).
  - rewrite Ez, Em. apply somes_perm. exact PP.
  - intros i z Iz. apply R_out. rewrite Ez in Iz. exact (zeros_G L z IL Iz).
  - cbn. lia.
  - lia.
  - lia.
  - exact OP.
Qed.

Definition h (A B : point (F := F)) : F := chi (line A B X Y).
Lemma h_vert T : G T -> h T None = 1%F.
Proof. unfold h. destruct T as [[x y]|]; cbn [SpecPairing.line]; intros hT; [exact (HV x y hT)|exact chi_1]. Qed.
Lemma h_sym A B : G A -> G B -> h A B = h B A.
Proof.
  intros hA hB. unfold h. f_equal.
  pose proof (lines_agree [(A, B)] [(B, A)]) as E. cbn [map fprod fold_right] in E.
  assert (E' : (line A B X Y * 1 = line B A X Y * 1)%F).
  { apply E; try (cbn [length]; lia).
    - intros A' B' [K | []]. injection K as <- <-. auto.
    - intros A' B' [K | []]. injection K as <- <-. auto.
    - cbn [pair_zeros flat_map]. rewrite (add_comm o a b H H2 A B) by auto. psolve. }
  transitivity (line A B X Y * 1)%F; [ring|]. rewrite E'. ring.
Qed.
Lemma h_cocycle A B C : G A -> G B -> G C -> (h A B * h (add A B) C = h B C * h A (add B C))%F.
Proof.
  intros hA hB hC. pose proof (G_add _ _ hA hB) as hAB. pose proof (G_add _ _ hB hC) as hBC.
  pose proof (lines_agree [(A, B); (add A B, C); (add B C, None)] [(B, C); (A, add B C); (add A B, None)]) as E.
  assert (E' : (line A B X Y * (line (add A B) C X Y * (line (add B C) None X Y * 1)) =
    line B C X Y * (line A (add B C) X Y * (line (add A B) None X Y * 1)))%F).
  { apply E; try (cbn [length]; lia).
    - intros A' B' [K | [K | [K | []]]]; injection K as <- <-; auto.
    - intros A' B' [K | [K | [K | []]]]; injection K as <- <-; auto.
    - cbn [pair_zeros flat_map]. rewrite (add_assoc o a b H H2 Hns A B C), !(add_0_r o a) by auto. psolve. }
  apply (f_equal chi) in E'. rewrite !chi_mul, chi_1 in E'. pose proof (h_vert _ hAB) as V1. pose proof (h_vert _ hBC) as V2.
  unfold h in *. rewrite V1, V2 in E'. transitivity (chi (line A B X Y) * (chi (line (add A B) C X Y) * (1 * 1)))%F; [ring|].
  rewrite E'. ring.
Qed.
Lemma h_inter A B C D : G A -> G B -> G C -> G D ->
  (h A C * h B D * h (add A C) (add B D) = h A B * h C D * h (add A B) (add C D))%F.
Proof.
  intros hA hB hC hD. pose proof (G_add _ _ hB hD) as hBD. pose proof (G_add _ _ hC hD) as hCD.
  transitivity (h B C * h (add B C) D * h A (add (add B C) D))%F.
  - transitivity (h B D * (h A C * h (add A C) (add B D)))%F; [ring|]. rewrite (h_cocycle A C (add B D)) by assumption.
    transitivity ((h B D * h C (add B D)) * h A (add C (add B D)))%F; [ring|]. rewrite <- (h_cocycle C B D) by assumption.
    rewrite (h_sym C B), <- (add_assoc o a b H H2 Hns C B D), (add_comm o a b H H2 C B) by auto. reflexivity.
  - symmetry. transitivity (h C D * (h A B * h (add A B) (add C D)))%F; [ring|]. rewrite (h_cocycle A B (add C D)) by assumption.
    transitivity ((h C D * h B (add C D)) * h A (add B (add C D)))%F; [ring|]. rewrite <- (h_cocycle B C D) by assumption.
    rewrite <- (add_assoc o a b H H2 Hns B C D) by auto. reflexivity.
Qed.
Lemma h_opp A : G A -> h A (neg A) = 1%F.
Proof.
  intros hA. destruct A as [[x y]|]; [|exact chi_1]. unfold h. cbn [pt_neg SpecPairing.line].
  rewrite (feqb_refl o H). replace (fneg o (fneg o y)) with y by ring. rewrite (feqb_refl o H). exact (HV x y hA).
Qed.
Lemma h_neg A B : G A -> G B -> (h A B * h (neg A) (neg B) = 1)%F.
Proof.
  intros hA hB. pose proof (h_inter A B (neg A) (neg B) hA hB (G_neg _ hA) (G_neg _ hB)) as E.
  rewrite (h_opp A), (h_opp B), !(add_neg o a H), <- (neg_add o a b H H2), (h_opp (add A B)) in E by auto.
  rewrite (h_vert None G_none) in E. transitivity (h A B * h (neg A) (neg B) * 1)%F; [ring|]. rewrite <- E. ring.
Qed.
Lemma h_r A B : G A -> G B -> fpowz o (h A B) r = 1%F.
Proof.
  intros hA hB. unfold h. apply chi_r. intros E0.
  destruct (line_div o a b H H2 A B (G_on _ hA) (G_on _ hB)) as (fl & zs & E & Hf & Ez & _). rewrite E in E0.
  pose proof (fz_zero o a b H _ _ _ Hf OP E0) as I. rewrite Ez in I.
  assert (GP : G (Some (X, Y))).
  { apply (zeros_G [(A, B)]); [intros A' B' [K | []]; injection K as <- <-; auto|exact I]. }
  pose proof (HV X Y GP) as C. replace (X - X)%F with 0%F in C by ring. rewrite chi_0 in C. exact (fl_1_0 _ H (eq_sym C)).
Qed.
Lemma h_pi A B : G A -> G B -> h (pt_map pi A) (pt_map pi B) = fpowz o (h A B) p.
Proof.
  intros hA hB. unfold h. rewrite <- X_pi at 1. rewrite <- Y_pi at 1. rewrite line_pi by auto. apply chi_pi.
Qed.
Lemma h_act u A B : G A -> G B -> h (act u A) (act u B) = fpowz o (h A B) (cact u).
Proof.
  intros hA hB. induction u as [|c u IH]; [symmetry; apply (fpowz_1 o HR) || reflexivity|].
  cbn [act]. pose proof (act_G u A hA) as uA. pose proof (act_G u B hB) as uB. pose proof (cact_nonneg u) as N.
  change (cact (c :: u)) with ((if c then p else r - 1) * cact u). rewrite Z.mul_comm, (fpowz_mul o HR), <- IH by (destruct c; lia).
  destruct c; cbn [prim]; [apply h_pi; assumption|]. apply inv_pow; [apply h_r; assumption|apply h_neg; assumption].
Qed.
Lemma add_swap A B C D : G A -> G B -> G C -> G D -> add (add A B) (add C D) = add (add A C) (add B D).
Proof.
  intros hA hB hC hD. rewrite !(add_assoc o a b H H2 Hns) by auto. f_equal.
  rewrite <- !(add_assoc o a b H H2 Hns) by auto. rewrite (add_comm o a b H H2 B C) by auto. reflexivity.
Qed.

Section Args.
Context (Q1 Q2 : point (F := F)) (hQ1 : G Q1) (hQ2 : G Q2).
Let hq := h Q1 Q2.
(** What relates the three runs. *)
Let inv (n : Z) (g1 g2 g12 : F) (S1 S2 S12 : point) : Prop :=
  G S1 /\ G S2 /\ S12 = add S1 S2 /\ (chi g12 * fpowz o hq n = chi g1 * chi g2 * h S1 S2)%F.
Lemma inv_add n c g1 g2 g12 S1 S2 S12 U1 U2 : 0 <= n -> 0 <= c -> G U1 -> G U2 -> h U1 U2 = fpowz o hq c -> inv n g1 g2 g12 S1 S2 S12 ->
  inv (n + c) (g1 * line S1 U1 X Y)%F (g2 * line S2 U2 X Y)%F (g12 * line S12 (add U1 U2) X Y)%F (add S1 U1) (add S2 U2) (add S12 (add U1 U2)).
Proof.
  intros hn hc hU1 hU2 EU (hS1 & hS2 & -> & E). split; [auto|]. split; [auto|]. split; [apply add_swap; assumption|].
  rewrite !chi_mul, (fpowz_add o HR), <- EU by assumption. fold (h S1 U1) (h S2 U2) (h (add S1 S2) (add U1 U2)).
  transitivity ((chi g12 * fpowz o hq n) * (h U1 U2 * h (add S1 S2) (add U1 U2)))%F; [ring|]. rewrite E.
  transitivity (chi g1 * chi g2 * (h S1 S2 * h U1 U2 * h (add S1 S2) (add U1 U2)))%F; [ring|].
  rewrite <- h_inter by assumption. ring.
Qed.
Lemma inv_dbl n g1 g2 g12 S1 S2 S12 : 0 <= n -> inv n g1 g2 g12 S1 S2 S12 ->
  inv (2 * n) (g1 * g1 * line S1 S1 X Y)%F (g2 * g2 * line S2 S2 X Y)%F (g12 * g12 * line S12 S12 X Y)%F (add S1 S1) (add S2 S2) (add S12 S12).
Proof.
  intros hn (hS1 & hS2 & -> & E). split; [auto|]. split; [auto|]. split; [apply add_swap; assumption|].
  rewrite !chi_mul. replace (2 * n) with (n + n) by lia. rewrite (fpowz_add o HR) by assumption.
  fold (h S1 S1) (h S2 S2) (h (add S1 S2) (add S1 S2)).
  transitivity ((chi g12 * fpowz o hq n) * (chi g12 * fpowz o hq n) * h (add S1 S2) (add S1 S2))%F; [ring|]. rewrite E.
  transitivity (chi g1 * chi g1 * chi g2 * chi g2 * (h S1 S2 * h S1 S2 * h (add S1 S2) (add S1 S2)))%F; [ring|].
  rewrite <- h_inter by assumption. ring.
Qed.
Lemma inv_pred n g1 g2 g12 S1 S2 S12 : 1 <= n -> inv n g1 g2 g12 S1 S2 S12 ->
  inv (n + -1) (g1 * line S1 (neg Q1) X Y)%F (g2 * line S2 (neg Q2) X Y)%F (g12 * line S12 (neg (add Q1 Q2)) X Y)%F
    (add S1 (neg Q1)) (add S2 (neg Q2)) (add S12 (neg (add Q1 Q2))).
Proof.
  intros hn (hS1 & hS2 & -> & E). rewrite (neg_add o a b H H2) by auto. split; [auto|]. split; [auto|]. split; [apply add_swap; auto|].
  rewrite !chi_mul. fold (h S1 (neg Q1)) (h S2 (neg Q2)) (h (add S1 S2) (add (neg Q1) (neg Q2))).
  rewrite pow_pred in E by exact hn. pose proof (h_neg _ _ hQ1 hQ2) as N. fold hq in N.
  transitivity (chi g12 * fpowz o hq (n + -1) * (hq * h (neg Q1) (neg Q2)) * h (add S1 S2) (add (neg Q1) (neg Q2)))%F; [rewrite N; ring|].
  transitivity ((chi g12 * (fpowz o hq (n + -1) * hq)) * (h (neg Q1) (neg Q2) * h (add S1 S2) (add (neg Q1) (neg Q2))))%F; [ring|].
  rewrite E. transitivity (chi g1 * chi g2 * (h S1 S2 * h (neg Q1) (neg Q2) * h (add S1 S2) (add (neg Q1) (neg Q2))))%F; [ring|].
  rewrite <- h_inter by auto. ring.
Qed.
Lemma inv_digits m : Forall digit m -> forall n g1 g2 g12 S1 S2 S12, 1 <= n -> inv n g1 g2 g12 S1 S2 S12 ->
  inv (dig_exp m n) (fst (miller_digits o a m Q1 X Y g1 S1)) (fst (miller_digits o a m Q2 X Y g2 S2))
    (fst (miller_digits o a m (add Q1 Q2) X Y g12 S12))
    (snd (miller_digits o a m Q1 X Y g1 S1)) (snd (miller_digits o a m Q2 X Y g2 S2))
    (snd (miller_digits o a m (add Q1 Q2) X Y g12 S12)).
Proof.
  induction 1 as [|d m Hd Hm IH]; intros n g1 g2 g12 S1 S2 S12 hn I; [exact I|].
  apply inv_dbl in I; [|lia].
  destruct Hd as [-> | [-> | ->]]; cbn [miller_digits]; cbv zeta; change (0 =? 1) with false; change (0 =? -1) with false;
    change (-1 =? 1) with false; change (1 =? 1) with true; change (-1 =? -1) with true; cbv iota;
    cbn [dig_exp fold_left]; apply IH; try lia.
  - apply inv_add; try assumption; try lia. symmetry. apply (fpowz_1 o HR) || reflexivity.
  - replace (2 * n + 0) with (2 * n) by lia. exact I.
  - apply inv_pred; [lia|exact I].
Qed.
Lemma inv_tail m : forall n g1 g2 g12 S1 S2 S12, 0 <= n -> inv n g1 g2 g12 S1 S2 S12 ->
  inv (tail_exp m n) (fst (tail m Q1 X Y g1 S1)) (fst (tail m Q2 X Y g2 S2)) (fst (tail m (add Q1 Q2) X Y g12 S12))
    (snd (tail m Q1 X Y g1 S1)) (snd (tail m Q2 X Y g2 S2)) (snd (tail m (add Q1 Q2) X Y g12 S12)).
Proof.
  induction m as [|u m IH]; intros n g1 g2 g12 S1 S2 S12 hn I; [exact I|]. cbn [tail tail_exp fold_left].
  pose proof (cact_nonneg u). rewrite act_add by assumption. apply IH; [lia|].
  apply inv_add; try assumption; try (apply act_G; assumption). apply h_act; assumption.
Qed.
Theorem second_value : value ds us (Some (X, Y)) (add Q1 Q2) = (value ds us (Some (X, Y)) Q1 * value ds us (Some (X, Y)) Q2)%F.
Proof.
  cbn [value].
  assert (I : inv (tail_exp us (dig_exp ds 1)) (fst (ml ds us Q1 X Y)) (fst (ml ds us Q2 X Y)) (fst (ml ds us (add Q1 Q2) X Y))
    (snd (ml ds us Q1 X Y)) (snd (ml ds us Q2 X Y)) (snd (ml ds us (add Q1 Q2) X Y))).
  { pose proof (inv_digits ds Hds 1 (f1 o) (f1 o) (f1 o) Q1 Q2 (add Q1 Q2) ltac:(lia)) as I.
    pose proof (dig_exp_pos ds Hds 1 ltac:(lia)) as N.
    assert (I0 : inv 1 (f1 o) (f1 o) (f1 o) Q1 Q2 (add Q1 Q2)).
    { split; [assumption|]. split; [assumption|]. split; [reflexivity|]. rewrite chi_1.
      transitivity (1 * hq)%F; [f_equal; apply (fpowz_1 o HR) || reflexivity|]. unfold hq. ring. }
    apply I in I0. apply (inv_tail us) in I0; [|lia]. unfold ml.
    destruct (miller_digits o a ds Q1 X Y (f1 o) Q1), (miller_digits o a ds Q2 X Y (f1 o) Q2), (miller_digits o a ds (add Q1 Q2) X Y (f1 o) (add Q1 Q2)).
    exact I0. }
  destruct I as (_ & _ & _ & E). rewrite (Hw Q1 hQ1 X Y), (Hw Q2 hQ2 X Y), h_act in E by assumption. fold hq in E.
  pose proof (dig_exp_pos ds Hds 1 ltac:(lia)) as N. pose proof (h_r _ _ hQ1 hQ2) as R. fold hq in R.
  rewrite (pow_mod hq (tail_exp us (dig_exp ds 1)) (cact w)) in E; [|apply tail_exp_pos; lia|apply cact_nonneg|exact R|exact Hexp].
  apply (mul_cancel_l o H (fpowz o hq (cact w))).
  { apply (fpowz_nonzero o H). intros Z. rewrite Z, (fpowz_zero o HR) in R by exact Hr. exact (fl_1_0 _ H (eq_sym R)). }
  transitivity (chi (fst (ml ds us (add Q1 Q2) X Y)) * fpowz o hq (cact w))%F; [ring|]. rewrite E. ring.
Qed.
End Args.
End Second.

(** ** Both arguments *)
Section Both.
Context (C : point (F := F) -> Prop).
Hypothesis C_on : forall P, C P -> on P.
Hypothesis C_pi : forall P, C P -> pt_map pi P = P.
Hypothesis C_none : C None.
Hypothesis C_add : forall P P', C P -> C P' -> C (add P P').
Hypothesis C_neg : forall P, C P -> C (neg P).
Hypothesis C_V : forall X Y x y, C (Some (X, Y)) -> G (Some (x, y)) -> chi (X - x)%F = 1%F.
Notation val := (value ds us).
Lemma first3 P P' Q : C P -> C P' -> G Q -> (val P Q * val P' Q * val (neg (add P P')) Q = 1)%F.
Proof.
  intros hP hP' hQ. apply first_value; auto. intros [X Y] x y I hT. cbn [fst].
  apply in_somes in I. cbn [In] in I. apply (C_V X Y x y); [|exact hT]. destruct I as [<- | [<- | [<- | []]]]; auto.
Qed.
Theorem first_add P P' Q : C P -> C P' -> G Q -> val (add P P') Q = (val P Q * val P' Q)%F.
Proof.
  intros hP hP' hQ. pose proof (first3 P P' Q hP hP' hQ) as A. pose proof (first3 (add P P') None Q (C_add _ _ hP hP') C_none hQ) as B.
  rewrite (add_0_r o a) in B. change (val None Q) with 1%F in B.
  transitivity (val (add P P') Q * (val P Q * val P' Q * val (neg (add P P')) Q))%F; [rewrite A; ring|].
  transitivity ((val P Q * val P' Q) * (val (add P P') Q * 1 * val (neg (add P P')) Q))%F; [ring|]. rewrite B. ring.
Qed.
Context (l q : Z) (kR : Z -> point (F := F)).
Hypothesis Hl : prime l.
Hypothesis Hl14 : 14 < l.
Hypothesis R_on : forall i, on (kR i).
Hypothesis R_add : forall i j, kR (i + j) = add (kR i) (kR j).
Hypothesis R_neg : forall i, kR (- i) = neg (kR i).
Hypothesis R_none : forall i, kR i = None <-> (l | i).
Hypothesis R_out : forall i z, G (Some z) -> kR i <> Some z.
Hypothesis Hq : 1 <= q.
Hypothesis fer : forall x, x <> f0 o -> fpowz o x (q - 1) = f1 o.
Hypothesis lq : Z.gcd l (q - 1) = 1.
Theorem second_add P Q Q' : C P -> G Q -> G Q' -> val P (add Q Q') = (val P Q * val P Q')%F.
Proof.
  intros hP hQ hQ'. destruct P as [[X Y]|]; [|cbn [value]; ring].
  pose proof (C_pi _ hP) as E. cbn [pt_map] in E. injection E as E1 E2.
  apply (second_value l q kR); auto. intros x y hT. exact (C_V X Y x y hP hT).
Qed.
End Both.
End Bil.
