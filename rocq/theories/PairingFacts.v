(** Facts on the Miller loops (products over the terms) and the final exponentiations. *)
From Verif Require Import Base Algebra Pow Tower TowerFacts FiniteField Curve CurveGroup SpecField PairingParams Pairing.
From Coq Require Import Permutation.
Local Open Scope Z_scope.

(** ** Several terms at once *)
Section Multi.
Context {F G E : Type} (o : fops F) (o2 : fops G) (o12 : fops E) (H : ring_laws o12).
Context (ell : E -> G * G * G -> aff F -> E) (sp : G * G * G -> aff F -> E).
Hypothesis Hell : forall f c p, ell f c p = fmul o12 f (sp c p).
Add Ring RM : (rl_ring _ H).

Definition prod (l : list E) : E := fold_right (fmul o12) (f1 o12) l.
Lemma prod_mul (l l' : list E) : length l = length l' ->
  prod (map (fun x => fmul o12 (fst x) (snd x)) (combine l l')) = fmul o12 (prod l) (prod l').
Proof.
  revert l'. induction l as [|x l IH]; intros [|y l'] HL; try discriminate HL; cbn [combine map prod fold_right fst snd]; [ring|].
  injection HL as HL. fold (prod l) (prod l').
  change (fold_right (fmul o12) (f1 o12) (map (fun x0 : E * E => fmul o12 (fst x0) (snd x0)) (combine l l')))
    with (prod (map (fun x0 : E * E => fmul o12 (fst x0) (snd x0)) (combine l l'))).
  rewrite (IH l' HL). ring.
Qed.

Definition st : Type := (E * proj G)%type.
Fixpoint map2 (phi : term -> st -> st) (ts : list (term (F := F) (G := G))) (ss : list st) : list st :=
  match ts, ss with t :: ts', s :: ss' => phi t s :: map2 phi ts' ss' | _, _ => [] end.
Definition agg (ss : list st) : E * list (proj G) := (prod (map fst ss), map snd ss).
(** A phase of the loop that acts on each term separately. *)
Definition separates (Phi : list term -> E -> list (proj G) -> E * list (proj G)) (phi : term -> st -> st) : Prop :=
  forall ts ss, length ts = length ss -> Phi ts (fst (agg ss)) (snd (agg ss)) = agg (map2 phi ts ss).

Lemma map2_length phi ts : forall ss, length ts = length ss -> length ts = length (map2 phi ts ss).
Proof.
  induction ts as [|t ts IH]; intros [|s ss] HL; try discriminate HL; [reflexivity|].
  cbn [map2 length]. f_equal. apply IH. injection HL as HL. exact HL.
Qed.
Lemma map2_comp phi psi ts : forall ss, length ts = length ss ->
  map2 psi ts (map2 phi ts ss) = map2 (fun t s => psi t (phi t s)) ts ss.
Proof.
  induction ts as [|t ts IH]; intros [|s ss] HL; try discriminate HL; [reflexivity|].
  cbn [map2]. f_equal. apply IH. injection HL as HL. exact HL.
Qed.
Lemma sep_comp Phi Psi phi psi : separates Phi phi -> separates Psi psi ->
  separates (fun ts f rs => let '(f, rs) := Phi ts f rs in Psi ts f rs) (fun t s => psi t (phi t s)).
Proof.
  intros A B ts ss HL. rewrite (A ts ss HL).
  pose proof (B ts (map2 phi ts ss) (map2_length phi ts ss HL)) as X. cbn [agg fst snd] in X.
  unfold agg at 1. rewrite X, map2_comp by exact HL. reflexivity.
Qed.
Lemma sep_ext Phi Psi phi : (forall ts f rs, Phi ts f rs = Psi ts f rs) -> separates Phi phi -> separates Psi phi.
Proof. intros X A ts ss HL. rewrite <- X. exact (A ts ss HL). Qed.

Lemma sep_for (step : E -> proj G -> term -> E * proj G) :
  (exists l n, forall f r t, step f r t = (fmul o12 f (l r t), n r t)) ->
  separates (for_terms step) (fun t s => step (fst s) (snd s) t).
Proof.
  intros (l & n & Hs). 
  assert (A : forall ts ss f, length ts = length ss ->
    for_terms step ts f (map snd ss) =
    (fmul o12 f (prod (map (fun x => l (snd (snd x)) (fst x)) (combine ts ss))),
     map snd (map2 (fun t s => step (fst s) (snd s) t) ts ss))).
  { induction ts as [|t ts IH]; intros [|s ss] f HL; try discriminate HL.
    - cbn. f_equal. ring.
    - injection HL as HL. cbn [for_terms map combine map2 prod fold_right fst snd].
      rewrite !Hs. cbn [snd]. rewrite (IH ss _ HL). f_equal. unfold prod. ring. }
  intros ts ss HL. cbn [agg fst snd]. rewrite (A ts ss _ HL). unfold agg. f_equal.
  clear A. revert ss HL. induction ts as [|t ts IH]; intros [|s ss] HL; try discriminate HL.
  - cbn. ring.
  - injection HL as HL. cbn [map map2 combine prod fold_right fst snd]. fold (prod (map fst ss)).
    specialize (IH ss HL). unfold prod in *. rewrite <- IH, Hs. cbn [fst]. ring.
Qed.
Lemma sep_sqr : separates (fun ts f rs => (fsqr o12 f, rs)) (fun t s => (fsqr o12 (fst s), snd s)).
Proof.
  intros ts ss HL. unfold agg. cbn [fst snd]. rewrite (rl_sqr _ H). f_equal.
  - revert ss HL. induction ts as [|t ts IH]; intros [|s ss] HL; try discriminate HL; [cbn; ring|].
    injection HL as HL. cbn [map map2 prod fold_right fst]. specialize (IH ss HL). unfold prod in *.
    rewrite <- IH, (rl_sqr _ H). ring.
  - revert ss HL. induction ts as [|t ts IH]; intros [|s ss] HL; try discriminate HL; [reflexivity|].
    injection HL as HL. cbn [map map2 snd]. f_equal. exact (IH ss HL).
Qed.
Lemma sep_id : separates (fun ts f rs => (f, rs)) (fun t s => s).
Proof.
  intros ts ss HL. unfold agg. cbn [fst snd]. f_equal.
  - revert ss HL. induction ts as [|t ts IH]; intros [|s ss] HL; try discriminate HL; [reflexivity|].
    injection HL as HL. cbn [map map2 prod fold_right fst]. f_equal. exact (IH ss HL).
  - revert ss HL. induction ts as [|t ts IH]; intros [|s ss] HL; try discriminate HL; [reflexivity|].
    injection HL as HL. cbn [map map2 snd]. f_equal. exact (IH ss HL).
Qed.

Lemma double_mult : exists l n, forall f r t, double_step o2 ell f r t = (fmul o12 f (l r t), n r t).
Proof using Hell.
  exists (fun r t => sp (fst (double_coeffs o2 r)) (fst t)), (fun r _ => snd (double_coeffs o2 r)).
  intros f r t. unfold double_step, miller_double. destruct (double_coeffs o2 r) as [c r']. rewrite Hell. reflexivity.
Qed.
Lemma add_mult h : exists l n, forall f r t, add_step o2 ell h f r t = (fmul o12 f (l r t), n r t).
Proof using Hell.
  exists (fun r t => sp (fst (add_coeffs o2 r (h (snd t)))) (fst t)), (fun r t => snd (add_coeffs o2 r (h (snd t)))).
  intros f r t. unfold add_step, miller_add. destruct (add_coeffs o2 r (h (snd t))) as [c r']. rewrite Hell. reflexivity.
Qed.

Lemma sep_digit x : exists phi, separates
  (fun ts f rs => if x =? 1 then for_terms (add_step o2 ell (fun q => q)) ts f rs
                  else if x =? -1 then for_terms (add_step o2 ell (aff_neg o2)) ts f rs else (f, rs)) phi.
Proof using H Hell.
  destruct (x =? 1); [eexists; apply sep_for, add_mult|].
  destruct (x =? -1); [eexists; apply sep_for, add_mult|]. eexists. apply sep_id.
Qed.
Lemma sep_first (b : bool) : exists phi, separates (fun ts f rs => (if b then f else fsqr o12 f, rs)) phi.
Proof using H. destruct b; eexists; [apply sep_id|apply sep_sqr]. Qed.
Lemma sep_loop ds : forall first, exists phi, separates (digit_loop o2 o12 ell first ds) phi.
Proof using H Hell.
  induction ds as [|x ds IH]; intros first; [eexists; apply sep_id|].
  destruct (sep_first first) as (p0 & S0). destruct (sep_digit x) as (p1 & S1). destruct (IH false) as (p2 & S2).
  pose proof (sep_comp _ _ _ _ (sep_comp _ _ _ _ (sep_comp _ _ _ _ S0 (sep_for _ double_mult)) S1) S2) as S.
  eexists. eapply sep_ext; [|exact S]. intros ts f rs. cbn [digit_loop].
  destruct (for_terms (double_step o2 ell) ts (if first then f else fsqr o12 f) rs) as [f1 rs1].
  destruct (if x =? 1 then _ else _) as [f2 rs2]. reflexivity.
Qed.

(** A separating phase started at 1: the result is the product of the single runs. *)
Definition run (Phi : list term -> E -> list (proj G) -> E * list (proj G)) (ts : list term) : E :=
  fst (Phi ts (f1 o12) (start (F := F) o2 ts)).
Lemma run_product Phi phi : separates Phi phi -> forall ts,
  run Phi ts = prod (map (fun t => run Phi [t]) ts).
Proof.
  intros S ts. unfold run.
  assert (One : forall ts : list (term (F := F) (G := G)), f1 o12 = prod (map fst (map (fun t => (f1 o12, to_curve o2 (snd t))) ts))).
  { induction ts0 as [|t ts0 IH]; [reflexivity|]. cbn [map prod fold_right fst]. unfold prod in IH. rewrite <- IH. ring. }
  assert (St : forall ts : list (term (F := F) (G := G)), start o2 ts = map snd (map (fun t => (f1 o12, to_curve o2 (snd t))) ts)).
  { intros ts0. unfold start. rewrite map_map. reflexivity. }
  assert (R : forall ts, fst (Phi ts (f1 o12) (start o2 ts)) =
    prod (map fst (map2 phi ts (map (fun t => (f1 o12, to_curve o2 (snd t))) ts)))).
  { intros ts0. rewrite St. rewrite (One ts0).
    pose proof (S ts0 (map (fun t => (f1 o12, to_curve o2 (snd t))) ts0)) as X.
    rewrite map_length in X. specialize (X eq_refl). cbn [agg fst snd] in X.
    rewrite <- (One ts0) in *. rewrite X. reflexivity. }
  rewrite R. f_equal. rewrite (map_ext _ (fun t => fst (phi t (f1 o12, to_curve o2 (snd t))))).
  - clear. induction ts as [|t ts IH]; [reflexivity|]. cbn [map map2]. f_equal. exact IH.
  - intros t. rewrite R. cbn [map map2 prod fold_right fst]. ring.
Qed.

Lemma prod_app l l' : prod (l ++ l') = fmul o12 (prod l) (prod l').
Proof. induction l as [|x l IH]; cbn [app prod fold_right]; [unfold prod; ring|]. unfold prod in *. rewrite IH. ring. Qed.
Lemma prod_perm l l' : Permutation l l' -> prod l = prod l'.
Proof.
  induction 1 as [|x l l' P IH|x y l|l l' l'' P IH P' IH']; cbn [prod fold_right]; [reflexivity| | |congruence].
  - unfold prod in IH. rewrite IH. reflexivity.
  - ring.
Qed.

(** The filter drops the terms whose run is 1. *)
Definition mrun (Phi : list term -> E -> list (proj G) -> E * list (proj G)) (terms : list term) : E :=
  run Phi (filter (live o o2) terms).
Lemma mrun_dead Phi phi t : separates Phi phi -> live o o2 t = false -> mrun Phi [t] = f1 o12.
Proof.
  intros S L. unfold mrun. cbn [filter]. rewrite L. rewrite (run_product Phi phi S []). reflexivity.
Qed.
Lemma mrun_product Phi phi : separates Phi phi -> forall terms,
  mrun Phi terms = prod (map (fun t => mrun Phi [t]) terms).
Proof.
  intros S terms. unfold mrun at 1. rewrite (run_product Phi phi S).
  induction terms as [|t terms IH]; [reflexivity|]. cbn [filter map prod fold_right].
  destruct (live o o2 t) eqn:L.
  - cbn [map prod fold_right]. unfold prod in IH. rewrite IH. f_equal. unfold mrun. cbn [filter]. rewrite L. reflexivity.
  - rewrite (mrun_dead Phi phi t S L). unfold prod in *. rewrite IH. ring.
Qed.

Theorem bn_miller_sep naf h1 h2 : exists Phi phi, separates Phi phi /\
  forall terms, bn_miller_loop o o2 o12 ell naf h1 h2 terms = mrun Phi terms.
Proof using H Hell.
  destruct (sep_loop (skipn 1 (rev naf)) true) as (p0 & S0).
  pose proof (sep_comp _ _ _ _ (sep_comp _ _ _ _ S0 (sep_for _ (add_mult h1))) (sep_for _ (add_mult h2))) as S.
  eexists _, _. split; [exact S|]. intros terms. unfold bn_miller_loop, mrun, run. cbv zeta.
  destruct (digit_loop _ _ _ _ _ _ _ _) as [f1 rs1].
  destruct (for_terms (add_step o2 ell h1) _ f1 rs1) as [f2 rs2].
  destruct (for_terms (add_step o2 ell h2) _ f2 rs2) as [f3 rs3]. reflexivity.
Qed.
Theorem bls_miller_sep bits conj : exists Phi phi, separates Phi phi /\
  forall terms, bls_miller_loop o o2 o12 ell bits conj terms = conj (mrun Phi terms).
Proof using H Hell.
  destruct (sep_loop (skipn 1 bits) true) as (p0 & S0).
  eexists _, _. split; [exact S0|]. intros terms. unfold bls_miller_loop, mrun, run. cbv zeta.
  destruct (digit_loop _ _ _ _ _ _ _ _) as [f1 rs1]. reflexivity.
Qed.
End Multi.

(** ** Powers of an element of the cyclotomic subgroup *)
Section FE.
Context {E : Type} (o12 : fops E) (H : field_laws o12) (p : Z).
Context (conj : E -> E) (frob : Z -> E -> E) (cyc : E -> E).
Hypothesis Hp : 1 < p.
Hypothesis Hconj : forall x, conj x = fpowz o12 x (p ^ 6).
Hypothesis Hfrob : forall k x, 0 <= k -> frob k x = fpowz o12 x (p ^ k).
Let Phi := p ^ 4 - p ^ 2 + 1.
Hypothesis Hcyc : forall x, fpowz o12 x (p ^ 4 - p ^ 2 + 1) = f1 o12 -> cyc x = fmul o12 x x.
Let HR := fl_rl _ H.
Add Ring RFE : (rl_ring _ HR).

Lemma p6_Phi : p ^ 6 = (p ^ 2 + 1) * Phi - 1.
Proof. unfold Phi. change 6 with (2 * 3). rewrite Z.pow_mul_r by lia. change 4 with (2 * 2). rewrite Z.pow_mul_r by lia. ring. Qed.
Lemma Phi_pos : 0 < Phi.
Proof. unfold Phi. change 4 with (2 + 2). rewrite Z.pow_add_r by lia. nia. Qed.

Section Elt.
Context (g : E) (Hg : fpowz o12 g Phi = f1 o12).
Definition gp (e : Z) : E := fpowz o12 g (e mod Phi).
Lemma gp_nonneg e : 0 <= e -> gp e = fpowz o12 g e.
Proof.
  intros He. unfold gp. pose proof Phi_pos as P. rewrite (Z_div_mod_eq_full e Phi) at 2.
  pose proof (Z.mod_pos_bound e Phi P) as B.
  rewrite fpowz_add, fpowz_mul, Hg, fpowz_one by (exact HR || lia || (apply Z.div_pos; lia) ||
     (apply Z.mul_nonneg_nonneg; [lia|apply Z.div_pos; lia])). ring.
Qed.
Lemma gp_mod a b : a mod Phi = b mod Phi -> gp a = gp b.
Proof. intros X. unfold gp. rewrite X. reflexivity. Qed.
Lemma gp_mul a b : fmul o12 (gp a) (gp b) = gp (a + b).
Proof.
  unfold gp at 1 2. pose proof Phi_pos as P.
  pose proof (Z.mod_pos_bound a Phi P). pose proof (Z.mod_pos_bound b Phi P).
  rewrite <- fpowz_add by (exact HR || lia). rewrite <- gp_nonneg by lia. apply gp_mod.
  rewrite <- Z.add_mod by lia. reflexivity.
Qed.
Lemma gp_pow a n : 0 <= n -> fpowz o12 (gp a) n = gp (a * n).
Proof.
  intros Hn. unfold gp at 1. pose proof Phi_pos as P. pose proof (Z.mod_pos_bound a Phi P).
  rewrite <- fpowz_mul by (exact HR || lia). rewrite <- gp_nonneg by nia. apply gp_mod.
  rewrite Z.mul_mod_idemp_l by lia. reflexivity.
Qed.
Lemma gp_conj a : conj (gp a) = gp (- a).
Proof.
  rewrite Hconj, gp_pow by (apply Z.pow_nonneg; lia). apply gp_mod. rewrite p6_Phi.
  replace (a * ((p ^ 2 + 1) * Phi - 1)) with (- a + (a * (p ^ 2 + 1)) * Phi) by ring.
  apply Z.mod_add. pose proof Phi_pos. lia.
Qed.
Lemma gp_frob k a : 0 <= k -> frob k (gp a) = gp (a * p ^ k).
Proof. intros Hk. rewrite Hfrob by exact Hk. apply gp_pow. apply Z.pow_nonneg. lia. Qed.
Lemma gp_Phi a : fpowz o12 (gp a) Phi = f1 o12.
Proof.
  pose proof Phi_pos. rewrite gp_pow by lia. unfold gp. rewrite Z.mod_mul by lia. reflexivity.
Qed.
Lemma gp_cyc a : cyc (gp a) = gp (2 * a).
Proof. rewrite Hcyc by apply gp_Phi. rewrite gp_mul. f_equal. ring. Qed.
Lemma gp_0 : f1 o12 = gp 0.
Proof. unfold gp. rewrite Zmod_0_l. reflexivity. Qed.
Lemma gp_1 : g = gp 1.
Proof. rewrite gp_nonneg by lia. symmetry. apply fpowz_1. Qed.

Lemma exp_bits_gp x n a : 0 <= x < 2 ^ Z.of_nat n -> exp_bits o12 cyc x n (gp a) = gp (a * x).
Proof.
  intros Hx. unfold exp_bits. rewrite gp_0.
  assert (A : forall m y, 0 <= x ->
    fold_left (fun res i => let res := cyc res in if Z.testbit x (Z.of_nat i) then fmul o12 res (gp a) else res)
      (rev (seq 0 m)) (gp y) = gp (y * 2 ^ Z.of_nat m + a * (x mod 2 ^ Z.of_nat m))).
  { induction m as [|m IH]; intros y H0.
    - cbn [seq rev fold_left]. f_equal. change (2 ^ Z.of_nat 0) with 1. rewrite Z.mod_1_r. ring.
    - rewrite seq_S, rev_app_distr. cbn [rev app fold_left plus]. cbv zeta. rewrite gp_cyc.
      assert (T : x mod 2 ^ Z.of_nat (S m) = x mod 2 ^ Z.of_nat m + (if Z.testbit x (Z.of_nat m) then 2 ^ Z.of_nat m else 0)).
      { rewrite Nat2Z.inj_succ, <- Z.add_1_r, Z.pow_add_r by lia. change (2 ^ 1) with 2.
        rewrite Z.rem_mul_r by lia. f_equal.
        rewrite <- Z.testbit_spec' by lia. destruct (Z.testbit x (Z.of_nat m)); cbn [Z.b2z]; ring. }
      rewrite T. rewrite Nat2Z.inj_succ, <- Z.add_1_r, Z.pow_add_r by lia. change (2 ^ 1) with 2.
      destruct (Z.testbit x (Z.of_nat m)).
      + rewrite gp_mul. rewrite (IH _ H0). f_equal. ring.
      + rewrite (IH _ H0). f_equal. ring. }
  transitivity (gp (0 * 2 ^ Z.of_nat n + a * (x mod 2 ^ Z.of_nat n))); [exact (A n 0 (proj1 Hx))|].
  f_equal. rewrite Z.mod_small by lia. ring.
Qed.
Definition bits_be (l : list Z) : Z := fold_left (fun acc b => 2 * acc + (if b =? 1 then 1 else 0)) l 0.
Lemma bls_loop_gp a bits : forall y,
  bls_exp_loop o12 cyc false bits (gp a) (gp (a * y)) =
  gp (a * fold_left (fun acc b => 2 * acc + (if b =? 1 then 1 else 0)) bits y).
Proof.
  induction bits as [|b bits IH]; intros y; [reflexivity|]. cbn [bls_exp_loop fold_left].
  rewrite gp_cyc. destruct (b =? 1).
  - rewrite gp_mul, <- IH. f_equal. f_equal. ring.
  - rewrite <- IH. f_equal. f_equal. ring.
Qed.
Lemma bls_exp_gp a bits : bls_exp_loop o12 cyc true bits (gp a) (f1 o12) = gp (a * bits_be bits).
Proof.
  destruct bits as [|b bits]; cbn [bls_exp_loop].
  - rewrite gp_0. f_equal. unfold bits_be. cbn. ring.
  - unfold bits_be. cbn [fold_left]. rewrite <- bls_loop_gp. f_equal. rewrite gp_0.
    destruct (b =? 1); [rewrite gp_mul|]; f_equal; ring.
Qed.
End Elt.

(** ** The whole exponentiations *)
Hypothesis Hfin : forall x, x <> f0 o12 -> fpowz o12 x (p ^ 12 - 1) = f1 o12.
Let easy := (p ^ 6 - 1) * (p ^ 2 + 1).
Lemma easy_Phi : easy * Phi = p ^ 12 - 1.
Proof. unfold easy, Phi. change 12 with (6 * 2). change 6 with (2 * 3). change 4 with (2 * 2). rewrite !Z.pow_mul_r by lia. ring. Qed.
Lemma easy_nonneg : 0 <= easy.
Proof.
  unfold easy. assert (1 <= p ^ 6) by (apply (Z.pow_le_mono_r p 0 6); lia).
  assert (0 <= p ^ 2) by (apply Z.pow_nonneg; lia). nia.
Qed.
Lemma easy_part f t : f <> f0 o12 -> fmul o12 t f = f1 o12 ->
  let u := fmul o12 (fpowz o12 f (p ^ 6)) t in
  fmul o12 (fpowz o12 u (p ^ 2)) u = fpowz o12 f easy /\ fpowz o12 (fpowz o12 f easy) Phi = f1 o12.
Proof.
  intros Hf Ht u. split.
  - assert (1 <= p ^ 6) by (apply (Z.pow_le_mono_r p 0 6); lia).
    assert (0 <= p ^ 2) by (apply Z.pow_nonneg; lia).
    assert (U : u = fpowz o12 f (p ^ 6 - 1)).
    { unfold u. replace (p ^ 6) with (p ^ 6 - 1 + 1) by ring. rewrite fpowz_succ by (exact HR || lia).
      replace (p ^ 6 - 1 + 1 - 1) with (p ^ 6 - 1) by ring.
      transitivity (fmul o12 (fmul o12 t f) (fpowz o12 f (p ^ 6 - 1))); [ring|]. rewrite Ht. ring. }
    rewrite U, <- fpowz_mul by (exact HR || lia). rewrite <- fpowz_add by (exact HR || nia).
    f_equal. unfold easy. ring.
  - rewrite <- fpowz_mul by (exact HR || apply easy_nonneg || (pose proof Phi_pos; lia)).
    rewrite easy_Phi. exact (Hfin f Hf).
Qed.

Definition bn_exponent (u : Z) : Z :=
  let fp := p in let fp2 := p ^ 2 in let fp3 := p ^ 2 * p in
  let fu := u in let fu2 := u * u in let fu3 := u * u * u in
  let y3 := - (fu * p) in let y2 := fu2 * p ^ 2 in
  let y0 := fp + fp2 + fp3 in let y1 := -1 in let y5 := - fu2 in
  let y4 := - (fu + fu2 * p) in
  let y6 := 2 * - (fu3 + fu3 * p) + y4 + y5 in
  let t1 := y3 + y5 + y6 in
  let y6 := y6 + y2 in
  let t1 := 2 * (2 * t1 + y6) in
  let t0 := t1 + y1 in
  let t1 := t1 + y0 in
  2 * t0 + t1.


Lemma inv_cases f : match finv o12 f with Some t => f <> f0 o12 /\ fmul o12 t f = f1 o12 | None => f = f0 o12 end.
Proof.
  destruct (feqb o12 f (f0 o12)) eqn:Ef.
  - apply (fl_eqb _ H) in Ef. subst f. rewrite (fl_inv0 _ H). reflexivity.
  - assert (Hf : f <> f0 o12). { intros X. apply (fl_eqb _ H) in X. congruence. }
    destruct (fl_inv _ H f Hf) as (b & -> & Hb). split; [exact Hf|]. rewrite <- Hb. ring.
Qed.

Definition bn_hard (exp_by_x : E -> E) (r : E) : E :=
  let fp := frob 1 r in
  let fp2 := frob 2 r in
  let fp3 := frob 1 fp2 in
  let fu := exp_by_x r in
  let fu2 := exp_by_x fu in
  let fu3 := exp_by_x fu2 in
  let y3 := conj (frob 1 fu) in
  let y2 := frob 2 fu2 in
  let y0 := fmul o12 (fmul o12 fp fp2) fp3 in
  let y1 := conj r in
  let y5 := conj fu2 in
  let y4 := conj (fmul o12 fu (frob 1 fu2)) in
  let y6 := fmul o12 (fmul o12 (cyc (conj (fmul o12 fu3 (frob 1 fu3)))) y4) y5 in
  let t1 := fmul o12 (fmul o12 y3 y5) y6 in
  let y6 := fmul o12 y6 y2 in
  let t1 := cyc (fmul o12 (cyc t1) y6) in
  let t0 := cyc (fmul o12 t1 y1) in
  fmul o12 t0 (fmul o12 t1 y0).
Lemma bn_hard_spec expx u g : fpowz o12 g Phi = f1 o12 ->
  (forall a, expx (gp g a) = gp g (a * u)) -> bn_hard expx g = gp g (bn_exponent u).
Proof.
  intros G Hx. transitivity (bn_hard expx (gp g 1)). { f_equal. exact (gp_1 g G). }
  unfold bn_hard. cbv zeta.
  repeat (rewrite Hx || rewrite (gp_cyc g G) || rewrite (gp_conj g G) || rewrite (gp_mul g G) || (rewrite (gp_frob g G) by lia)).
  f_equal. unfold bn_exponent. cbv zeta. rewrite !Z.pow_1_r. ring.
Qed.
Theorem bn_final_exp_spec expx u k :
  (forall g a, fpowz o12 g Phi = f1 o12 -> expx (gp g a) = gp g (a * u)) ->
  bn_exponent u mod Phi = k mod Phi -> 0 <= k ->
  forall f, match bn_final_exponentiation o12 conj frob cyc expx f with
  | Some x => f <> f0 o12 /\ x = fpowz o12 f (easy * k)
  | None => f = f0 o12
  end.
Proof.
  intros Hx Hk Hk0 f.
  assert (X : bn_final_exponentiation o12 conj frob cyc expx f =
    match finv o12 f with None => None | Some t =>
      Some (bn_hard expx (fmul o12 (frob 2 (fmul o12 (conj f) t)) (fmul o12 (conj f) t))) end) by reflexivity.
  rewrite X. clear X. pose proof (inv_cases f) as I. destruct (finv o12 f) as [t|]; [|exact I].
  destruct I as (Hf & Ht). split; [exact Hf|].
  destruct (easy_part f t Hf Ht) as (U & G). cbv zeta in U.
  rewrite (Hconj f), Hfrob by lia. rewrite U.
  rewrite (bn_hard_spec expx u _ G (fun a => Hx _ a G)).
  rewrite (gp_mod _ _ k Hk), (gp_nonneg _ G k Hk0).
  rewrite <- fpowz_mul by (exact HR || exact easy_nonneg || exact Hk0). reflexivity.
Qed.

Definition bls_exponent (x : Z) : Z :=
  let t2 := 1 in let t1 := - 2 in let t3 := x in let t4 := 2 * x in
  let t5 := t1 + t3 in let t1 := x * t5 in let t0 := x * t1 in
  let t6 := x * t0 + t4 in let t4 := x * t6 + (- t5 + t2) in
  (t3 + t0) * p ^ 2 + t4 + (t1 + t2) * p ^ 3 + (t6 - t2) * p.
Definition bls_hard (expx : E -> E) (t2 : E) : E :=
  let t1 := conj (cyc t2) in
  let t3 := expx t2 in
  let t4 := cyc t3 in
  let t5 := fmul o12 t1 t3 in
  let t1 := expx t5 in
  let t0 := expx t1 in
  let t6 := fmul o12 (expx t0) t4 in
  let t4 := fmul o12 (expx t6) (fmul o12 (conj t5) t2) in
  let t1 := frob 3 (fmul o12 t1 t2) in
  let t6 := frob 1 (fmul o12 t6 (conj t2)) in
  let t3 := frob 2 (fmul o12 t3 t0) in
  fmul o12 (fmul o12 (fmul o12 t3 t4) t1) t6.
Lemma bls_hard_spec expx u g : fpowz o12 g Phi = f1 o12 ->
  (forall a, expx (gp g a) = gp g (a * u)) -> bls_hard expx g = gp g (bls_exponent u).
Proof.
  intros G Hx. transitivity (bls_hard expx (gp g 1)). { f_equal. exact (gp_1 g G). }
  unfold bls_hard. cbv zeta.
  repeat (rewrite Hx || rewrite (gp_cyc g G) || rewrite (gp_conj g G) || rewrite (gp_mul g G) || (rewrite (gp_frob g G) by lia)).
  f_equal. unfold bls_exponent. cbv zeta. rewrite !Z.pow_1_r. ring.
Qed.
Theorem bls_final_exp_spec u k :
  (forall g a, fpowz o12 g Phi = f1 o12 -> bls_exp_by_x o12 conj cyc (gp g a) = gp g (a * u)) ->
  bls_exponent u mod Phi = k mod Phi -> 0 <= k ->
  forall f, match bls_final_exponentiation o12 conj frob cyc f with
  | Some x => f <> f0 o12 /\ x = fpowz o12 f (easy * k)
  | None => f = f0 o12
  end.
Proof.
  intros Hx Hk Hk0 f.
  assert (X : bls_final_exponentiation o12 conj frob cyc f =
    match finv o12 f with None => None | Some t =>
      Some (bls_hard (bls_exp_by_x o12 conj cyc) (fmul o12 (frob 2 (fmul o12 (frob 6 f) t)) (fmul o12 (frob 6 f) t))) end) by reflexivity.
  rewrite X. clear X. pose proof (inv_cases f) as I. destruct (finv o12 f) as [t|]; [|exact I].
  destruct I as (Hf & Ht). split; [exact Hf|].
  destruct (easy_part f t Hf Ht) as (U & G). cbv zeta in U.
  rewrite (Hfrob 6 f), Hfrob by lia. rewrite U.
  rewrite (bls_hard_spec _ u _ G (fun a => Hx _ a G)).
  rewrite (gp_mod _ _ k Hk), (gp_nonneg _ G k Hk0).
  rewrite <- fpowz_mul by (exact HR || exact easy_nonneg || exact Hk0). reflexivity.
Qed.

(** [exp_by_x] *)
Lemma bn_exp_spec g a : 0 <= bn_x < 2 ^ Z.of_nat 64 -> fpowz o12 g Phi = f1 o12 ->
  bn_exp_by_x o12 cyc (gp g a) = gp g (a * bn_x).
Proof. intros B G. apply (exp_bits_gp g G). exact B. Qed.
Lemma pluto_exp_spec g a : 0 <= neg_pluto_u < 2 ^ Z.of_nat 111 -> fpowz o12 g Phi = f1 o12 ->
  pluto_exp_by_x o12 conj cyc (gp g a) = gp g (a * - neg_pluto_u).
Proof.
  intros B G. unfold pluto_exp_by_x. rewrite (exp_bits_gp g G _ _ _ B), (gp_conj g G). f_equal. ring.
Qed.
Lemma bls_exp_spec g a : fpowz o12 g Phi = f1 o12 ->
  bls_exp_by_x o12 conj cyc (gp g a) = gp g (a * - bits_be bls_x).
Proof.
  intros G. unfold bls_exp_by_x. rewrite (bls_exp_gp g G), (gp_conj g G). f_equal. ring.
Qed.

(** ** The group of the elements whose order divides [r] *)
Context (r : Z) (Hr : 0 < r) (Hdiv : (r | Phi)).
Definition in_gt (x : E) : Prop := fpowz o12 x r = f1 o12.
Lemma in_gt_Phi x : in_gt x -> fpowz o12 x Phi = f1 o12.
Proof.
  intros X. destruct Hdiv as (k & K). pose proof Phi_pos as P. rewrite K, Z.mul_comm.
  rewrite fpowz_mul by (exact HR || nia). rewrite X. apply fpowz_one. exact HR.
Qed.
Lemma in_gt_nonzero x : in_gt x -> x <> f0 o12.
Proof.
  intros X ->. unfold in_gt in X. rewrite fpowz_zero in X by (exact HR || lia). exact (fl_1_0 _ H (eq_sym X)).
Qed.
Lemma gt_neg_spec x : in_gt x -> in_gt (gt_neg conj x) /\ fmul o12 x (gt_neg conj x) = f1 o12.
Proof.
  intros X. pose proof (in_gt_Phi x X) as G.
  assert (E1 : fmul o12 x (gt_neg conj x) = f1 o12).
  { unfold gt_neg. rewrite (gp_1 x G) at 1 2. rewrite (gp_conj x G), (gp_mul x G), gp_0 with (g := x). reflexivity. }
  split; [|exact E1]. unfold in_gt in *. 
  transitivity (fmul o12 (fpowz o12 x r) (fpowz o12 (gt_neg conj x) r)).
  - rewrite X. ring.
  - rewrite <- fpowz_mul_base by (exact HR || lia). rewrite E1. apply fpowz_one. exact HR.
Qed.
Lemma in_gt_mul x y : in_gt x -> in_gt y -> in_gt (fmul o12 x y).
Proof. unfold in_gt. intros X Y. rewrite fpowz_mul_base, X, Y by (exact HR || lia). ring. Qed.
Lemma in_gt_one : in_gt (f1 o12).
Proof. apply fpowz_one. exact HR. Qed.
Lemma in_gt_pow x k : 0 <= k -> in_gt x -> in_gt (fpowz o12 x k).
Proof.
  unfold in_gt. intros Hk X. rewrite <- fpowz_mul, Z.mul_comm, fpowz_mul, X by (exact HR || lia). apply fpowz_one. exact HR.
Qed.
End FE.

(** ** Scalar multiplication in the target group *)
Section GtMul.
Context {E : Type} (o12 : fops E) (HR : ring_laws o12).
Add Ring RGM : (rl_ring _ HR).
Lemma gt_mul_loop a bits : forall k, 0 <= k ->
  fold_left (fun acc (bit : bool) => let acc := gt_double o12 acc in select acc (gt_add o12 acc a) bit) bits (fpowz o12 a k)
  = fpowz o12 a (bits_val k bits).
Proof.
  induction bits as [|b bits IH]; intros k Hk; [reflexivity|]. cbn [fold_left]. cbv zeta.
  unfold gt_double, gt_add. rewrite (rl_sqr _ HR), <- fpowz_add by (exact HR || lia).
  unfold bits_val. cbn [fold_left]. fold (bits_val (2 * k + (if b then 1 else 0)) bits).
  destruct b; cbn [select].
  - transitivity (fold_left (fun acc (bit : bool) => select (fsqr o12 acc) (fmul o12 (fsqr o12 acc) a) bit) bits
       (fpowz o12 a (2 * k + 1))).
    + f_equal. rewrite fpowz_succ by (exact HR || lia). replace (k + k) with (2 * k) by ring. ring.
    + apply IH. lia.
  - rewrite <- IH by lia. f_equal. f_equal. ring.
Qed.
End GtMul.
