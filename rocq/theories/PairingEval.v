(** Evaluation of the pairings over [BigZ] and transfer to any prime field.  Only used
    inside proofs about concrete points. *)
From Verif Require Import Base Algebra Pow Tower TowerFacts FiniteField PrimeField Primality Compute Field Params TowerParams
  SpecCurveFacts Curve CurveGroup CurveParams PairingParams Pairing PairingFacts.
From Bignums Require Import BigZ.
Local Open Scope Z_scope.

(** Homomorphisms that respect inversion. *)
Record ihom {F G : Type} (o : fops F) (o' : fops G) (phi : F -> G) : Prop := {
  ih : fhom o o' phi;
  ih_inv : forall x y, finv o x = Some y -> finv o' (phi x) = Some (phi y) }.

Definition bzi_ops (m : Z) : fops bigZ :=
  let b := bz_ops (BigZ.of_Z m) in
  {| f0 := f0 b; f1 := f1 b; fadd := fadd b; fsub := fsub b; fmul := fmul b; fneg := fneg b;
     fsqr := fsqr b; fdbl := fdbl b;
     finv := fun x => let y := fpowz b x (m - 2) in if BigZ.eqb (fmul b x y) 1%bigZ then Some y else None;
     feqb := feqb b; fis0 := fis0 b |}.
Section MulZero.
Context {E : Type} (o : fops E) (HR : ring_laws o).
Add Ring RMZ : (rl_ring _ HR).
Lemma mul_zero_l y : fmul o (f0 o) y = f0 o.
Proof. ring. Qed.
End MulZero.
Lemma bzi_ihom {F} p (o : fops F) inj : prime_field p o inj -> ihom (bzi_ops p) o (fun b => inj (BigZ.to_Z b)).
Proof.
  intros HP. pose proof (bz_hom p o inj HP) as [A B C D E G H I]. constructor; [constructor; assumption|].
  pose proof (pf_laws _ _ _ HP) as HL.
  intros x y. cbn [bzi_ops finv]. cbv zeta. set (z := fpowz _ x _). destruct (BigZ.eqb _ _) eqn:Q; [|discriminate].
  intros X. assert (z = y) as -> by congruence. apply BigZ.eqb_eq in Q.
  assert (M : fmul o (inj (BigZ.to_Z x)) (inj (BigZ.to_Z y)) = f1 o).
  { etransitivity; [symmetry; apply E|]. etransitivity; [|exact B]. cbv beta. rewrite Q. reflexivity. }
  assert (N : inj (BigZ.to_Z x) <> f0 o).
  { intros Z. rewrite Z in M. apply (fl_1_0 _ HL). rewrite <- M. apply (mul_zero_l o (fl_rl _ HL)). }
  destruct (fl_inv _ HL _ N) as (w & -> & W). f_equal. apply (mul_cancel_l o HL _ _ _ N). rewrite M, <- W. reflexivity.
Qed.

Section Quad.
Context {F G : Type} (o : fops F) (o' : fops G) (phi : F -> G) (I : ihom o o' phi).
Let Hf := ih _ _ _ I.
Ltac hom := repeat rewrite ?(fh_0 _ _ _ Hf), ?(fh_1 _ _ _ Hf), ?(fh_add _ _ _ Hf),
  ?(fh_sub _ _ _ Hf), ?(fh_mul _ _ _ Hf), ?(fh_neg _ _ _ Hf), ?(fh_sqr _ _ _ Hf), ?(fh_dbl _ _ _ Hf).
Notation qm := (quad_map phi). Notation cm := (cubic_map phi).
Section Mnr.
Context (mnr : F -> F) (mnr' : G -> G).
Hypothesis Hm : forall x, phi (mnr x) = mnr' (phi x).
Lemma quad_ihom sq sq' : (forall x, qm (sq x) = sq' (qm x)) -> ihom (quad_ops o mnr sq) (quad_ops o' mnr' sq') qm.
Proof.
  intros Hs. constructor; [apply (quad_hom o o' phi Hf); assumption|]. intros x y. cbn [quad_ops finv]. unfold quad_invert.
  replace (quad_norm o' mnr' (qm x)) with (phi (quad_norm o mnr x)) by (unfold quad_norm; cbn [quad_map q0 q1]; hom; rewrite Hm; hom; reflexivity).
  destruct (finv o (quad_norm o mnr x)) as [t|] eqn:E; [|discriminate]. rewrite (ih_inv _ _ _ I _ _ E).
  intros X. assert (y = mk_quad (fmul o (q0 x) t) (fmul o (q1 x) (fneg o t))) as -> by congruence.
  unfold quad_map. cbn [q0 q1]. hom. reflexivity.
Qed.
Lemma cubic_ihom : ihom (cubic_ops o mnr) (cubic_ops o' mnr') cm.
Proof.
  constructor; [constructor; intros; cbn [cubic_ops f0 f1 fadd fsub fmul fneg fsqr fdbl];
    unfold cubic_map, cubic_zero, cubic_one, cubic_add, cubic_sub, cubic_mul, cubic_neg, cubic_square, cubic_double;
    cbn [k0 k1 k2]; hom; rewrite ?Hm; hom; rewrite ?Hm; hom; reflexivity|].
  intros x y. cbn [cubic_ops finv]. unfold cubic_invert. cbn [cubic_map k0 k1 k2]. rewrite <- !Hm.
  repeat rewrite <- ?(fh_sqr _ _ _ Hf), <- ?(fh_neg _ _ _ Hf), <- ?Hm, <- ?(fh_mul _ _ _ Hf), <- ?(fh_sub _ _ _ Hf), <- ?(fh_add _ _ _ Hf).
  cbv zeta.
  match goal with |- context [finv o ?t] => destruct (finv o t) as [s|] eqn:E; [|discriminate] end.
  rewrite (ih_inv _ _ _ I _ _ E). intros X. apply (f_equal (fun z => match z with Some v => v | None => x end)) in X. cbv beta iota in X.
  subst y. unfold cubic_map. cbn [k0 k1 k2]. hom. reflexivity.
Qed.
Lemma mul_by_v_hom x : cm (cubic_mul_by_v mnr x) = cubic_mul_by_v mnr' (cm x).
Proof. unfold cubic_map, cubic_mul_by_v. cbn [k0 k1 k2]. rewrite Hm. reflexivity. Qed.
Ltac tower := unfold quad_map, cubic_map, mul_by_01, mul_by_1, cubic_mul_by_v, cubic_add, cubic_sub; cbn [q0 q1 k0 k1 k2];
  hom; rewrite ?Hm; hom; rewrite ?Hm; hom; reflexivity.
Lemma mul_by_034_hom x a b c : quad_map cm (mul_by_034 o mnr x a b c) = mul_by_034 o' mnr' (quad_map cm x) (phi a) (phi b) (phi c).
Proof. unfold mul_by_034. cbv zeta. tower. Qed.
Lemma mul_by_014_hom x a b c : quad_map cm (mul_by_014 o mnr x a b c) = mul_by_014 o' mnr' (quad_map cm x) (phi a) (phi b) (phi c).
Proof. unfold mul_by_014. cbv zeta. tower. Qed.
Lemma cyc_hom x : quad_map cm (cyclotomic_square o mnr x) = cyclotomic_square o' mnr' (quad_map cm x).
Proof. unfold cyclotomic_square, fp4_square. cbv zeta. tower. Qed.
End Mnr.
Lemma quad_square_complex_hom x : qm (quad_square_complex o x) = quad_square_complex o' (qm x).
Proof. unfold quad_square_complex, quad_map. cbn [q0 q1]. hom. reflexivity. Qed.
Lemma frob6_hom fr fr' t1 t2 k x : (forall k x, phi (fr k x) = fr' k (phi x)) ->
  cm (fq6_frobenius o fr t1 t2 k x) = fq6_frobenius o' fr' (map phi t1) (map phi t2) k (cm x).
Proof.
  intros Hfr. unfold fq6_frobenius, cubic_map. cbn [k0 k1 k2]. rewrite <- (fh_0 _ _ _ Hf), !map_nth. hom. rewrite !Hfr. reflexivity.
Qed.
Lemma frob12_hom fr fr' t1 t2 t k x : (forall k x, phi (fr k x) = fr' k (phi x)) ->
  quad_map cm (fq12_frobenius o fr t1 t2 t k x) = fq12_frobenius o' fr' (map phi t1) (map phi t2) (map phi t) k (quad_map cm x).
Proof.
  intros Hfr. unfold fq12_frobenius. cbv zeta. unfold quad_map. cbn [q0 q1].
  rewrite <- !(frob6_hom fr fr' t1 t2 k _ Hfr). unfold cubic_map. cbn [k0 k1 k2]. rewrite <- (fh_0 _ _ _ Hf), !map_nth. hom. reflexivity.
Qed.
Lemma frob2_hom k x : qm (fq2_frobenius o k x) = fq2_frobenius o' k (qm x).
Proof. unfold fq2_frobenius. destruct (k mod 2 =? 0); [reflexivity|]. apply (quad_conj_hom o o' phi Hf). Qed.

Definition aff_map (a : aff F) : aff G := mk_aff (phi (ax a)) (phi (ay a)).
Definition proj_map (a : proj F) : proj G := mk_proj (phi (px a)) (phi (py a)) (phi (pz a)).
Definition map3 (c : F * F * F) : G * G * G := let '(x, y, z) := c in (phi x, phi y, phi z).
Lemma double_coeffs_hom r : double_coeffs o' (proj_map r) = let '(c, r') := double_coeffs o r in (map3 c, proj_map r').
Proof. unfold double_coeffs, proj_map, map3. cbv zeta. cbn [px py pz]. hom. reflexivity. Qed.
Lemma add_coeffs_hom r q : add_coeffs o' (proj_map r) (aff_map q) = let '(c, r') := add_coeffs o r q in (map3 c, proj_map r').
Proof. unfold add_coeffs, proj_map, aff_map, map3. cbv zeta. cbn [px py pz ax ay]. hom. reflexivity. Qed.
Lemma aff_neg_hom q : aff_map (aff_neg o q) = aff_neg o' (aff_map q).
Proof. unfold aff_neg, aff_map. cbn [ax ay]. hom. reflexivity. Qed.
End Quad.
Lemma fq12_ihom {F G} (o : fops F) (o' : fops G) phi mnr mnr' : ihom o o' phi -> (forall x, phi (mnr x) = mnr' (phi x)) ->
  ihom (fq12_ops o mnr) (fq12_ops o' mnr') (quad_map (cubic_map phi)).
Proof.
  intros I Hm. unfold fq12_ops. cbv zeta. pose proof (cubic_ihom o o' phi I mnr mnr' Hm) as I6.
  pose proof (mul_by_v_hom phi mnr mnr' Hm) as Hv.
  apply (quad_ihom _ _ _ I6 _ _ Hv). apply (quad_square_hom _ _ _ (ih _ _ _ I6) _ _ Hv).
Qed.

Section Loop.
Context {F G E F' G' E' : Type} (o : fops F) (o2 : fops G) (o12 : fops E) (o' : fops F') (o2' : fops G') (o12' : fops E').
Context (phi : F -> F') (phi2 : G -> G') (phi12 : E -> E') (I : ihom o o' phi) (I2 : ihom o2 o2' phi2) (I12 : ihom o12 o12' phi12).
Context (ell : E -> G * G * G -> aff F -> E) (ell' : E' -> G' * G' * G' -> aff F' -> E').
Hypothesis Hell : forall f c p, phi12 (ell f c p) = ell' (phi12 f) (map3 phi2 c) (aff_map phi p).
Definition tmap (t : aff F * aff G) : aff F' * aff G' := (aff_map phi (fst t), aff_map phi2 (snd t)).
Definition smap (s : E * list (proj G)) : E' * list (proj G') := (phi12 (fst s), map (proj_map phi2) (snd s)).
Lemma for_terms_hom st st' (Hs : forall f r t, st' (phi12 f) (proj_map phi2 r) (tmap t) = let '(f', r') := st f r t in (phi12 f', proj_map phi2 r')) ts :
  forall f rs, for_terms st' (map tmap ts) (phi12 f) (map (proj_map phi2) rs) = smap (for_terms st ts f rs).
Proof.
  induction ts as [|t ts IH]; intros f rs; [reflexivity|]. destruct rs as [|r rs]; [reflexivity|].
  cbn [for_terms map]. rewrite Hs. destruct (st f r t) as [f' r']. rewrite IH. destruct (for_terms st ts f' rs) as [f'' rs'']. reflexivity.
Qed.
Lemma double_step_hom f r t : double_step o2' ell' (phi12 f) (proj_map phi2 r) (tmap t) = let '(f', r') := double_step o2 ell f r t in (phi12 f', proj_map phi2 r').
Proof.
  unfold double_step, miller_double. rewrite (double_coeffs_hom o2 o2' phi2 I2). destruct (double_coeffs o2 r) as [c r'].
  rewrite Hell. reflexivity.
Qed.
Lemma add_step_hom h h' (Hh : forall q, aff_map phi2 (h q) = h' (aff_map phi2 q)) f r t :
  add_step o2' ell' h' (phi12 f) (proj_map phi2 r) (tmap t) = let '(f', r') := add_step o2 ell h f r t in (phi12 f', proj_map phi2 r').
Proof.
  unfold add_step, miller_add. cbn [tmap fst snd]. rewrite <- Hh, (add_coeffs_hom o2 o2' phi2 I2). destruct (add_coeffs o2 r (h (snd t))) as [c r'].
  rewrite Hell. reflexivity.
Qed.
Lemma digit_loop_hom ds ts : forall first f rs,
  digit_loop o2' o12' ell' first ds (map tmap ts) (phi12 f) (map (proj_map phi2) rs) = smap (digit_loop o2 o12 ell first ds ts f rs).
Proof.
  induction ds as [|d ds IH]; intros first f rs; [reflexivity|]. cbn [digit_loop].
  replace (if first then phi12 f else fsqr o12' (phi12 f)) with (phi12 (if first then f else fsqr o12 f))
    by (destruct first; [reflexivity|apply (fh_sqr _ _ _ (ih _ _ _ I12))]).
  rewrite (for_terms_hom (double_step o2 ell) (double_step o2' ell') double_step_hom). destruct (for_terms (double_step o2 ell) ts _ rs) as [f1 r1]. unfold smap at 1. cbn [fst snd].
  rewrite (for_terms_hom (add_step o2 ell (fun q => q)) (add_step o2' ell' (fun q => q)) (add_step_hom (fun q => q) (fun q => q) (fun q => eq_refl))).
  rewrite (for_terms_hom (add_step o2 ell (aff_neg o2)) (add_step o2' ell' (aff_neg o2')) (add_step_hom (aff_neg o2) (aff_neg o2') (aff_neg_hom o2 o2' phi2 I2))).
  destruct (d =? 1); [destruct (for_terms _ ts f1 r1) as [f2 r2]; apply IH|].
  destruct (d =? -1); [destruct (for_terms _ ts f1 r1) as [f2 r2]; apply IH|]. apply IH.
Qed.
End Loop.

(** The loops on one term, identities not considered. *)
Section Core.
Context {F G E : Type} (o : fops F) (o2 : fops G) (o12 : fops E) (ell : E -> G * G * G -> aff F -> E).
Definition start1 (t : aff F * aff G) : list (proj G) := [mk_proj (ax (snd t)) (ay (snd t)) (f1 o2)].
Definition bn_core (naf : list Z) (h1 h2 : aff G -> aff G) (t : aff F * aff G) : E :=
  let '(f, rs) := digit_loop o2 o12 ell true (skipn 1 (rev naf)) [t] (f1 o12) (start1 t) in
  let '(f, rs) := for_terms (add_step o2 ell h1) [t] f rs in
  let '(f, rs) := for_terms (add_step o2 ell h2) [t] f rs in
  f.
Definition bls_core (bits : list Z) (conj : E -> E) (t : aff F * aff G) : E :=
  let '(f, rs) := digit_loop o2 o12 ell true (skipn 1 bits) [t] (f1 o12) (start1 t) in
  conj f.
Context (p : aff F) (q : aff G) (Np : aff_is_identity o p = false) (Nq : aff_is_identity o2 q = false).
Lemma live1 : filter (live o o2) [(p, q)] = [(p, q)].
Proof. cbn [filter live fst snd]. unfold live. cbn [fst snd]. rewrite Np, Nq. reflexivity. Qed.
Lemma start_1 : start o2 [(p, q)] = start1 (p, q).
Proof. unfold start, start1, to_curve. cbn [map snd]. rewrite Nq. reflexivity. Qed.
Lemma bn_core_eq naf h1 h2 : bn_miller_loop o o2 o12 ell naf h1 h2 [(p, q)] = bn_core naf h1 h2 (p, q).
Proof. unfold bn_miller_loop, bn_core. rewrite live1, start_1. reflexivity. Qed.
Lemma bls_core_eq bits cj : bls_miller_loop o o2 o12 ell bits cj [(p, q)] = bls_core bits cj (p, q).
Proof. unfold bls_miller_loop, bls_core. rewrite live1, start_1. reflexivity. Qed.
End Core.
Section CoreHom.
Context {F G E F' G' E' : Type} (o2 : fops G) (o12 : fops E) (o2' : fops G') (o12' : fops E').
Context (phi : F -> F') (phi2 : G -> G') (phi12 : E -> E') (I2 : ihom o2 o2' phi2) (I12 : ihom o12 o12' phi12).
Context (ell : E -> G * G * G -> aff F -> E) (ell' : E' -> G' * G' * G' -> aff F' -> E').
Hypothesis Hell : forall f c p, phi12 (ell f c p) = ell' (phi12 f) (map3 phi2 c) (aff_map phi p).
Notation tm := (tmap phi phi2).
Lemma start1_hom t : start1 o2' (tm t) = map (proj_map phi2) (start1 o2 t).
Proof. unfold start1. cbn [map]. unfold proj_map. cbn [px py pz]. rewrite (fh_1 _ _ _ (ih _ _ _ I2)). reflexivity. Qed.
Lemma bn_core_hom naf h1 h2 h1' h2' t : (forall q, aff_map phi2 (h1 q) = h1' (aff_map phi2 q)) -> (forall q, aff_map phi2 (h2 q) = h2' (aff_map phi2 q)) ->
  phi12 (bn_core o2 o12 ell naf h1 h2 t) = bn_core o2' o12' ell' naf h1' h2' (tm t).
Proof.
  intros H1 H2. unfold bn_core. rewrite start1_hom, <- (fh_1 _ _ _ (ih _ _ _ I12)). change [tm t] with (map tm [t]).
  rewrite (digit_loop_hom o2 o12 o2' o12' phi phi2 phi12 I2 I12 ell ell' Hell).
  destruct (digit_loop o2 o12 ell true _ [t] _ _) as [f rs]. unfold smap at 1. cbn [fst snd].
  rewrite (for_terms_hom phi phi2 phi12 (add_step o2 ell h1) (add_step o2' ell' h1') (add_step_hom o2 o2' phi phi2 phi12 I2 ell ell' Hell h1 h1' H1)).
  destruct (for_terms (add_step o2 ell h1) [t] f rs) as [f' rs']. unfold smap at 1. cbn [fst snd].
  rewrite (for_terms_hom phi phi2 phi12 (add_step o2 ell h2) (add_step o2' ell' h2') (add_step_hom o2 o2' phi phi2 phi12 I2 ell ell' Hell h2 h2' H2)).
  destruct (for_terms (add_step o2 ell h2) [t] f' rs') as [f'' rs'']. reflexivity.
Qed.
Lemma bls_core_hom bits cj cj' t : (forall x, phi12 (cj x) = cj' (phi12 x)) ->
  phi12 (bls_core o2 o12 ell bits cj t) = bls_core o2' o12' ell' bits cj' (tm t).
Proof.
  intros H1. unfold bls_core. rewrite start1_hom, <- (fh_1 _ _ _ (ih _ _ _ I12)). change [tm t] with (map tm [t]).
  rewrite (digit_loop_hom o2 o12 o2' o12' phi phi2 phi12 I2 I12 ell ell' Hell).
  destruct (digit_loop o2 o12 ell true _ [t] _ _) as [f rs]. unfold smap at 1. cbn [fst snd]. apply H1.
Qed.
End CoreHom.

Section FinalHom.
Context {E E' : Type} (o : fops E) (o' : fops E') (phi : E -> E') (I : ihom o o' phi).
Context (conj : E -> E) (conj' : E' -> E') (frob : Z -> E -> E) (frob' : Z -> E' -> E') (cyc : E -> E) (cyc' : E' -> E').
Hypothesis Hc : forall x, phi (conj x) = conj' (phi x).
Hypothesis Hfr : forall k x, phi (frob k x) = frob' k (phi x).
Hypothesis Hcy : forall x, phi (cyc x) = cyc' (phi x).
Let Hf := ih _ _ _ I.
Lemma exp_bits_hom x n f : phi (exp_bits o cyc x n f) = exp_bits o' cyc' x n (phi f).
Proof.
  unfold exp_bits. rewrite <- (fh_1 _ _ _ Hf). generalize (f1 o). induction (rev (seq 0 n)) as [|i l IH]; intros a; [reflexivity|].
  cbn [fold_left]. rewrite IH. f_equal. cbv zeta. rewrite <- Hcy. destruct (Z.testbit x (Z.of_nat i)); [apply (fh_mul _ _ _ Hf)|reflexivity].
Qed.
Lemma bls_exp_hom f : phi (bls_exp_by_x o conj cyc f) = bls_exp_by_x o' conj' cyc' (phi f).
Proof.
  unfold bls_exp_by_x. rewrite Hc, <- (fh_1 _ _ _ Hf). f_equal. generalize (f1 o). generalize true.
  induction bls_x as [|d l IH]; intros b a; [reflexivity|]. cbn [bls_exp_loop]. rewrite IH. f_equal. cbv zeta.
  destruct b; destruct (d =? 1); rewrite ?(fh_mul _ _ _ Hf), ?Hcy; reflexivity.
Qed.
Section Bn.
Context (ex : E -> E) (ex' : E' -> E').
Hypothesis Hx : forall x, phi (ex x) = ex' (phi x).
Lemma bn_final_hom f x : bn_final_exponentiation o conj frob cyc ex f = Some x ->
  bn_final_exponentiation o' conj' frob' cyc' ex' (phi f) = Some (phi x).
Proof.
  unfold bn_final_exponentiation. destruct (finv o f) as [t|] eqn:Q; [|discriminate]. rewrite (ih_inv _ _ _ I _ _ Q). cbv zeta.
  intros X. apply (f_equal (fun z => match z with Some v => v | None => f end)) in X. cbv beta iota in X. subst x.
  f_equal. repeat rewrite ?(fh_mul _ _ _ Hf), ?Hc, ?Hfr, ?Hcy, ?Hx. reflexivity.
Qed.
End Bn.
Lemma bls_final_hom f x : bls_final_exponentiation o conj frob cyc f = Some x ->
  bls_final_exponentiation o' conj' frob' cyc' (phi f) = Some (phi x).
Proof.
  unfold bls_final_exponentiation. destruct (finv o f) as [t|] eqn:Q; [|discriminate]. rewrite (ih_inv _ _ _ I _ _ Q). cbv zeta.
  intros X. apply (f_equal (fun z => match z with Some v => v | None => f end)) in X. cbv beta iota in X. subst x.
  f_equal. repeat rewrite ?(fh_mul _ _ _ Hf), ?Hc, ?Hfr, ?Hcy, ?bls_exp_hom. reflexivity.
Qed.
End FinalHom.

(** ** The three engines *)
Section Engines.
Context {F G : Type} (o : fops F) (o' : fops G) (phi : F -> G) (I : ihom o o' phi) (inj : Z -> F) (inj' : Z -> G).
Hypothesis Hi : forall z, phi (inj z) = inj' z.
Let Hf := ih _ _ _ I.
Notation qm := (quad_map phi). Notation m12 := (quad_map (cubic_map (quad_map phi))).
Ltac hom := repeat rewrite ?(fh_0 _ _ _ Hf), ?(fh_1 _ _ _ Hf), ?(fh_add _ _ _ Hf),
  ?(fh_sub _ _ _ Hf), ?(fh_mul _ _ _ Hf), ?(fh_neg _ _ _ Hf), ?(fh_sqr _ _ _ Hf), ?(fh_dbl _ _ _ Hf).
Lemma inj2_hom c : qm (inj2 inj c) = inj2 inj' c.
Proof. unfold quad_map, inj2. cbn [q0 q1]. rewrite !Hi. reflexivity. Qed.
Lemma inj2_map l : map qm (map (inj2 inj) l) = map (inj2 inj') l.
Proof. rewrite map_map. apply map_ext. exact inj2_hom. Qed.
Lemma scale2_hom c s : qm (scale2 o c s) = scale2 o' (qm c) (phi s).
Proof. unfold scale2, quad_map. cbn [q0 q1]. hom. reflexivity. Qed.
Section Tw.
Context (o2 : fops (quad F)) (o2' : fops (quad G)) (I2 : ihom o2 o2' qm) (mnr : quad F -> quad F) (mnr' : quad G -> quad G).
Hypothesis Hm : forall x, qm (mnr x) = mnr' (qm x).
Lemma ell_034_hom f c p : m12 (ell_034 o o2 mnr f c p) = ell_034 o' o2' mnr' (m12 f) (map3 qm c) (aff_map phi p).
Proof.
  destruct c as [[c0 c1] c2]. unfold ell_034, map3. cbn [aff_map ax ay].
  rewrite (mul_by_034_hom o2 o2' qm I2 mnr mnr' Hm), !scale2_hom. reflexivity.
Qed.
Lemma ell_014_hom f c p : m12 (ell_014 o o2 mnr f c p) = ell_014 o' o2' mnr' (m12 f) (map3 qm c) (aff_map phi p).
Proof.
  destruct c as [[c0 c1] c2]. unfold ell_014, map3. cbn [aff_map ax ay].
  rewrite (mul_by_014_hom o2 o2' qm I2 mnr mnr' Hm), !scale2_hom. reflexivity.
Qed.
Lemma frob_hom t k x : m12 (tower_frob12 o inj t o2 k x) = tower_frob12 o' inj' t o2' k (m12 x).
Proof.
  unfold tower_frob12. rewrite (frob12_hom o2 o2' qm I2 _ (fq2_frobenius o')) by apply (frob2_hom o o' phi I).
  rewrite !inj2_map. reflexivity.
Qed.
Lemma conj12_hom x : m12 (conj12 (fq6_ops o2 mnr) x) = conj12 (fq6_ops o2' mnr') (m12 x).
Proof. apply (quad_conj_hom _ _ _ (ih _ _ _ (cubic_ihom o2 o2' qm I2 mnr mnr' Hm))). Qed.
Lemma twist_q1_hom g h q : aff_map qm (twist_q1 o o2 g h q) = twist_q1 o' o2' (qm g) (qm h) (aff_map qm q).
Proof. unfold twist_q1, aff_map. cbn [ax ay]. rewrite !(fh_mul _ _ _ (ih _ _ _ I2)), !(quad_conj_hom o o' phi Hf). reflexivity. Qed.
Lemma twist_minusq2_hom g q : aff_map qm (twist_minusq2 o2 g q) = twist_minusq2 o2' (qm g) (aff_map qm q).
Proof. unfold twist_minusq2, aff_map. cbn [ax ay]. rewrite !(fh_mul _ _ _ (ih _ _ _ I2)). reflexivity. Qed.
End Tw.
Lemma bn2 : ihom (fq2_ops o) (fq2_ops o') qm.
Proof.
  apply (quad_ihom o o' phi I).
  - intros x. apply (fh_neg _ _ _ Hf).
  - exact (quad_square_complex_hom o o' phi I).
Qed.
Lemma pl2 : ihom (pluto_fp2 o) (pluto_fp2 o') qm.
Proof.
  assert (M : forall x, phi (mnr_m5 o x) = mnr_m5 o' (phi x)) by (intros x; unfold mnr_m5; hom; reflexivity).
  apply (quad_ihom o o' phi I).
  - exact M.
  - exact (quad_square_hom o o' phi Hf _ _ M).
Qed.
Lemma bn_mnr x : qm (bn256_fq2_mnr o x) = bn256_fq2_mnr o' (qm x).
Proof. unfold bn256_fq2_mnr, quad_double, quad_map. cbv zeta. cbn [q0 q1]. hom. reflexivity. Qed.
Lemma bls_mnr x : qm (bls_fq2_mnr o x) = bls_fq2_mnr o' (qm x).
Proof. unfold bls_fq2_mnr, quad_map. cbn [q0 q1]. hom. reflexivity. Qed.
Lemma pl_mnr x : qm (pluto_mnr o inj x) = pluto_mnr o' inj' (qm x).
Proof. unfold pluto_mnr, default_mnr. rewrite (fh_mul _ _ _ (ih _ _ _ pl2)). f_equal. apply inj2_hom. Qed.
Lemma nth_hom k l : qm (inj2 inj (nth k l (0, 0))) = inj2 inj' (nth k l (0, 0)).
Proof. apply inj2_hom. Qed.

Definition bn256_core (o : fops F) (inj : Z -> F) : aff F * aff (quad F) -> quad (cubic (quad F)) :=
  let o2 := bn256_fq2 o in
  bn_core o2 (bn256_fq12 o) (ell_034 o o2 (bn256_fq2_mnr o)) six_u_plus_2_naf
    (twist_q1 o o2 (bn256_g2_frob inj 1) (inj2 inj bn256_xi_half)) (twist_minusq2 o2 (bn256_g2_frob inj 2)).
Definition pluto_core (o : fops F) (inj : Z -> F) : aff F * aff (quad F) -> quad (cubic (quad F)) :=
  let o2 := pluto_fp2 o in
  bn_core o2 (pluto_fp12 o inj) (ell_034 o o2 (pluto_mnr o inj)) neg_six_u_plus_2_naf
    (fun q => aff_neg o2 (twist_q1 o o2 (pluto_g2_frob inj 1) (inj2 inj pluto_xi_half) q))
    (fun q => aff_neg o2 (twist_minusq2 o2 (pluto_g2_frob inj 2) q)).
Definition bls_core1 (o : fops F) : aff F * aff (quad F) -> quad (cubic (quad F)) :=
  let o2 := bls_fq2 o in bls_core o2 (bls_fq12 o) (ell_014 o o2 (bls_fq2_mnr o)) bls_x (bls_conj o).
Notation tm := (tmap phi qm).
Section At.
Context (p : aff F) (q : aff (quad F)).
Hypothesis Np : aff_is_identity o' (aff_map phi p) = false.
Lemma bn256_core_hom : m12 (bn256_core o inj (p, q)) =
  bn_core (bn256_fq2 o') (bn256_fq12 o') (ell_034 o' (bn256_fq2 o') (bn256_fq2_mnr o')) six_u_plus_2_naf
    (twist_q1 o' (bn256_fq2 o') (bn256_g2_frob inj' 1) (inj2 inj' bn256_xi_half)) (twist_minusq2 (bn256_fq2 o') (bn256_g2_frob inj' 2))
    (aff_map phi p, aff_map qm q).
Proof.
  unfold bn256_core. cbv zeta. pose proof (fq12_ihom _ _ _ _ _ bn2 bn_mnr) as I12.
  refine (bn_core_hom (bn256_fq2 o) (bn256_fq12 o) (bn256_fq2 o') (bn256_fq12 o') phi qm m12 bn2 I12 _ _ (ell_034_hom _ _ bn2 _ _ bn_mnr)
    six_u_plus_2_naf _ _ _ _ (p, q) _ _).
  - intros z. rewrite (twist_q1_hom _ _ bn2). unfold bn256_g2_frob. rewrite !inj2_hom. reflexivity.
  - intros z. rewrite (twist_minusq2_hom _ _ bn2). unfold bn256_g2_frob. rewrite !inj2_hom. reflexivity.
Qed.
Lemma bn256_final_hom f x : bn256_final_exp o inj f = Some x -> bn256_final_exp o' inj' (m12 f) = Some (m12 x).
Proof.
  intros X. unfold bn256_final_exp in X |- *. pose proof (fq12_ihom _ _ _ _ _ bn2 bn_mnr) as I12.
  refine (bn_final_hom (bn256_fq12 o) (bn256_fq12 o') m12 I12 (bn256_conj o) (bn256_conj o') (bn256_frob o inj) (bn256_frob o' inj')
      (bn256_cyc o) (bn256_cyc o') _ _ _ (bn_exp_by_x (bn256_fq12 o) (bn256_cyc o)) (bn_exp_by_x (bn256_fq12 o') (bn256_cyc o')) _ f x X).
  - exact (conj12_hom _ _ bn2 _ _ bn_mnr).
  - exact (frob_hom _ _ bn2 bn256_tower).
  - exact (cyc_hom _ _ qm bn2 _ _ bn_mnr).
  - intros y. exact (exp_bits_hom (bn256_fq12 o) (bn256_fq12 o') m12 I12 _ _ (cyc_hom _ _ qm bn2 _ _ bn_mnr) bn_x 64 y).
Qed.
Theorem bn256_eval x : aff_is_identity (bn256_fq2 o') (aff_map qm q) = false ->
  bn256_final_exp o inj (bn256_core o inj (p, q)) = Some x ->
  bn256_pairing o' inj' (aff_map phi p) (aff_map qm q) = Some (m12 x).
Proof.
  intros Nq X. unfold bn256_pairing, bn256_miller. cbv zeta. rewrite (bn_core_eq _ _ _ _ _ _ Np Nq), <- bn256_core_hom.
  exact (bn256_final_hom _ _ X).
Qed.
Lemma pluto_core_hom : m12 (pluto_core o inj (p, q)) =
  bn_core (pluto_fp2 o') (pluto_fp12 o' inj') (ell_034 o' (pluto_fp2 o') (pluto_mnr o' inj')) neg_six_u_plus_2_naf
    (fun q => aff_neg (pluto_fp2 o') (twist_q1 o' (pluto_fp2 o') (pluto_g2_frob inj' 1) (inj2 inj' pluto_xi_half) q))
    (fun q => aff_neg (pluto_fp2 o') (twist_minusq2 (pluto_fp2 o') (pluto_g2_frob inj' 2) q))
    (aff_map phi p, aff_map qm q).
Proof.
  unfold pluto_core. cbv zeta. pose proof (fq12_ihom _ _ _ _ _ pl2 pl_mnr) as I12.
  refine (bn_core_hom (pluto_fp2 o) (pluto_fp12 o inj) (pluto_fp2 o') (pluto_fp12 o' inj') phi qm m12 pl2 I12 _ _ (ell_034_hom _ _ pl2 _ _ pl_mnr)
    neg_six_u_plus_2_naf _ _ _ _ (p, q) _ _).
  - intros z. rewrite (aff_neg_hom _ _ _ pl2), (twist_q1_hom _ _ pl2). unfold pluto_g2_frob. rewrite !inj2_hom. reflexivity.
  - intros z. rewrite (aff_neg_hom _ _ _ pl2), (twist_minusq2_hom _ _ pl2). unfold pluto_g2_frob. rewrite !inj2_hom. reflexivity.
Qed.
Lemma pluto_final_hom f x : pluto_final_exp o inj f = Some x -> pluto_final_exp o' inj' (m12 f) = Some (m12 x).
Proof.
  intros X. unfold pluto_final_exp in X |- *. pose proof (fq12_ihom _ _ _ _ _ pl2 pl_mnr) as I12.
  refine (bn_final_hom (pluto_fp12 o inj) (pluto_fp12 o' inj') m12 I12 (pluto_conj o inj) (pluto_conj o' inj') (pluto_frob o inj) (pluto_frob o' inj')
      (pluto_cyc o inj) (pluto_cyc o' inj') _ _ _ (pluto_exp_by_x (pluto_fp12 o inj) (pluto_conj o inj) (pluto_cyc o inj))
      (pluto_exp_by_x (pluto_fp12 o' inj') (pluto_conj o' inj') (pluto_cyc o' inj')) _ f x X).
  - exact (conj12_hom _ _ pl2 _ _ pl_mnr).
  - exact (frob_hom _ _ pl2 pluto_tower).
  - exact (cyc_hom _ _ qm pl2 _ _ pl_mnr).
  - intros y. unfold pluto_exp_by_x. etransitivity; [exact (conj12_hom _ _ pl2 _ _ pl_mnr _)|]. apply (f_equal (pluto_conj o' inj')).
    exact (exp_bits_hom (pluto_fp12 o inj) (pluto_fp12 o' inj') m12 I12 _ _ (cyc_hom _ _ qm pl2 _ _ pl_mnr) neg_pluto_u 111 y).
Qed.
Theorem pluto_eval x : aff_is_identity (pluto_fp2 o') (aff_map qm q) = false ->
  pluto_final_exp o inj (pluto_core o inj (p, q)) = Some x ->
  pluto_pairing o' inj' (aff_map phi p) (aff_map qm q) = Some (m12 x).
Proof.
  intros Nq X. unfold pluto_pairing, pluto_miller. cbv zeta. rewrite (bn_core_eq _ _ _ _ _ _ Np Nq), <- pluto_core_hom.
  exact (pluto_final_hom _ _ X).
Qed.
Lemma bls_core_hom1 : m12 (bls_core1 o (p, q)) =
  bls_core (bls_fq2 o') (bls_fq12 o') (ell_014 o' (bls_fq2 o') (bls_fq2_mnr o')) bls_x (bls_conj o') (aff_map phi p, aff_map qm q).
Proof.
  unfold bls_core1. cbv zeta. pose proof (fq12_ihom _ _ _ _ _ bn2 bls_mnr) as I12.
  exact (bls_core_hom (bls_fq2 o) (bls_fq12 o) (bls_fq2 o') (bls_fq12 o') phi qm m12 bn2 I12 _ _ (ell_014_hom _ _ bn2 _ _ bls_mnr)
    bls_x _ _ (p, q) (conj12_hom _ _ bn2 _ _ bls_mnr)).
Qed.
Lemma bls_final_hom1 f x : bls_final_exp o inj f = Some x -> bls_final_exp o' inj' (m12 f) = Some (m12 x).
Proof.
  intros X. unfold bls_final_exp in X |- *. pose proof (fq12_ihom _ _ _ _ _ bn2 bls_mnr) as I12.
  refine (bls_final_hom (bls_fq12 o) (bls_fq12 o') m12 I12 (bls_conj o) (bls_conj o') (bls_frob o inj) (bls_frob o' inj')
      (bls_cyc o) (bls_cyc o') _ _ _ f x X).
  - exact (conj12_hom _ _ bn2 _ _ bls_mnr).
  - exact (frob_hom _ _ bn2 bls12381_tower).
  - exact (cyc_hom _ _ qm bn2 _ _ bls_mnr).
Qed.
Theorem bls_eval x : aff_is_identity (bls_fq2 o') (aff_map qm q) = false ->
  bls_final_exp o inj (bls_core1 o (p, q)) = Some x ->
  bls_pairing o' inj' (aff_map phi p) (aff_map qm q) = Some (m12 x).
Proof.
  intros Nq X. unfold bls_pairing, bls_miller. cbv zeta. rewrite (bls_core_eq _ _ _ _ _ _ Np Nq), <- bls_core_hom1.
  exact (bls_final_hom1 _ _ X).
Qed.
End At.
End Engines.
