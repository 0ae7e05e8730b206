(** Evaluation of the generic model over [BigZ], and transfer of the results to
    any prime field.  Only used inside proofs about concrete constants. *)
From Verif Require Import Base Algebra Pow Tower TowerFacts FiniteField PrimeField Primality.
From Bignums Require Import BigZ.
Local Open Scope Z_scope.

(** Homomorphisms of operation records. *)
Record fhom {F G : Type} (o : fops F) (o' : fops G) (phi : F -> G) : Prop := {
  fh_0 : phi (f0 o) = f0 o';
  fh_1 : phi (f1 o) = f1 o';
  fh_add : forall a b, phi (fadd o a b) = fadd o' (phi a) (phi b);
  fh_sub : forall a b, phi (fsub o a b) = fsub o' (phi a) (phi b);
  fh_mul : forall a b, phi (fmul o a b) = fmul o' (phi a) (phi b);
  fh_neg : forall a, phi (fneg o a) = fneg o' (phi a);
  fh_sqr : forall a, phi (fsqr o a) = fsqr o' (phi a);
  fh_dbl : forall a, phi (fdbl o a) = fdbl o' (phi a) }.

Definition bz_ops (m : bigZ) : fops bigZ :=
  let r x := BigZ.modulo x m in
  {| f0 := 0%bigZ; f1 := 1%bigZ;
     fadd := fun a b => r (BigZ.add a b); fsub := fun a b => r (BigZ.sub a b);
     fmul := fun a b => r (BigZ.mul a b); fneg := fun a => r (BigZ.opp a);
     fsqr := fun a => r (BigZ.square a); fdbl := fun a => r (BigZ.add a a);
     finv := fun _ => None; feqb := BigZ.eqb; fis0 := BigZ.eqb 0%bigZ |}.

Lemma bz_hom {F} p (o : fops F) inj : prime_field p o inj ->
  fhom (bz_ops (BigZ.of_Z p)) o (fun b => inj (BigZ.to_Z b)).
Proof.
  intros HP. pose proof (pf_laws _ _ _ HP) as H. pose proof (fl_rl _ H) as HR.
  pose proof (pf_hom _ _ _ HP) as Hh.
  constructor; intros; cbn [bz_ops f0 f1 fadd fsub fmul fneg fsqr fdbl].
  - apply (zh_0 _ _ Hh).
  - apply (zh_1 _ _ Hh).
  - rewrite BigZ.spec_modulo, BigZ.spec_of_Z, (pf_mod _ _ _ HP), BigZ.spec_add. apply (zh_add _ _ Hh).
  - rewrite BigZ.spec_modulo, BigZ.spec_of_Z, (pf_mod _ _ _ HP), BigZ.spec_sub.
    apply (inj_sub _ HR _ Hh).
  - rewrite BigZ.spec_modulo, BigZ.spec_of_Z, (pf_mod _ _ _ HP), BigZ.spec_mul. apply (zh_mul _ _ Hh).
  - rewrite BigZ.spec_modulo, BigZ.spec_of_Z, (pf_mod _ _ _ HP), BigZ.spec_opp.
    apply (inj_neg _ HR _ Hh).
  - rewrite BigZ.spec_modulo, BigZ.spec_of_Z, (pf_mod _ _ _ HP), BigZ.spec_square, (rl_sqr _ HR).
    apply (zh_mul _ _ Hh).
  - rewrite BigZ.spec_modulo, BigZ.spec_of_Z, (pf_mod _ _ _ HP), BigZ.spec_add, (rl_dbl _ HR).
    apply (zh_add _ _ Hh).
Qed.

Section Hom.
Context {F G : Type} (o : fops F) (o' : fops G) (phi : F -> G) (Hf : fhom o o' phi).

Lemma fh_pow_pos x e : phi (fpow_pos o x e) = fpow_pos o' (phi x) e.
Proof.
  induction e as [e IH|e IH|]; cbn [fpow_pos]; cbv zeta; rewrite ?(fh_mul _ _ _ Hf), ?IH; reflexivity.
Qed.

Lemma fh_powz x e : phi (fpowz o x e) = fpowz o' (phi x) e.
Proof. destruct e; cbn [fpowz]; [apply (fh_1 _ _ _ Hf)|apply fh_pow_pos|apply (fh_1 _ _ _ Hf)]. Qed.

Definition quad_map (a : quad F) : quad G := mk_quad (phi (q0 a)) (phi (q1 a)).
Definition cubic_map (a : cubic F) : cubic G := mk_cubic (phi (k0 a)) (phi (k1 a)) (phi (k2 a)).

Ltac hom := repeat rewrite ?(fh_0 _ _ _ Hf), ?(fh_1 _ _ _ Hf), ?(fh_add _ _ _ Hf),
  ?(fh_sub _ _ _ Hf), ?(fh_mul _ _ _ Hf), ?(fh_neg _ _ _ Hf), ?(fh_sqr _ _ _ Hf), ?(fh_dbl _ _ _ Hf).

Lemma quad_hom mnr mnr' sq sq' :
  (forall x, phi (mnr x) = mnr' (phi x)) ->
  (forall x, quad_map (sq x) = sq' (quad_map x)) ->
  fhom (quad_ops o mnr sq) (quad_ops o' mnr' sq') quad_map.
Proof.
  intros Hm Hs. constructor; intros; [..|apply Hs|];
    unfold quad_map; cbn [quad_ops f0 f1 fadd fsub fmul fneg fdbl];
    unfold quad_zero, quad_one, quad_add, quad_sub, quad_mul, quad_neg, quad_double;
    cbn [q0 q1]; rewrite ?Hm; hom; rewrite ?Hm; hom; reflexivity.
Qed.

Lemma quad_square_hom mnr mnr' : (forall x, phi (mnr x) = mnr' (phi x)) ->
  forall x, quad_map (quad_square o mnr x) = quad_square o' mnr' (quad_map x).
Proof.
  intros Hm x. unfold quad_map, quad_square. cbn [q0 q1]. hom. rewrite !Hm. hom. reflexivity.
Qed.

Lemma quad_conj_hom x : quad_map (quad_conjugate o x) = quad_conjugate o' (quad_map x).
Proof. unfold quad_map, quad_conjugate. cbn [q0 q1]. hom. reflexivity. Qed.
End Hom.

(** ** Residuosity by exponentiation *)
Section Residue.
Context {F : Type} (p : Z) (o : fops F) (inj : Z -> F) (HP : prime_field p o inj).
Let H := pf_laws _ _ _ HP.

Lemma pf_bpow b e : 0 <= e -> fpowz o (inj b) e = inj (bpow b e p).
Proof.
  intros He. rewrite (pf_pow _ _ _ HP) by exact He.
  rewrite bpow_spec; [reflexivity|pose proof (pf_gt1 _ _ _ HP); lia|exact He].
Qed.

Lemma pf_powz_nonresidue b k : 0 < k -> (p - 1) mod k = 0 -> b mod p <> 0 ->
  bpow b ((p - 1) / k) p <> 1 -> forall x, fpowz o x k <> inj b.
Proof.
  intros Hk Hd Hb Hn x E. pose proof (pf_gt1 _ _ _ HP) as P1.
  assert (Ek : p - 1 = k * ((p - 1) / k)).
  { pose proof (Z.div_mod (p - 1) k ltac:(lia)). lia. }
  assert (Q : 0 <= (p - 1) / k) by (apply Z.div_pos; lia).
  assert (Hx : x <> f0 o).
  { intros ->. rewrite fpowz_zero in E by (try apply (fl_rl _ H); exact Hk).
    apply Hb. apply (pf_zero_iff _ _ _ HP). symmetry. exact E. }
  pose proof (fermat o H p (prime_field_finite _ _ _ HP) x Hx) as Fe.
  rewrite Ek, fpowz_mul, E, pf_bpow, <- (zh_1 _ _ (pf_hom _ _ _ HP)) in Fe
    by (try apply (fl_rl _ H); lia).
  apply (pf_eq _ _ _ HP) in Fe. rewrite bpow_spec in Fe, Hn by lia.
  rewrite Z.mod_mod, (Z.mod_small 1) in Fe by lia. contradiction.
Qed.

Lemma pf_nonsquare b : 2 < p -> (p - 1) mod 2 = 0 -> b mod p <> 0 ->
  bpow b ((p - 1) / 2) p <> 1 -> forall x, fmul o x x <> inj b.
Proof. intros _ Hd Hb Hn. exact (pf_powz_nonresidue b 2 ltac:(lia) Hd Hb Hn). Qed.
End Residue.
