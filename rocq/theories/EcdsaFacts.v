(** ECDSA on a curve of the crate, for any conversion of x-coordinates. *)
From Verif Require Import Base Algebra Word Limbs Bytes SpecField BytesFacts Field FieldFacts Inverse LimbField Group.
From Verif Require Import SpecCurve SpecCurveFacts Curve CurveFacts CurveGroup Ecdsa.

Section Mod.
Context (sc : fconf) (Hp : prime (modulus sc)).
Notation n := (modulus sc).
Lemma n_gt1 : 1 < n. Proof. apply prime_ge_2 in Hp. lia. Qed.
Lemma cancel_mod t w a b : (t * w) mod n = 1 -> (t * a) mod n = (t * b) mod n -> a mod n = b mod n.
Proof.
  intros Ew E. pose proof n_gt1 as N1.
  rewrite <- (Z.mul_1_l a), <- (Z.mul_1_l b). rewrite <- Ew. rewrite !Zmult_mod_idemp_l.
  replace (t * w * a) with (w * (t * a)) by ring. replace (t * w * b) with (w * (t * b)) by ring.
  rewrite <- (Zmult_mod_idemp_r (t * a)), E, Zmult_mod_idemp_r. reflexivity.
Qed.
End Mod.

Section Ecdsa.
Context {F : Type} (o : fops F) (c : cconf F) (HC : curve_laws o c) (g : aff F) (sc : fconf).
Context (Hs : odd_conf sc) (Hz : sized sc) (Hp : prime (modulus sc)).
Notation n := (modulus sc). Notation repr := (represents (num_limbs sc) (modulus sc)).
Notation add := (pt_add o (ca c)). Notation mulz := (pt_mulz o (ca c)). Notation neg := (pt_neg o).
Notation on := (on_curve o (ca c) (cb c)).
Context (base_repr : F -> list Z) (xv : F -> Z).
Notation G := (Some (ax g, ay g)).
Hypothesis Hx : forall x, repr (mod_n sc base_repr x) (xv x mod n).
Hypothesis Hg : on G.
Hypothesis Hn : mulz n G = None.
Hypothesis Hmul : forall p P k x, prep o c p P -> repr k x -> prep o c (proj_mul o c p (to_repr sc k)) (mulz x P).
Hypothesis Hamul : forall p P k x, arep o c p P -> repr k x -> prep o c (aff_mul o c p (to_repr sc k)) (mulz x P).

Let H := cl_field _ _ HC.
Let HR := fl_rl _ H.
Let H2 := cl_two _ _ HC.
Add Ring REc : (rl_ring _ HR).

(** the x-coordinate that [coordinates] returns *)
Definition xof (P : point (F := F)) : F := match P with Some (x, _) => x | None => f0 o end.

Lemma gen_prep : prep o c (proj_generator o g) G.
Proof.
  split; [exact Hg|]. cbn [proj_generator px py pz]. split; [exact (fl_1_0 _ H)|]. split; ring.
Qed.
Lemma coordinates_spec p P : arep o c p P -> coordinates o c p = Some (xof P, ay p).
Proof.
  intros A. unfold coordinates. destruct (from_xy_spec o c HC (ax p) (ay p)) as [[-> E]|[-> E]].
  - f_equal. f_equal. destruct A as [_ A]. destruct P as [[x y]|]; cbn [xof]; apply A.
  - exfalso. apply E. exists P. destruct p. exact A.
Qed.
Lemma inv_unwrap_spec a x : repr a x ->
  (x = 0 -> inv_unwrap sc a = None) /\
  (x <> 0 -> exists i y, inv_unwrap sc a = Some i /\ repr i y /\ (x * y) mod n = 1).
Proof.
  intros R. destruct (fe_invert_prime sc Hs Hz Hp a x R) as [A B]. unfold inv_unwrap. split.
  - intros E. now rewrite (A E).
  - intros E. destruct (B E) as (i & y & -> & Ri & Ey). exists i, y. auto.
Qed.

Lemma pk_spec sk d : repr sk d -> arep o c (ecdsa_pk o c g sc sk) (mulz d G).
Proof. intros R. apply (to_affine_repr o c HC), Hmul; [exact gen_prep|exact R]. Qed.

Theorem sign_spec sk d m e k t : repr sk d -> repr m e -> repr k t ->
  (t = 0 -> ecdsa_sign o c g sc base_repr sk m k = None) /\
  (t <> 0 -> exists r s sv, ecdsa_sign o c g sc base_repr sk m k = Some (r, s) /\
     let rv := xv (xof (mulz t G)) mod n in
     repr r rv /\ repr s sv /\ (t * sv) mod n = (e + rv * d) mod n).
Proof.
  intros Rd Re Rt. destruct (inv_unwrap_spec k t Rt) as [A B]. unfold ecdsa_sign. split.
  - intros E. now rewrite (A E).
  - intros E. destruct (B E) as (ki & w & -> & Rw & Ew).
    rewrite (coordinates_spec _ (mulz t G) (to_affine_repr o c HC _ _ (Hmul _ _ _ _ gen_prep Rt))).
    set (X := xof (mulz t G)). set (rv := xv X mod n).
    pose proof (Hx X) as Rr. fold rv in Rr.
    pose proof (fe_mul_repr sc Hs _ _ _ _ Rr Rd) as R1. pose proof (fe_add_repr sc Hs _ _ _ _ Re R1) as R2'.
    pose proof (fe_mul_repr sc Hs _ _ _ _ Rw R2') as R3.
    eexists _, _, _. split; [reflexivity|]. cbv zeta. split; [exact Rr|]. split; [exact R3|].
    rewrite Zplus_mod_idemp_r, Zmult_mod_idemp_r, Z.mul_assoc, Zmult_mod_idemp_r.
    rewrite Zmult_mod, Ew, Z.mul_1_l, Zmod_mod. reflexivity.
Qed.

(** What the verifier computes, for a public key [P]. *)
Theorem verify_spec pk P m e r rv s sv : arep o c pk P -> repr m e -> repr r rv -> repr s sv ->
  (sv = 0 -> ecdsa_verify o c g sc base_repr pk m r s = None) /\
  (sv <> 0 -> exists w b, (sv * w) mod n = 1 /\ 0 <= w < n /\ ecdsa_verify o c g sc base_repr pk m r s = Some b /\
     (b = true <-> xv (xof (add (mulz ((e * w) mod n) G) (mulz ((rv * w) mod n) P))) mod n = rv)).
Proof.
  intros Apk Re Rr Rs. destruct (inv_unwrap_spec s sv Rs) as [A B]. unfold ecdsa_verify. split.
  - intros E. now rewrite (A E).
  - intros E. destruct (B E) as (si & w & -> & Rw & Ew).
    pose proof (fe_mul_repr sc Hs _ _ _ _ Re Rw) as R1. pose proof (fe_mul_repr sc Hs _ _ _ _ Rr Rw) as R2'.
    pose proof (Hmul _ _ _ _ gen_prep R1) as P1. pose proof (Hamul _ _ _ _ Apk R2') as P2.
    rewrite (coordinates_spec _ _ (to_affine_repr o c HC _ _ (add_repr o c HC _ _ _ _ P1 P2))).
    exists w. eexists. split; [exact Ew|]. split; [apply Rw|]. split; [reflexivity|].
    rewrite (fe_eqb_repr sc Hs _ _ _ _ Rr (Hx _)). split; intros X; symmetry; exact X.
Qed.

Lemma mulz_congr a b P : on P -> mulz n P = None -> a mod n = b mod n -> mulz a P = mulz b P.
Proof. intros O K E. rewrite <- (mulz_mod o c HC n a P O K), <- (mulz_mod o c HC n b P O K), E. reflexivity. Qed.
(** Signatures verify. *)
Theorem complete sk d m e k t : repr sk d -> repr m e -> repr k t -> t <> 0 ->
  forall r s sv, ecdsa_sign o c g sc base_repr sk m k = Some (r, s) -> repr s sv -> sv <> 0 ->
  ecdsa_verify o c g sc base_repr (ecdsa_pk o c g sc sk) m r s = Some true.
Proof.
  intros Rd Re Rt Nt r s sv ES Rs Ns. pose proof (n_gt1 sc Hp) as N1.
  destruct (proj2 (sign_spec sk d m e k t Rd Re Rt) Nt) as (r' & s' & sv' & E & Rr & Rs' & Q).
  rewrite ES in E. injection E as <- <-. rewrite (repr_unique sc Hs s _ _ Rs' Rs) in Q. clear Rs' sv'. cbv zeta in Q, Rr.
  set (rv := xv (xof (mulz t G)) mod n) in *.
  destruct (proj2 (verify_spec _ _ m e r rv s sv (pk_spec sk d Rd) Re Rr Rs) Ns) as (w & b & Ew & Hw & -> & Hb).
  f_equal. apply Hb. clear Hb b.
  assert (E : add (mulz ((e * w) mod n) G) (mulz ((rv * w) mod n) (mulz d G)) = mulz t G).
  { rewrite <- (mulz_mul o c HC) by exact Hg. rewrite <- (mulz_add o c HC) by exact Hg.
    apply mulz_congr; [exact Hg|exact Hn|].
    rewrite Zplus_mod_idemp_l, Zplus_mod, Zmult_mod_idemp_l, <- Zplus_mod.
    replace (e * w + rv * w * d) with (w * (e + rv * d)) by ring.
    rewrite <- Zmult_mod_idemp_r, <- Q, Zmult_mod_idemp_r.
    replace (w * (t * sv)) with ((sv * w) * t) by ring. rewrite <- Zmult_mod_idemp_l, Ew, Z.mul_1_l. reflexivity. }
  rewrite E. reflexivity.
Qed.

(** [(r, -s)] verifies when [(r, s)] does. *)
Lemma xof_neg P : xof (neg P) = xof P.
Proof. destruct P as [[x y]|]; reflexivity. Qed.
Lemma inv_neg s w w' : (s * w) mod n = 1 -> (((- s) mod n) * w') mod n = 1 -> 0 <= w' < n -> forall a, (a * w') mod n = (- (a * w)) mod n.
Proof.
  intros E1 E2 Hw a. pose proof (n_gt1 sc Hp) as N1.
  apply (cancel_mod sc Hp s w); [exact E1|]. replace (s * - (a * w)) with (- a * (s * w)) by ring.
  rewrite <- (Zmult_mod_idemp_r (s * w)), E1, Z.mul_1_r.
  rewrite Zmult_mod_idemp_l in E2. replace (s * (a * w')) with (- a * (- s * w')) by ring.
  rewrite <- (Zmult_mod_idemp_r (- s * w')), E2, Z.mul_1_r. reflexivity.
Qed.
Lemma neg_add P Q : on P -> on Q -> neg (add P Q) = add (neg P) (neg Q).
Proof.
  intros OP OQ. pose proof (add_on o (ca c) (cb c) H H2 P Q OP OQ) as OA.
  pose proof (mulz_opp o c HC 1 (add P Q) OA) as X. rewrite (mulz_1 o c HC _ OA) in X. rewrite <- X.
  rewrite (mulz_pt_add o c HC) by assumption. rewrite !(mulz_opp o c HC) by assumption.
  rewrite !(mulz_1 o c HC) by assumption. reflexivity.
Qed.
Theorem malleable pk P m e r rv s sv : arep o c pk P -> mulz n P = None -> repr m e -> repr r rv -> repr s sv ->
  ecdsa_verify o c g sc base_repr pk m r (fe_neg sc s) = ecdsa_verify o c g sc base_repr pk m r s.
Proof.
  intros Apk KP Re Rr Rs. pose proof (n_gt1 sc Hp) as N1. pose proof (fe_neg_repr sc Hs _ _ Rs) as Rs'.
  destruct (verify_spec pk P m e r rv s sv Apk Re Rr Rs) as [A B].
  destruct (verify_spec pk P m e r rv _ _ Apk Re Rr Rs') as [A' B'].
  pose proof (proj1 (proj2 Rs)) as Bs.
  destruct (Z.eq_dec sv 0) as [-> |Ns].
  - rewrite (A eq_refl), A' by reflexivity. reflexivity.
  - assert (Ns' : (- sv) mod n <> 0).
    { intros E. apply Z.mod_divide in E; [|lia]. apply Z.divide_opp_r in E. apply Z.divide_pos_le in E; lia. }
    destruct (B Ns) as (w & b & E1 & Hw & -> & Hb). destruct (B' Ns') as (w' & b' & E1' & Hw' & -> & Hb').
    f_equal. assert (OP : on P) by apply Apk.
    assert (EQ : add (mulz ((e * w') mod n) G) (mulz ((rv * w') mod n) P) =
                 neg (add (mulz ((e * w) mod n) G) (mulz ((rv * w) mod n) P))).
    { rewrite !(inv_neg sv w w' E1 E1' Hw').
      rewrite !(mulz_mod o c HC n) by assumption. rewrite !(mulz_opp o c HC) by assumption.
      pose proof (mulz_on o c HC (e * w) G Hg) as O1. pose proof (mulz_on o c HC (rv * w) P OP) as O2.
      symmetry. now apply neg_add. }
    rewrite EQ, xof_neg in Hb'. destruct b, b'; try reflexivity.
    + apply Hb'. now apply Hb.
    + symmetry. apply Hb. now apply Hb'.
Qed.
End Ecdsa.
