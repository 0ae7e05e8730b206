(** Finite subgroups given by a list of their members, direct sums of subgroups of coprime
    exponents, and the groups spanned by a list of elements. *)
From Verif Require Import Base Algebra TowerFacts FiniteField Primality Group.

Lemma NoDup_map_in {A B} (f : A -> B) l : NoDup l ->
  (forall u v, In u l -> In v l -> f u = f v -> u = v) -> NoDup (map f l).
Proof.
  induction l as [|u l IH]; intros Nd Inj; [constructor|]. cbn [map]. inversion Nd as [|? ? Np Nd']; subst. constructor.
  - intros X. apply in_map_iff in X. destruct X as (v & Ev & Hv).
    apply Np. rewrite (Inj u v (or_introl eq_refl) (or_intror Hv) (eq_sym Ev)). exact Hv.
  - apply IH; [exact Nd'|]. intros x y Hx Hy. apply Inj; right; assumption.
Qed.

Section Sums.
Context {G : Type} (g : gops G) (GL : grp_laws g).
Infix "+" := (gadd g). Notation "0" := (g0 g). Notation "- x" := (gneg g x). Notation mul := (gmul g).

(** [mem] is a subgroup with [n] elements, all killed by [e]. *)
Record subgrp (mem : G -> Prop) (n e : Z) : Prop := {
  sg_0 : mem 0;
  sg_add : forall x y, mem x -> mem y -> mem (x + y);
  sg_neg : forall x, mem x -> mem (- x);
  sg_exp : forall x, mem x -> mul e x = 0;
  sg_list : exists s, NoDup s /\ (forall x, In x s <-> mem x) /\ Z.of_nat (length s) = n }.

Lemma sg_mul mem n e k x : subgrp mem n e -> mem x -> mem (mul k x).
Proof.
  intros S Hx. revert k. apply Z.peano_ind.
  - apply (sg_0 _ _ _ S).
  - intros k IH. rewrite (gmul_succ _ GL). apply (sg_add _ _ _ S); assumption.
  - intros k IH. rewrite (gmul_pred _ GL). apply (sg_add _ _ _ S); [apply (sg_neg _ _ _ S)|]; assumption.
Qed.
Lemma subgrp_ext mem mem' n e : (forall x, mem x <-> mem' x) -> subgrp mem n e -> subgrp mem' n e.
Proof.
  intros E [A B C D (s & N & I & L)]. constructor.
  - apply E. exact A.
  - intros x y Hx Hy. apply E. apply B; apply E; assumption.
  - intros x Hx. apply E. apply C. apply E. exact Hx.
  - intros x Hx. apply D. apply E. exact Hx.
  - exists s. split; [exact N|]. split; [|exact L]. intros x. rewrite I. apply E.
Qed.

Lemma neg_add x y : - (x + y) = - x + - y.
Proof. symmetry. apply (g_neg_unique _ GL). rewrite (g_swap _ GL), !(gl_neg _ GL). apply (gl_0 _ GL). Qed.

Lemma zero_sub : subgrp (fun x => x = 0) 1 1.
Proof.
  constructor; try (intros; subst).
  - reflexivity.
  - apply (gl_0 _ GL).
  - apply (g_neg_0 _ GL).
  - apply (gmul_1 _ GL).
  - exists [0]. split; [constructor; [intros []|constructor]|]. split; [|reflexivity].
    intros x. cbn [In]. split; [intros [E|[]]; auto|intros ->; auto].
Qed.

(** ** Direct sums *)
Theorem sum_sub m1 n1 e1 m2 n2 e2 : subgrp m1 n1 e1 -> subgrp m2 n2 e2 -> Z.gcd e1 e2 = 1%Z ->
  subgrp (fun x => exists a b, m1 a /\ m2 b /\ x = a + b) (n1 * n2) (e1 * e2).
Proof.
  intros S1 S2 Co. constructor.
  - exists 0, 0. split; [apply (sg_0 _ _ _ S1)|]. split; [apply (sg_0 _ _ _ S2)|]. symmetry. apply (gl_0 _ GL).
  - intros x y (a & b & Ha & Hb & ->) (a' & b' & Ha' & Hb' & ->). exists (a + a'), (b + b').
    split; [apply (sg_add _ _ _ S1); assumption|]. split; [apply (sg_add _ _ _ S2); assumption|]. apply (g_swap _ GL).
  - intros x (a & b & Ha & Hb & ->). exists (- a), (- b).
    split; [apply (sg_neg _ _ _ S1); assumption|]. split; [apply (sg_neg _ _ _ S2); assumption|]. apply neg_add.
  - intros x (a & b & Ha & Hb & ->). rewrite (gmul_gadd _ GL).
    rewrite (gmul_mul _ GL e1 e2 b), (sg_exp _ _ _ S2 b Hb), (gmul_g0 _ GL).
    rewrite Z.mul_comm, (gmul_mul _ GL), (sg_exp _ _ _ S1 a Ha), (gmul_g0 _ GL). apply (gl_0 _ GL).
  - destruct (sg_list _ _ _ S1) as (s1 & N1 & I1 & L1), (sg_list _ _ _ S2) as (s2 & N2 & I2 & L2).
    exists (map (fun ab => fst ab + snd ab) (list_prod s1 s2)). split; [|split].
    + apply NoDup_map_in.
      { clear -N1 N2. apply NoDup_list_prod; assumption. }
      intros [a b] [a' b'] Hu Hv E. apply in_prod_iff in Hu, Hv. destruct Hu as [Ha Hb], Hv as [Ha' Hb'].
      apply I1 in Ha, Ha'. apply I2 in Hb, Hb'. cbn [fst snd] in E.
      assert (D : a + - a' = b' + - b).
      { apply (g_cancel_r _ GL (a' + b)). rewrite (gl_assoc _ GL a), <- (gl_assoc _ GL (- a')), (g_neg_l _ GL), (gl_0 _ GL).
        rewrite (gl_comm _ GL a' b), (gl_assoc _ GL b'), <- (gl_assoc _ GL (- b)), (g_neg_l _ GL), (gl_0 _ GL).
        rewrite E. apply (gl_comm _ GL). }
      assert (Z1 : a + - a' = 0).
      { pose proof (gmul_annihil_gcd _ GL e1 e2 (a + - a')) as K. rewrite Co, (gmul_1 _ GL) in K. apply K.
        - apply (sg_exp _ _ _ S1). apply (sg_add _ _ _ S1); [exact Ha|]. apply (sg_neg _ _ _ S1). exact Ha'.
        - rewrite D. apply (sg_exp _ _ _ S2). apply (sg_add _ _ _ S2); [exact Hb'|]. apply (sg_neg _ _ _ S2). exact Hb. }
      assert (Z2 : b' + - b = 0) by congruence.
      assert (X : forall u v, u + - v = 0 -> u = v).
      { intros u v Ev. apply (g_cancel_r _ GL (- v)). rewrite Ev. symmetry. apply (gl_neg _ GL). }
      apply X in Z1, Z2. congruence.
    + intros x. rewrite in_map_iff. split.
      * intros ([a b] & <- & I). apply in_prod_iff in I. destruct I as [Ia Ib]. exists a, b.
        split; [apply I1; exact Ia|]. split; [apply I2; exact Ib|]. reflexivity.
      * intros (a & b & Ha & Hb & ->). exists (a, b). split; [reflexivity|]. apply in_prod_iff.
        split; [apply I1; exact Ha|apply I2; exact Hb].
    + rewrite map_length, prod_length, Nat2Z.inj_mul. congruence.
Qed.

(** ** Cyclic groups and planes *)
Lemma zseq_in m k : (0 < m)%Z -> In (Z.to_nat (k mod m)) (seq O (Z.to_nat m)).
Proof.
  intros Hm. pose proof (Z.mod_pos_bound k m Hm) as B. apply in_seq. split; [apply Nat.le_0_l|].
  rewrite Nat.add_0_l. apply Z2Nat.inj_lt; lia.
Qed.
Definition indep1 (m : Z) (T : G) : Prop := mul m T = 0 /\ forall k, mul k T = 0 -> (m | k)%Z.
Definition indep2 (l : Z) (T T' : G) : Prop :=
  mul l T = 0 /\ mul l T' = 0 /\ forall a b, mul a T + mul b T' = 0 -> (l | a)%Z /\ (l | b)%Z.

Lemma sub_eq m i j T : mul i T = mul j T -> indep1 m T -> (m | i - j)%Z.
Proof. intros E [_ D]. apply D. rewrite (gmul_sub _ GL), E. apply (gl_neg _ GL). Qed.
Lemma small_eq m i j : (0 < m)%Z -> In i (seq O (Z.to_nat m)) -> In j (seq O (Z.to_nat m)) ->
  (m | Z.of_nat i - Z.of_nat j)%Z -> i = j.
Proof. intros Hm Hi Hj [q E]. apply in_seq in Hi, Hj. assert (q = 0)%Z by nia. lia. Qed.

Lemma cyc_sub m T : (0 < m)%Z -> indep1 m T -> subgrp (fun x => exists k, x = mul k T) m m.
Proof.
  intros Hm [Z0 D]. constructor.
  - exists 0%Z. reflexivity.
  - intros x y (j & ->) (k & ->). exists (j + k)%Z. symmetry. apply (gmul_add _ GL).
  - intros x (k & ->). exists (- k)%Z. symmetry. apply (gmul_opp _ GL).
  - intros x (k & ->). rewrite <- (gmul_mul _ GL), Z.mul_comm, (gmul_mul _ GL), Z0. apply (gmul_g0 _ GL).
  - exists (map (fun i => mul (Z.of_nat i) T) (seq O (Z.to_nat m))). split; [|split].
    + apply NoDup_map_in; [apply seq_NoDup|]. intros i j Hi Hj E.
      apply (small_eq m); auto. eapply sub_eq; [exact E|split; assumption].
    + intros x. rewrite in_map_iff. split.
      * intros (i & <- & _). eexists. reflexivity.
      * intros (k & ->). exists (Z.to_nat (k mod m)). split; [|apply zseq_in; exact Hm].
        pose proof (Z.mod_pos_bound k m Hm). rewrite Z2Nat.id by lia. apply (gmul_mod _ GL). exact Z0.
    + rewrite map_length, seq_length. lia.
Qed.

Lemma plane_sub l T T' : (0 < l)%Z -> indep2 l T T' ->
  subgrp (fun x => exists a b, x = mul a T + mul b T') (l * l) l.
Proof.
  intros Hm (Z1 & Z2 & D). constructor.
  - exists 0%Z, 0%Z. symmetry. apply (gl_0 _ GL).
  - intros x y (a & b & ->) (a' & b' & ->). exists (a + a')%Z, (b + b')%Z.
    rewrite !(gmul_add _ GL). apply (g_swap _ GL).
  - intros x (a & b & ->). exists (- a)%Z, (- b)%Z. rewrite !(gmul_opp _ GL). apply neg_add.
  - intros x (a & b & ->). rewrite (gmul_gadd _ GL), <- !(gmul_mul _ GL), !(Z.mul_comm l), !(gmul_mul _ GL), Z1, Z2, !(gmul_g0 _ GL).
    apply (gl_0 _ GL).
  - exists (map (fun ij => mul (Z.of_nat (fst ij)) T + mul (Z.of_nat (snd ij)) T') (list_prod (seq O (Z.to_nat l)) (seq O (Z.to_nat l)))).
    split; [|split].
    + apply NoDup_map_in; [apply NoDup_list_prod; apply seq_NoDup|].
      intros [i j] [i' j'] Hu Hv E. apply in_prod_iff in Hu, Hv. destruct Hu as [Hi Hj], Hv as [Hi' Hj']. cbn [fst snd] in E.
      destruct (D (Z.of_nat i - Z.of_nat i') (Z.of_nat j - Z.of_nat j'))%Z as [D1 D2].
      { rewrite !(gmul_sub _ GL), (g_swap _ GL), E, <- neg_add. apply (gl_neg _ GL). }
      f_equal; apply (small_eq l); auto.
    + intros x. rewrite in_map_iff. split.
      * intros ([i j] & <- & _). eexists. eexists. reflexivity.
      * intros (a & b & ->). exists (Z.to_nat (a mod l), Z.to_nat (b mod l)). cbn [fst snd]. split.
        -- pose proof (Z.mod_pos_bound a l Hm). pose proof (Z.mod_pos_bound b l Hm). rewrite !Z2Nat.id by lia.
           rewrite !(gmul_mod _ GL) by assumption. reflexivity.
        -- apply in_prod_iff. split; apply zseq_in; exact Hm.
    + rewrite map_length, prod_length, seq_length. lia.
Qed.

(** ** Spans *)
Fixpoint span (bs : list G) (x : G) : Prop :=
  match bs with [] => x = 0 | B :: bs' => exists k y, span bs' y /\ x = mul k B + y end.

Lemma span_nil : subgrp (span []) 1 1.
Proof. exact zero_sub. Qed.
Lemma span_cyc m T bs n e : prime m \/ (0 < m)%Z -> indep1 m T -> subgrp (span bs) n e -> Z.gcd m e = 1%Z ->
  subgrp (span (T :: bs)) (m * n) (m * e).
Proof.
  intros Hm HT S Co. assert (Hm' : (0 < m)%Z) by (destruct Hm as [Hm|Hm]; [apply prime_ge_2 in Hm; lia|exact Hm]).
  apply (subgrp_ext (fun x => exists a b, (exists k, a = mul k T) /\ span bs b /\ x = a + b)).
  - intros x. cbn [span]. split.
    + intros (a & b & (k & ->) & Hb & ->). exists k, b. auto.
    + intros (k & b & Hb & ->). exists (mul k T), b. split; [exists k; reflexivity|auto].
  - apply sum_sub; [apply cyc_sub; assumption|exact S|exact Co].
Qed.
Lemma span_plane l T T' bs n e : (0 < l)%Z -> indep2 l T T' -> subgrp (span bs) n e -> Z.gcd l e = 1%Z ->
  subgrp (span (T :: T' :: bs)) (l * l * n) (l * e).
Proof.
  intros Hm HT S Co.
  apply (subgrp_ext (fun x => exists a b, (exists j k, a = mul j T + mul k T') /\ span bs b /\ x = a + b)).
  - intros x. cbn [span]. split.
    + intros (a & b & (j & k & ->) & Hb & ->). exists j, (mul k T' + b). split; [exists k, b; auto|apply (gl_assoc _ GL)].
    + intros (j & y & (k & b & Hb & ->) & ->). exists (mul j T + mul k T'), b. split; [exists j, k; reflexivity|].
      split; [exact Hb|]. symmetry. apply (gl_assoc _ GL).
  - apply sum_sub; [apply plane_sub; assumption|exact S|exact Co].
Qed.

(** A homomorphism is determined by its values on the spanning elements. *)
Lemma span_hom (f f' : G -> G) bs : (forall x y, f (x + y) = f x + f y) -> (forall x y, f' (x + y) = f' x + f' y) ->
  Forall (fun B => f B = f' B) bs -> forall x, span bs x -> f x = f' x.
Proof.
  intros Hf Hf'. 
  assert (Z0 : forall h : G -> G, (forall x y, h (x + y) = h x + h y) -> h 0 = 0).
  { intros h Hh. apply (g_cancel_l _ GL (h 0)). rewrite <- Hh, (gl_0 _ GL), (g_0_r _ GL). reflexivity. }
  assert (N : forall h : G -> G, (forall x y, h (x + y) = h x + h y) -> forall x, h (- x) = - h x).
  { intros h Hh x. apply (g_neg_unique _ GL). rewrite <- Hh, (gl_neg _ GL). apply Z0. exact Hh. }
  assert (M : forall h : G -> G, (forall x y, h (x + y) = h x + h y) -> forall k x, h (mul k x) = mul k (h x)).
  { intros h Hh k x. revert k. apply Z.peano_ind.
    - apply Z0. exact Hh.
    - intros k IH. rewrite !(gmul_succ _ GL), Hh, IH. reflexivity.
    - intros k IH. rewrite !(gmul_pred _ GL), Hh, IH, (N h Hh). reflexivity. }
  induction bs as [|B bs IH]; intros FA x Hx; cbn [span] in Hx.
  - subst x. rewrite !Z0 by assumption. reflexivity.
  - destruct Hx as (k & y & Hy & ->). inversion FA; subst. rewrite Hf, Hf', !M by assumption. f_equal; [congruence|auto].
Qed.

(** The elements killed by the order of the first spanning element are its multiples. *)
Lemma span_killed m T bs n e x : indep1 m T -> subgrp (span bs) n e -> Z.gcd m e = 1%Z -> span (T :: bs) x ->
  (mul m x = 0 <-> exists k, x = mul k T).
Proof.
  intros HT S Co (k & y & Hy & ->). split.
  - intros E. exists k. assert (Zy : mul m y = 0).
    { rewrite (gmul_gadd _ GL), <- (gmul_mul _ GL), Z.mul_comm, (gmul_mul _ GL), (proj1 HT), (gmul_g0 _ GL), (gl_0 _ GL) in E.
      exact E. }
    pose proof (gmul_annihil_gcd _ GL m e y Zy (sg_exp _ _ _ S y Hy)) as K. rewrite Co, (gmul_1 _ GL) in K.
    rewrite K. apply (g_0_r _ GL).
  - intros (j & ->). rewrite <- (gmul_mul _ GL), Z.mul_comm, (gmul_mul _ GL), (proj1 HT). apply (gmul_g0 _ GL).
Qed.

(** ** Showing independence *)
Lemma indep1_prime l T : prime l -> T <> 0 -> mul l T = 0 -> indep1 l T.
Proof.
  intros Hl N E. split; [exact E|]. intros k Ek. destruct (Zdivide_dec l k) as [D|D]; [exact D|exfalso].
  pose proof (gmul_annihil_gcd _ GL l k T E Ek) as K.
  assert (Co : Z.gcd l k = 1%Z) by (apply Zgcd_1_rel_prime; apply prime_rel_prime; assumption).
  rewrite Co, (gmul_1 _ GL) in K. exact (N K).
Qed.
Lemma indep1_square l T : prime l -> mul l T <> 0 -> mul (l * l) T = 0 -> indep1 (l * l) T.
Proof.
  intros Hl N E. split; [exact E|]. intros k Ek.
  assert (I : indep1 l (mul l T)).
  { apply indep1_prime; [exact Hl|exact N|]. rewrite <- (gmul_mul _ GL). exact E. }
  assert (D : (l | k)%Z).
  { apply I. rewrite <- (gmul_mul _ GL), Z.mul_comm, (gmul_mul _ GL), Ek. apply (gmul_g0 _ GL). }
  destruct D as [q ->]. rewrite (gmul_mul _ GL) in Ek. apply I in Ek. destruct Ek as [q' ->].
  exists q'. ring.
Qed.
Lemma indep2_prime l T T' : prime l -> T <> 0 -> mul l T = 0 -> mul l T' = 0 -> (forall k, T' <> mul k T) -> indep2 l T T'.
Proof.
  intros Hl N E E' D. split; [exact E|]. split; [exact E'|]. intros a b Eab.
  pose proof (indep1_prime l T Hl N E) as [_ I].
  assert (Db : (l | b)%Z).
  { destruct (Zdivide_dec l b) as [Db|Db]; [exact Db|exfalso].
    assert (Co : rel_prime l b) by (apply prime_rel_prime; assumption).
    destruct (rel_prime_bezout _ _ Co) as [u v Euv].
    apply (D (- (v * a))%Z). transitivity (mul (u * l + v * b)%Z T').
    { rewrite Euv. symmetry. apply (gmul_1 _ GL). }
    rewrite (gmul_add _ GL), (gmul_mul _ GL u), E', (gmul_g0 _ GL), (gl_0 _ GL).
    rewrite (gmul_opp _ GL), !(gmul_mul _ GL v). apply (g_neg_unique _ GL).
    rewrite <- (gmul_gadd _ GL), Eab. apply (gmul_g0 _ GL). }
  split; [|exact Db]. apply I. destruct Db as [q ->].
  rewrite (gmul_mul _ GL q), E', (gmul_g0 _ GL), (g_0_r _ GL) in Eab. exact Eab.
Qed.

(** Eigenvectors of an endomorphism with different eigenvalues. *)
Lemma indep2_eigen (f : G -> G) l T T' s s' : prime l -> T <> 0 -> T' <> 0 -> mul l T = 0 -> mul l T' = 0 ->
  (forall k, f (mul k T) = mul k (f T)) -> f T = mul s T -> f T' = mul s' T' -> ~ (l | s - s')%Z -> indep2 l T T'.
Proof.
  intros Hl N N' E E' Hf Es Es' D. apply indep2_prime; try assumption. intros k Ek. apply D.
  apply (indep1_prime l T' Hl N' E'). rewrite (gmul_sub _ GL), <- Es'.
  rewrite Ek at 2. rewrite Hf, Es, <- (gmul_mul _ GL), Z.mul_comm, (gmul_mul _ GL), <- Ek. apply (gl_neg _ GL).
Qed.
End Sums.
