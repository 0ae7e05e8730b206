(** Commutative groups and integer multiples. *)
From Verif Require Import Base.

Record gops (G : Type) := { g0 : G; gadd : G -> G -> G; gneg : G -> G }.
Arguments g0 {G}. Arguments gadd {G}. Arguments gneg {G}.

Record grp_laws {G : Type} (g : gops G) : Prop := {
  gl_assoc : forall a b c, gadd g (gadd g a b) c = gadd g a (gadd g b c);
  gl_comm : forall a b, gadd g a b = gadd g b a;
  gl_0 : forall a, gadd g (g0 g) a = a;
  gl_neg : forall a, gadd g a (gneg g a) = g0 g }.

Fixpoint gmul_nat {G} (g : gops G) (k : nat) (P : G) : G :=
  match k with O => g0 g | S k' => gadd g P (gmul_nat g k' P) end.
Definition gmul {G} (g : gops G) (k : Z) (P : G) : G :=
  match k with
  | Z0 => g0 g
  | Zpos _ => gmul_nat g (Z.to_nat k) P
  | Zneg _ => gneg g (gmul_nat g (Z.to_nat (- k)) P)
  end.
Definition gsum {G} (g : gops G) (l : list G) : G := fold_right (gadd g) (g0 g) l.

Section Group.
Context {G : Type} (g : gops G) (H : grp_laws g).
Infix "+" := (gadd g). Notation "0" := (g0 g). Notation "- x" := (gneg g x).
Notation mul := (gmul g).

Lemma g_0_r a : a + 0 = a.
Proof. rewrite (gl_comm _ H). apply (gl_0 _ H). Qed.
Lemma g_neg_l a : - a + a = 0.
Proof. rewrite (gl_comm _ H). apply (gl_neg _ H). Qed.
Lemma g_cancel_l a b c : a + b = a + c -> b = c.
Proof.
  intros E. rewrite <- (gl_0 _ H b), <- (gl_0 _ H c), <- (g_neg_l a), !(gl_assoc _ H), E. reflexivity.
Qed.
Lemma g_cancel_r a b c : b + a = c + a -> b = c.
Proof. rewrite !(gl_comm _ H _ a). apply g_cancel_l. Qed.
Lemma g_neg_unique a b : a + b = 0 -> b = - a.
Proof. intros E. apply (g_cancel_l a). rewrite E. symmetry. apply (gl_neg _ H). Qed.
Lemma g_neg_neg a : - (- a) = a.
Proof. symmetry. apply g_neg_unique. apply g_neg_l. Qed.
Lemma g_neg_0 : - 0 = 0.
Proof. symmetry. apply g_neg_unique. apply (gl_0 _ H). Qed.
Lemma g_swap a b c d : (a + b) + (c + d) = (a + c) + (b + d).
Proof.
  rewrite !(gl_assoc _ H). f_equal. rewrite <- !(gl_assoc _ H). f_equal. apply (gl_comm _ H).
Qed.
Lemma g_neg_add a b : - (a + b) = - a + - b.
Proof.
  symmetry. apply g_neg_unique. rewrite g_swap, !(gl_neg _ H). apply (gl_0 _ H).
Qed.

Lemma gmul_of_nat k P : mul (Z.of_nat k) P = gmul_nat g k P.
Proof.
  destruct k as [|k]; [reflexivity|]. unfold gmul. rewrite Nat2Z.id.
  destruct (Z.of_nat (S k)) eqn:E; [lia|reflexivity|lia].
Qed.

Lemma gmul_0 P : mul 0%Z P = 0.
Proof. reflexivity. Qed.
Lemma gmul_1 P : mul 1%Z P = P.
Proof. cbn. apply g_0_r. Qed.

Lemma gmul_opp k P : mul (Z.opp k) P = - mul k P.
Proof.
  destruct k as [|k|k]; cbn [Z.opp gmul].
  - symmetry. apply g_neg_0.
  - reflexivity.
  - rewrite g_neg_neg. reflexivity.
Qed.

Lemma gmul_succ k P : mul (Z.succ k) P = P + mul k P.
Proof.
  destruct (Z_lt_le_dec k 0%Z) as [L|L].
  - replace k with (Z.opp (Z.of_nat (S (Z.to_nat (Z.opp k - 1))))) by lia.
    set (n := Z.to_nat (Z.opp k - 1)).
    replace (Z.succ (Z.opp (Z.of_nat (S n)))) with (Z.opp (Z.of_nat n)) by lia.
    rewrite !gmul_opp, !gmul_of_nat. cbn [gmul_nat].
    rewrite g_neg_add, <- (gl_assoc _ H), (gl_neg _ H), (gl_0 _ H). reflexivity.
  - replace k with (Z.of_nat (Z.to_nat k)) by lia. rewrite <- Nat2Z.inj_succ, !gmul_of_nat. reflexivity.
Qed.

Lemma gmul_pred k P : mul (Z.pred k) P = - P + mul k P.
Proof.
  rewrite <- (Z.succ_pred k) at 2. rewrite gmul_succ, <- (gl_assoc _ H), g_neg_l, (gl_0 _ H). reflexivity.
Qed.

Lemma gmul_add j k P : mul (Z.add j k) P = mul j P + mul k P.
Proof.
  revert j. apply Z.peano_ind.
  - rewrite Z.add_0_l, gmul_0, (gl_0 _ H). reflexivity.
  - intros j IH. rewrite Z.add_succ_l, !gmul_succ, IH, (gl_assoc _ H). reflexivity.
  - intros j IH. rewrite Z.add_pred_l, !gmul_pred, IH, (gl_assoc _ H). reflexivity.
Qed.

Lemma gmul_sub j k P : mul (Z.sub j k) P = mul j P + - mul k P.
Proof. unfold Z.sub. rewrite gmul_add, gmul_opp. reflexivity. Qed.

Lemma gmul_gadd k P Q : mul k (P + Q) = mul k P + mul k Q.
Proof.
  revert k. apply Z.peano_ind.
  - rewrite !gmul_0, (gl_0 _ H). reflexivity.
  - intros k IH. rewrite !gmul_succ, IH. apply g_swap.
  - intros k IH. rewrite !gmul_pred, IH, g_neg_add. apply g_swap.
Qed.

Lemma gmul_g0 k : mul k 0 = 0.
Proof.
  revert k. apply Z.peano_ind; [reflexivity|..]; intros k IH.
  - rewrite gmul_succ, IH. apply (gl_0 _ H).
  - rewrite gmul_pred, IH, g_0_r. apply g_neg_0.
Qed.

Lemma gmul_gneg k P : mul k (- P) = - mul k P.
Proof.
  apply g_neg_unique. rewrite <- gmul_gadd, (gl_neg _ H). apply gmul_g0.
Qed.

Lemma gmul_mul j k P : mul (Z.mul j k) P = mul j (mul k P).
Proof.
  revert j. apply Z.peano_ind.
  - reflexivity.
  - intros j IH. rewrite Z.mul_succ_l, Z.add_comm, gmul_add, gmul_succ, IH. reflexivity.
  - intros j IH. rewrite Z.mul_pred_l. unfold Z.sub. rewrite Z.add_comm, gmul_add, gmul_opp, gmul_pred, IH.
    reflexivity.
Qed.

Lemma gmul_2 P : mul 2%Z P = P + P.
Proof. change 2%Z with (Z.succ 1). rewrite gmul_succ, gmul_1. reflexivity. Qed.

Lemma gmul_neg1 P : mul (-1)%Z P = - P.
Proof. change (-1)%Z with (Z.opp 1). rewrite gmul_opp, gmul_1. reflexivity. Qed.

(** Multiples only depend on the scalar modulo an annihilator. *)
Lemma gmul_mod r k P : mul r P = 0 -> mul (Z.modulo k r) P = mul k P.
Proof.
  intros E. pose proof (Z.div_mod k r) as D.
  destruct (Z.eq_dec r 0%Z) as [->|N]; [rewrite Zmod_0_r; reflexivity|].
  rewrite (D N) at 2. rewrite gmul_add, Z.mul_comm, gmul_mul, E, gmul_g0, (gl_0 _ H). reflexivity.
Qed.

Lemma gmul_annihil_gcd r k P : mul r P = 0 -> mul k P = 0 -> mul (Z.gcd r k) P = 0.
Proof.
  intros Er Ek. destruct (Z.gcd_bezout r k (Z.gcd r k) eq_refl) as (u & v & E).
  rewrite <- E, gmul_add, !gmul_mul, Er, Ek, !gmul_g0. apply (gl_0 _ H).
Qed.

Lemma gsum_app l1 l2 : gsum g (l1 ++ l2) = gsum g l1 + gsum g l2.
Proof.
  induction l1 as [|x l1 IH]; cbn [gsum fold_right app].
  - symmetry. apply (gl_0 _ H).
  - fold (gsum g (l1 ++ l2)). rewrite IH, <- (gl_assoc _ H). reflexivity.
Qed.

Lemma gsum_perm l1 l2 : Permutation l1 l2 -> gsum g l1 = gsum g l2.
Proof.
  unfold gsum. induction 1; cbn [fold_right].
  - reflexivity.
  - congruence.
  - rewrite <- !(gl_assoc _ H). f_equal. apply (gl_comm _ H).
  - congruence.
Qed.

Lemma gmul_gsum k l : mul k (gsum g l) = gsum g (map (mul k) l).
Proof.
  induction l as [|x l IH]; cbn [gsum fold_right map]; [apply gmul_g0|].
  fold (gsum g l). rewrite gmul_gadd, IH. reflexivity.
Qed.

Lemma gsum_add {A} (f h : A -> G) l : gsum g (map (fun x => f x + h x) l) = gsum g (map f l) + gsum g (map h l).
Proof.
  induction l as [|x l IH]; cbn [gsum fold_right map]; [symmetry; apply (gl_0 _ H)|].
  fold (gsum g (map (fun x => f x + h x) l)). rewrite IH. apply g_swap.
Qed.

Lemma fold_left_gsum l : forall a, fold_left (gadd g) l a = a + gsum g l.
Proof.
  induction l as [|x l IH]; intros a; cbn [fold_left gsum fold_right].
  - symmetry. apply g_0_r.
  - rewrite IH, (gl_assoc _ H). reflexivity.
Qed.
End Group.
