(** Finite fields given by an operation record and an enumeration:
    Fermat's theorem, bound on roots, Euler's criterion. *)
From Verif Require Import Base Algebra Pow Tower TowerFacts.

Record finite_field {F : Type} (o : fops F) (q : Z) : Prop := {
  ff_laws : field_laws o;
  ff_enum : exists els : list F, NoDup els /\ (forall x, In x els) /\ Z.of_nat (length els) = q }.

Section FF.
Context {F : Type} (o : fops F) (H : field_laws o).
Notation "0" := (f0 o). Notation "1" := (f1 o).
Infix "+" := (fadd o). Infix "-" := (fsub o). Infix "*" := (fmul o).
Notation "- x" := (fneg o x).
Let HR := fl_rl _ H.
Add Field FFff : (field_thy o H).

Lemma fpowz_nonzero x e : x <> 0 -> fpowz o x e <> 0.
Proof.
  intros Hx. destruct (Z_lt_le_dec e 0) as [Hn|Hn].
  { destruct e; try lia. apply (fl_1_0 _ H). }
  revert e Hn. apply natlike_ind; [apply (fl_1_0 _ H)|]. intros e He IH. unfold Z.succ.
  rewrite fpowz_succ by (assumption || lia). apply mul_nonzero; auto.
Qed.

Lemma fprod_nonzero l : (forall x, In x l -> x <> 0) -> fprod o l <> 0.
Proof.
  induction l as [|a l IH]; intros Hl.
  - apply (fl_1_0 _ H).
  - change (a * fprod o l <> 0). apply mul_nonzero; [assumption| |].
    + apply Hl. left; reflexivity.
    + apply IH. intros x Hx. apply Hl. right; exact Hx.
Qed.

Lemma sqr_eq_cases x y : x * x = y * y -> x = y \/ x = - y.
Proof.
  intros E. assert (E' : (x - y) * (x + y) = 0). { transitivity (x * x - y * y); [ring|rewrite E; ring]. }
  destruct (mul_integral o H _ _ E') as [D|D].
  - left. apply (sub_zero_eq o H). exact D.
  - right. apply (sub_zero_eq o H). rewrite <- D. ring.
Qed.

(** ** Polynomials (coefficient lists, constant term first) *)
Fixpoint peval (p : list F) (x : F) : F :=
  match p with [] => 0 | a :: p' => a + x * peval p' x end.

(** Division by [X - r]: quotient of [a :: p]. *)
Fixpoint pdiv (p : list F) (r : F) : list F :=
  match p with
  | [] => []
  | a :: p' => match p' with [] => [] | _ => peval p' r :: pdiv p' r end
  end.

Lemma pdiv_spec p r x : peval p x = (x - r) * peval (pdiv p r) x + peval p r.
Proof.
  induction p as [|a p IH]; [cbn [pdiv peval]; ring|].
  destruct p as [|b p].
  - cbn [pdiv peval]. ring.
  - change (pdiv (a :: b :: p) r) with (peval (b :: p) r :: pdiv (b :: p) r).
    change (peval (a :: ?l) ?y) with (a + y * peval l y).
    change (peval (peval (b :: p) r :: ?l) ?y) with (peval (b :: p) r + y * peval l y).
    rewrite IH. ring.
Qed.

Lemma pdiv_length p r : length (pdiv p r) = Nat.pred (length p).
Proof.
  induction p as [|a p IH]; [reflexivity|]. destruct p as [|b p]; [reflexivity|].
  change (pdiv (a :: b :: p) r) with (peval (b :: p) r :: pdiv (b :: p) r).
  cbn [length] in *. rewrite IH. reflexivity.
Qed.

Lemma pdiv_last p r d : (2 <= length p)%nat -> last (pdiv p r) d = last p d.
Proof.
  induction p as [|a p IH]; [cbn; lia|]. destruct p as [|b p]; [cbn; lia|]. intros _.
  change (pdiv (a :: b :: p) r) with (peval (b :: p) r :: pdiv (b :: p) r).
  destruct p as [|c p].
  - cbn [pdiv last peval]. ring.
  - change (pdiv (b :: c :: p) r) with (peval (c :: p) r :: pdiv (c :: p) r) in *.
    change (last (a :: b :: c :: p) d) with (last (b :: c :: p) d).
    rewrite <- IH by (cbn; lia). reflexivity.
Qed.

Lemma roots_bound p roots : p <> [] -> last p 0 <> 0 ->
  NoDup roots -> (forall r, In r roots -> peval p r = 0) -> (length roots < length p)%nat.
Proof.
  revert p. induction roots as [|r roots IH]; intros p Hp Hl Hn Hr.
  - destruct p; [contradiction|cbn; lia].
  - destruct (Nat.le_gt_cases 2 (length p)) as [L|L].
    + inversion Hn as [|? ? Hnr Hn' E1]; subst.
      assert (B : (length roots < length (pdiv p r))%nat).
      { apply IH.
        - intros E. pose proof (pdiv_length p r). rewrite E in *. cbn in *. lia.
        - rewrite pdiv_last by exact L. exact Hl.
        - exact Hn'.
        - intros s Hs. assert (E : (s - r) * peval (pdiv p r) s = 0).
          { transitivity (peval p s - peval p r); [rewrite (pdiv_spec p r s); ring|].
            rewrite (Hr s), (Hr r) by (cbn; auto). ring. }
          destruct (mul_integral o H _ _ E) as [D|D]; [|exact D].
          exfalso. apply Hnr. apply (sub_zero_eq o H) in D. subst. exact Hs. }
      rewrite pdiv_length in B. cbn [length]. lia.
    + destruct p as [|a p]; [contradiction|]. destruct p as [|b p]; [|cbn in L; lia].
      exfalso. apply Hl. pose proof (Hr r (or_introl eq_refl)) as E. cbn [peval] in E.
      cbn [last]. rewrite <- E. ring.
Qed.

(** [X^m - c] has at most [m] roots. *)
Lemma peval_monic n x : peval (repeat 0 n ++ [1]) x = fpow_nat o x n.
Proof.
  induction n as [|n IH]; cbn [repeat app peval fpow_nat]; [ring|]. rewrite IH. ring.
Qed.

Lemma pow_roots_bound (m : Z) c roots : (0 < m)%Z -> NoDup roots ->
  (forall r, In r roots -> fpowz o r m = c) -> (Z.of_nat (length roots) <= m)%Z.
Proof.
  intros Hm Hn Hr. destruct (Z.to_nat m) as [|n] eqn:En; [lia|].
  pose (p := - c :: repeat 0 n ++ [1]).
  assert (B : (length roots < length p)%nat).
  { apply roots_bound.
    - discriminate.
    - unfold p. rewrite app_comm_cons, last_last. apply (fl_1_0 _ H).
    - exact Hn.
    - intros r Hi. unfold p. cbn [peval]. rewrite peval_monic.
      pose proof (Hr r Hi) as E. rewrite fpowz_nat in E by (assumption || lia).
      rewrite En in E. cbn [fpow_nat] in E. rewrite E. ring. }
  unfold p in B. cbn [length] in B. rewrite app_length, repeat_length in B. cbn in B. lia.
Qed.

(** ** Enumerated fields *)
Section Enum.
Context (q : Z) (HF : finite_field o q).

Lemma nonzero_enum : exists nz : list F,
  NoDup nz /\ (forall x, In x nz <-> x <> 0) /\ (Z.of_nat (length nz) = q - 1)%Z.
Proof.
  destruct (ff_enum _ _ HF) as (els & Hn & Hi & Hl).
  destruct (in_split 0 els (Hi 0)) as (l1 & l2 & E).
  exists (l1 ++ l2). subst els. split; [|split].
  - apply NoDup_remove_1 in Hn. exact Hn.
  - intros x. split.
    + intros Hx ->. apply NoDup_remove_2 in Hn. contradiction.
    + intros Hx. pose proof (Hi x) as Hx'. apply in_app_or in Hx'. apply in_or_app.
      destruct Hx' as [?|[?|?]]; [tauto|congruence|tauto].
  - rewrite app_length in *. cbn [length] in Hl. lia.
Qed.

Lemma card_gt_1 : (1 < q)%Z.
Proof.
  destruct nonzero_enum as (nz & Hn & Hi & Hl).
  destruct nz as [|a nz]; [|cbn [length] in Hl; lia].
  exfalso. apply (Hi 1). apply (fl_1_0 _ H).
Qed.

Theorem fermat x : x <> 0 -> fpowz o x (q - 1)%Z = 1.
Proof.
  intros Hx. destruct nonzero_enum as (nz & Hn & Hi & Hl).
  assert (P : Permutation (map (fmul o x) nz) nz).
  { apply NoDup_Permutation_bis.
    - apply FinFun.Injective_map_NoDup; [|exact Hn].
      intros a b E. apply (mul_cancel_l o H x); assumption.
    - rewrite map_length. lia.
    - intros y Hy. apply in_map_iff in Hy. destruct Hy as (z & <- & Hz).
      apply Hi. apply Hi in Hz. apply mul_nonzero; assumption. }
  apply (fprod_perm o HR) in P. rewrite fprod_map_mul, Hl in P by exact HR.
  assert (Hp : fprod o nz <> 0). { apply fprod_nonzero. intros y. apply Hi. }
  apply (mul_cancel_l o H (fprod o nz)); [exact Hp|].
  transitivity (fpowz o x (q - 1)%Z * fprod o nz); [ring|]. rewrite P. ring.
Qed.

Corollary fermat_q x : fpowz o x q = x.
Proof.
  destruct (feqb_dec o H x 0) as [->|Hx].
  - apply fpowz_zero; [exact HR|]. pose proof card_gt_1. lia.
  - pose proof card_gt_1. replace q with (q - 1 + 1)%Z by lia.
    rewrite fpowz_succ, fermat by (assumption || lia). ring.
Qed.

(** ** Squares *)
Definition is_square (a : F) : Prop := exists y, y * y = a.

Hypothesis Hchar : 1 + 1 <> 0.

Lemma neg_neq x : x <> 0 -> - x <> x.
Proof.
  intros Hx E. apply Hchar. apply (mul_cancel_l o H x); [exact Hx|].
  transitivity (x - (- x)); [ring|]. rewrite E. ring.
Qed.

Lemma half_squares n : forall l, (length l <= n)%nat -> NoDup l ->
  (forall x, In x l -> x <> 0 /\ In (- x) l) ->
  exists S, NoDup S /\ length l = (2 * length S)%nat /\
    (forall s, In s S -> exists y, In y l /\ y * y = s).
Proof.
  induction n as [|n IH]; intros l Hlen Hn Hc.
  - exists []. destruct l; [|cbn in Hlen; lia]. repeat split; [constructor|]. intros s [].
  - destruct l as [|a l].
    + exists []. repeat split; [constructor|]. intros s [].
    + destruct (Hc a (or_introl eq_refl)) as [Ha Hna].
      assert (Hna' : In (- a) l).
      { destruct Hna as [E|I]; [|exact I]. exfalso. apply (neg_neq a Ha). congruence. }
      destruct (in_split _ _ Hna') as (l1 & l2 & El). subst l.
      inversion Hn as [|? ? Hni Hn1]; subst.
      pose proof (NoDup_remove_1 _ _ _ Hn1) as Hn2. pose proof (NoDup_remove_2 _ _ _ Hn1) as Hn3.
      destruct (IH (l1 ++ l2)) as (S & HS1 & HS2 & HS3).
      * cbn [length] in Hlen. rewrite app_length in *. cbn [length] in Hlen. lia.
      * exact Hn2.
      * intros x Hx. assert (Hx' : In x (a :: l1 ++ - a :: l2)).
        { right. apply in_app_or in Hx. apply in_or_app. cbn. tauto. }
        destruct (Hc x Hx') as [H0 H1]. split; [exact H0|].
        destruct H1 as [E|I].
        { exfalso. apply Hn3. replace (- a) with x; [exact Hx|]. rewrite E. ring. }
        apply in_app_or in I. apply in_or_app. destruct I as [I|[E|I]]; [tauto| |tauto].
        exfalso. apply Hni. replace a with x.
        { apply in_app_or in Hx. apply in_or_app. cbn. tauto. }
        transitivity (- - x); [ring|]. rewrite <- E. ring.
      * exists (a * a :: S). split; [|split].
        -- constructor; [|exact HS1]. intros I. destruct (HS3 _ I) as (y & Hy & Ey).
           destruct (sqr_eq_cases y a Ey) as [-> | ->].
           ++ apply Hni. apply in_app_or in Hy. apply in_or_app. cbn. tauto.
           ++ contradiction.
        -- cbn [length]. rewrite app_length in *. cbn [length]. lia.
        -- intros s [E|I].
           ++ exists a. split; [left; reflexivity|exact E].
           ++ destruct (HS3 s I) as (y & Hy & Ey). exists y. split; [|exact Ey].
              right. apply in_app_or in Hy. apply in_or_app. cbn. tauto.
Qed.

Lemma card_odd : exists m, (q = 2 * m + 1 /\ 0 < m)%Z /\
  exists S, NoDup S /\ Z.of_nat (length S) = m /\ forall s, In s S -> exists y, y <> 0 /\ y * y = s.
Proof.
  destruct nonzero_enum as (nz & Hn & Hi & Hl).
  destruct (half_squares (length nz) nz) as (S & HS1 & HS2 & HS3).
  - lia.
  - exact Hn.
  - intros x Hx. apply Hi in Hx. split; [exact Hx|]. apply Hi.
    intros E. apply Hx. apply (neg_zero_iff o H). exact E.
  - exists (Z.of_nat (length S)). pose proof card_gt_1. split; [lia|].
    exists S. split; [exact HS1|]. split; [reflexivity|].
    intros s Hs. destruct (HS3 s Hs) as (y & Hy & Ey). exists y. split; [|exact Ey].
    apply Hi. exact Hy.
Qed.

Lemma half_card : (q = 2 * ((q - 1) / 2) + 1 /\ 0 < (q - 1) / 2)%Z.
Proof.
  destruct card_odd as (m & (E & Hm) & _). replace (q - 1)%Z with (m * 2)%Z by lia.
  rewrite Z.div_mul by lia. lia.
Qed.

Lemma half_pow_cases x : x <> 0 ->
  fpowz o x ((q - 1) / 2)%Z = 1 \/ fpowz o x ((q - 1) / 2)%Z = - (1).
Proof.
  intros Hx. apply sqr_eq_cases. pose proof half_card as [E P].
  rewrite <- fpowz_add by (assumption || lia).
  replace ((q - 1) / 2 + (q - 1) / 2)%Z with (q - 1)%Z by lia. rewrite fermat by exact Hx. ring.
Qed.

Lemma square_half_pow x : x <> 0 -> is_square x -> fpowz o x ((q - 1) / 2)%Z = 1.
Proof.
  intros Hx (y & <-). pose proof half_card as [E P].
  assert (y <> 0). { intros ->. apply Hx. ring. }
  rewrite fpowz_mul_base, <- fpowz_add by (assumption || lia).
  replace ((q - 1) / 2 + (q - 1) / 2)%Z with (q - 1)%Z by lia. apply fermat. assumption.
Qed.

(** Euler's criterion. *)
Theorem euler x : x <> 0 -> (fpowz o x ((q - 1) / 2)%Z = 1 <-> is_square x).
Proof.
  intros Hx. split; [|apply square_half_pow; exact Hx]. intros E.
  destruct card_odd as (m & (Eq & Hm) & S & HS1 & HS2 & HS3).
  assert (Em : ((q - 1) / 2 = m)%Z).
  { replace (q - 1)%Z with (m * 2)%Z by lia. apply Z.div_mul. lia. }
  destruct (in_dec (feqb_dec o H) x S) as [I|I].
  - destruct (HS3 x I) as (y & _ & Ey). exists y. exact Ey.
  - exfalso.
    assert (B : (Z.of_nat (length (x :: S)) <= m)%Z).
    { apply (pow_roots_bound m 1).
      - lia.
      - constructor; assumption.
      - intros r [<-|Hr].
        + rewrite <- Em. exact E.
        + destruct (HS3 r Hr) as (y & Hy & Ey). rewrite <- Em. apply square_half_pow.
          * rewrite <- Ey. apply mul_nonzero; assumption.
          * exists y. exact Ey. }
    cbn [length] in B. lia.
Qed.

Corollary euler_nonsquare x : x <> 0 -> (fpowz o x ((q - 1) / 2)%Z = - (1) <-> ~ is_square x).
Proof.
  intros Hx. assert (Hd : - (1) <> 1) by (apply neg_neq; apply (fl_1_0 _ H)). split.
  - intros E S. apply (euler x Hx) in S. congruence.
  - intros N. destruct (half_pow_cases x Hx) as [E|E]; [|exact E].
    exfalso. apply N. apply (euler x Hx). exact E.
Qed.
End Enum.
End FF.

(** Quadratic extensions of finite fields are finite. *)
Lemma NoDup_list_prod {A B} (l : list A) (l' : list B) :
  NoDup l -> NoDup l' -> NoDup (list_prod l l').
Proof.
  intros Hl Hl'. induction Hl as [|a l Ha Hl IH]; cbn [list_prod]; [constructor|].
  assert (G : forall m, NoDup m -> NoDup (map (fun y : B => (a, y)) m)).
  { intros m Hm. apply FinFun.Injective_map_NoDup; [|exact Hm]. intros x y E. congruence. }
  assert (D : forall x, In x (map (fun y : B => (a, y)) l') -> ~ In x (list_prod l l')).
  { intros x Hx I. apply in_map_iff in Hx. destruct Hx as (y & <- & _).
    apply in_prod_iff in I. tauto. }
  specialize (G l' Hl'). clear Hl'. induction G as [|x m Hx G IHm]; [exact IH|].
  cbn [app]. constructor.
  - intros I. apply in_app_or in I. destruct I as [I|I]; [contradiction|].
    apply (D x); [left; reflexivity|exact I].
  - apply IHm. intros y Hy. apply D. right. exact Hy.
Qed.

Section QuadFinite.
Context {F : Type} (o : fops F) (mnr : F -> F) (beta : F) (q : Z).
Hypothesis H : finite_field o q.
Hypothesis Hm : forall x, mnr x = fmul o beta x.
Hypothesis Hnr : forall x, fmul o x x <> beta.

Lemma quad_finite sq : (forall a, sq a = quad_mul o mnr a a) ->
  finite_field (quad_ops o mnr sq) (q * q)%Z.
Proof.
  intros Hs. constructor.
  - apply (quad_field_laws o mnr beta (ff_laws _ _ H) Hm Hnr sq Hs).
  - destruct (ff_enum _ _ H) as (els & Hn & Hi & Hl).
    exists (map (fun xy => mk_quad (fst xy) (snd xy)) (list_prod els els)).
    split; [|split].
    + apply FinFun.Injective_map_NoDup; [|apply NoDup_list_prod; assumption].
      intros [a b] [c d] E. cbn in E. congruence.
    + intros [a b]. apply in_map_iff. exists (a, b). split; [reflexivity|].
      apply in_prod; apply Hi.
    + rewrite map_length, prod_length. rewrite Nat2Z.inj_mul, Hl. reflexivity.
Qed.
End QuadFinite.

Section CubicFinite.
Context {F : Type} (o : fops F) (mnr : F -> F) (xi : F) (q : Z).
Hypothesis H : finite_field o q.
Hypothesis Hm : forall x, mnr x = fmul o xi x.
Hypothesis Hnr : forall x, fmul o x (fmul o x x) <> xi.

Lemma cubic_finite : finite_field (cubic_ops o mnr) (q * (q * q))%Z.
Proof.
  constructor.
  - apply (cubic_field_laws o mnr xi (ff_laws _ _ H) Hm Hnr).
  - destruct (ff_enum _ _ H) as (els & Hn & Hi & Hl).
    exists (map (fun xy => mk_cubic (fst xy) (fst (snd xy)) (snd (snd xy)))
              (list_prod els (list_prod els els))).
    split; [|split].
    + apply FinFun.Injective_map_NoDup; [|repeat apply NoDup_list_prod; assumption].
      intros [a [b b']] [c [d d']] E. cbn in E. congruence.
    + intros [a b c]. apply in_map_iff. exists (a, (b, c)). split; [reflexivity|].
      repeat apply in_prod; apply Hi.
    + rewrite map_length, !prod_length. rewrite !Nat2Z.inj_mul, Hl. reflexivity.
Qed.
End CubicFinite.
