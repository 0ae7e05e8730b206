(** On a curve over a field of [q] elements without points of order two, a
    subgroup of prime order [r] with [3 r > 2 q + 1] is the whole group. *)
From Verif Require Import Base Algebra TowerFacts FiniteField Group SpecCurve SpecCurveFacts Curve CurveFacts CurveGroup.

Section Count.
Context {F : Type} (o : fops F) (c : cconf F) (HC : curve_laws o c) (q : Z) (HF : finite_field o q).
Notation "0" := (f0 o). Infix "+" := (fadd o). Infix "*" := (fmul o). Notation "- x" := (fneg o x).
Let H := cl_field _ _ HC.
Add Field FO : (field_thy o H).
Notation a := (ca c). Notation b := (cb c).
Notation on := (on_curve o a b).

(** Position in a list. *)
Fixpoint find_pos (y : F) (l : list F) : nat :=
  match l with [] => O | z :: l' => if feqb o y z then O else S (find_pos y l') end.
Lemma find_pos_inj l y z : In y l -> In z l -> find_pos y l = find_pos z l -> y = z.
Proof.
  induction l as [|w l IH]; intros Hy Hz E; [destruct Hy|]. cbn [find_pos] in E.
  destruct (feqb o y w) eqn:Ey, (feqb o z w) eqn:Ez; try discriminate.
  - apply (fl_eqb _ H) in Ey, Ez. congruence.
  - injection E as E. apply IH; [| |exact E].
    + destruct Hy as [-> |Hy]; [|exact Hy]. rewrite (feqb_refl o H) in Ey. discriminate.
    + destruct Hz as [-> |Hz]; [|exact Hz]. rewrite (feqb_refl o H) in Ez. discriminate.
Qed.

Lemma on_same_x x y z : on (Some (x, y)) -> on (Some (x, z)) -> y = z \/ y = - z.
Proof.
  cbn [on_curve]. intros E1 E2. assert (E : y * y = z * z) by congruence.
  assert (D : (y + - z) * (y + z) = 0) by (transitivity (y * y + - (z * z)); [ring|rewrite E; ring]).
  apply (mul_integral o H) in D. destruct D as [D|D]; [left|right].
  - transitivity (y + - z + z); [ring|]. rewrite D. ring.
  - transitivity (y + z + - z); [ring|]. rewrite D. ring.
Qed.

Theorem points_bound (l : list (point (F := F))) : NoDup l -> Forall on l -> (Z.of_nat (length l) <= 2 * q + 1)%Z.
Proof.
  intros Nd On. destruct (ff_enum _ _ HF) as (els & Hn & Hi & Hl).
  set (key := fun P : point (F := F) => match P with
    | None => None
    | Some (x, y) => Some (x, (find_pos y els <? find_pos (- y) els)%nat) end).
  set (keys := None :: map (@Some _) (list_prod els [true; false])).
  assert (L : (length (map key l) <= length keys)%nat).
  { apply NoDup_incl_length.
    - assert (Inj : forall P Q, In P l -> In Q l -> key P = key Q -> P = Q).
      { intros P Q HP HQ E. rewrite Forall_forall in On. apply On in HP, HQ.
        destruct P as [[x y]|], Q as [[x' y']|]; cbn [key] in E; try discriminate; [|reflexivity].
        injection E as <- E. destruct (on_same_x x y y' HP HQ) as [-> | ->]; [reflexivity|exfalso].
        replace (- - y') with y' in E by ring.
        assert (Ne : find_pos y' els <> find_pos (- y') els).
        { intros X. apply (find_pos_inj els _ _ (Hi _) (Hi _)) in X.
          apply (dbl_nz o H (cl_two _ _ HC) y' (no_y0 o c HC _ _ HQ)). rewrite X at 1. ring. }
        destruct (Nat.ltb_spec (find_pos (- y') els) (find_pos y' els)), (Nat.ltb_spec (find_pos y' els) (find_pos (- y') els));
          try discriminate; lia. }
      clear On. induction l as [|P l IH]; [constructor|]. cbn [map]. inversion Nd as [|? ? Np Nd']; subst.
      constructor.
      + intros X. apply in_map_iff in X. destruct X as (Q & EQ & HQ).
        apply Np. rewrite (Inj P Q (or_introl eq_refl) (or_intror HQ) (eq_sym EQ)). exact HQ.
      + apply IH; [exact Nd'|]. intros A B HA HB. apply Inj; right; assumption.
    - intros x Hx. apply in_map_iff in Hx. destruct Hx as (P & <- & _). unfold keys, key.
      destruct P as [[x y]|]; [right|left; reflexivity]. apply in_map. apply in_prod; [apply Hi|].
      destruct (_ <? _)%nat; cbn; auto. }
  rewrite map_length in L. unfold keys in L. cbn [length] in L. rewrite map_length, prod_length in L. cbn [length] in L. lia.
Qed.

Notation G := (cpt o c).
Notation g := (cpt_ops o c HC).
Notation gm := (gmul g).
Let GL := cpt_laws o c HC.

Lemma cpt_eq_dec (P Q : G) : {P = Q} + {P <> Q}.
Proof.
  destruct P as [P hP], Q as [Q hQ].
  assert (D : {P = Q} + {P <> Q}).
  { destruct P as [[x y]|], Q as [[x' y']|]; try (right; discriminate); [|left; reflexivity].
    destruct (feqb_dec o H x x') as [-> |N]; [|right; congruence].
    destruct (feqb_dec o H y y') as [-> |N]; [left; reflexivity|right; congruence]. }
  destruct D as [-> |N]; [left|right].
  - apply cpt_ext. reflexivity.
  - intros E. apply N. exact (f_equal (@proj1_sig _ _) E).
Qed.

Lemma no_two_torsion (P : G) : gm 2 P = g0 g -> P = g0 g.
Proof.
  intros E. rewrite (gmul_2 _ GL) in E. apply (f_equal (@proj1_sig _ _)) in E.
  cbn [cpt_ops gadd g0 mkpt proj1_sig] in E. apply cpt_ext. cbn [cpt_ops g0 mkpt proj1_sig].
  pose proof (cpt_on o c HC P) as On. destruct (proj1_sig P) as [[x y]|]; [exfalso|reflexivity].
  cbn [pt_add] in E. rewrite (feqb_refl o H) in E.
  destruct (feqb o y (- y)) eqn:Ey; [|discriminate]. apply (fl_eqb _ H) in Ey.
  apply (dbl_nz o H (cl_two _ _ HC) y (no_y0 o c HC _ _ On)). rewrite Ey at 1. ring.
Qed.

Section Gen.
Context (r : Z) (Hr : prime r) (Hodd : Z.odd r = true) (Hbig : (2 * q + 1 < 3 * r)%Z).
Context (B : G) (HB : B <> g0 g) (HrB : gm r B = g0 g).

Lemma gen_order k : gm k B = g0 g -> (r | k)%Z.
Proof.
  intros E. apply (mulz_order o c HC r (proj1_sig B)); auto.
  - apply (cpt_on o c HC).
  - intros X. apply HB. apply cpt_ext. exact X.
  - rewrite <- (gmul_pt o c HC). rewrite HrB. reflexivity.
  - rewrite <- (gmul_pt o c HC). rewrite E. reflexivity.
Qed.

Theorem all_multiples (P : G) : exists k, P = gm k B.
Proof.
  pose proof (prime_ge_2 r Hr) as Hr2.
  set (ms := map (fun i => gm (Z.of_nat i) B) (seq O (Z.to_nat r))).
  destruct (in_dec cpt_eq_dec P ms) as [I|N].
  { apply in_map_iff in I. destruct I as (i & E & _). exists (Z.of_nat i). symmetry. exact E. }
  exfalso.
  assert (N' : forall k, P <> gm k B).
  { intros k E. apply N. apply in_map_iff. exists (Z.to_nat (k mod r)%Z).
    pose proof (Z.mod_pos_bound k r ltac:(lia)) as Bd. split.
    - rewrite Z2Nat.id by lia. rewrite E. apply (gmul_mod _ GL). exact HrB.
    - apply in_seq. split; [apply Nat.le_0_l|]. rewrite Nat.add_0_l. apply Z2Nat.inj_lt; lia. }
  assert (N2 : forall k, gm 2 P <> gm k B).
  { intros k E. apply (N' (k * ((r + 1) / 2))%Z).
    rewrite Zodd_mod in Hodd. apply Zeq_bool_eq in Hodd.
    pose proof (Z.div_mod r 2 ltac:(lia)) as D.
    assert (D2 : ((r + 1) / 2 = r / 2 + 1)%Z).
    { replace (r + 1)%Z with ((r / 2 + 1) * 2)%Z by lia. apply Z.div_mul. lia. }
    rewrite D2. assert (X : gadd g P (gneg g (gm (k * (r / 2 + 1)) B)) = g0 g).
    { apply no_two_torsion. rewrite (gmul_gadd _ GL), (gmul_gneg _ GL), <- (gmul_mul _ GL), E, <- (gmul_sub _ GL).
      replace (k - 2 * (k * (r / 2 + 1)))%Z with (- k * r)%Z by lia.
      rewrite (gmul_mul _ GL), HrB. apply (gmul_g0 _ GL). }
    apply (g_neg_unique _ GL) in X. apply (f_equal (gneg g)) in X. rewrite !(g_neg_neg _ GL) in X. symmetry. exact X. }
  set (f := fun ei : Z * nat => gadd g (gm (fst ei) P) (gm (Z.of_nat (snd ei)) B)).
  set (dom := list_prod [0%Z; 1%Z; (-1)%Z] (seq O (Z.to_nat r))).
  assert (Inj : forall u v, In u dom -> In v dom -> f u = f v -> u = v).
  { intros [e i] [e' i'] Hu Hv E. apply in_prod_iff in Hu, Hv. destruct Hu as [He Hi], Hv as [He' Hi'].
    apply in_seq in Hi, Hi'. unfold f in E. cbn [fst snd] in E.
    assert (D : gm (e - e') P = gm (Z.of_nat i' - Z.of_nat i) B).
    { rewrite !(gmul_sub _ GL). apply (g_cancel_r _ GL (gadd g (gm e' P) (gm (Z.of_nat i) B))).
      rewrite (gl_assoc _ GL). rewrite <- (gl_assoc _ GL (gneg g (gm e' P))), (g_neg_l _ GL), (gl_0 _ GL), E.
      rewrite (gl_comm _ GL (gm e' P) (gm (Z.of_nat i') B)).
      rewrite (gl_assoc _ GL (gm (Z.of_nat i') B) (gneg g (gm (Z.of_nat i) B))).
      rewrite (gl_comm _ GL (gm e' P) (gm (Z.of_nat i) B)).
      rewrite <- (gl_assoc _ GL (gneg g (gm (Z.of_nat i) B))), (g_neg_l _ GL), (gl_0 _ GL). reflexivity. }
    assert (Cases : (e - e' = 0 \/ e - e' = 1 \/ e - e' = -1 \/ e - e' = 2 \/ e - e' = -2)%Z).
    { cbn [In] in He, He'. lia. }
    destruct Cases as [C|[C|[C|[C|C]]]]; rewrite C in D.
    - rewrite (gmul_0 g) in D. symmetry in D. apply gen_order in D. destruct D as [m D].
      assert (m = 0%Z) by nia. f_equal; lia.
    - rewrite (gmul_1 _ GL) in D. exfalso. exact (N' _ D).
    - exfalso. rewrite (gmul_neg1 _ GL) in D. apply (f_equal (gneg g)) in D. rewrite (g_neg_neg _ GL), <- (gmul_opp _ GL) in D.
      exact (N' _ D).
    - exfalso. exact (N2 _ D).
    - exfalso. change (-2)%Z with (- (2))%Z in D. rewrite (gmul_opp _ GL) in D.
      apply (f_equal (gneg g)) in D. rewrite (g_neg_neg _ GL), <- (gmul_opp _ GL) in D. exact (N2 _ D). }
  assert (Nd : NoDup dom).
  { apply NoDup_list_prod; [|apply seq_NoDup]. repeat constructor; cbn [In]; lia. }
  assert (Ndf : NoDup (map (fun u => proj1_sig (f u)) dom)).
  { assert (Inj' : forall u v, In u dom -> In v dom -> proj1_sig (f u) = proj1_sig (f v) -> u = v).
    { intros u v Hu Hv E. apply Inj; auto. apply cpt_ext. exact E. }
    clear Inj. induction dom as [|u l IH]; [constructor|]. cbn [map]. inversion Nd as [|? ? Np Nd']; subst.
    constructor.
    + intros X. apply in_map_iff in X. destruct X as (v & Ev & Hv).
      apply Np. rewrite (Inj' u v (or_introl eq_refl) (or_intror Hv) (eq_sym Ev)). exact Hv.
    + apply IH; [exact Nd'|]. intros x y Hx Hy. apply Inj'; right; assumption. }
  assert (On : Forall on (map (fun u => proj1_sig (f u)) dom)).
  { apply Forall_forall. intros Q HQ. apply in_map_iff in HQ. destruct HQ as (u & <- & _). apply (cpt_on o c HC). }
  pose proof (points_bound _ Ndf On) as Bd. rewrite map_length in Bd. unfold dom in Bd. rewrite prod_length, seq_length in Bd.
  cbn [length] in Bd. lia.
Qed.
End Gen.

(** The same for points as pairs. *)
Theorem whole_group r B : prime r -> Z.odd r = true -> (2 * q + 1 < 3 * r)%Z ->
  on (Some B) -> pt_mulz o a r (Some B) = None ->
  forall P, on P -> (exists k, P = pt_mulz o a k (Some B)) /\ pt_mulz o a r P = None.
Proof.
  intros Hr Ho Hb HB HrB P HP.
  set (B' := mkpt o c HC (Some B) HB). set (P' := mkpt o c HC P HP).
  assert (E0 : B' <> g0 g) by (intros E; apply (f_equal (@proj1_sig _ _)) in E; discriminate).
  assert (E1 : gm r B' = g0 g) by (apply cpt_ext; rewrite (gmul_pt o c HC); exact HrB).
  destruct (all_multiples r Hr Ho Hb B' E0 E1 P') as (k & Ek). split.
  - exists k. apply (f_equal (@proj1_sig _ _)) in Ek. rewrite (gmul_pt o c HC) in Ek. exact Ek.
  - assert (X : gm r P' = g0 g).
    { rewrite Ek, <- (gmul_mul _ GL), Z.mul_comm, (gmul_mul _ GL), E1. apply (gmul_g0 _ GL). }
    apply (f_equal (@proj1_sig _ _)) in X. rewrite (gmul_pt o c HC) in X. exact X.
Qed.
End Count.
