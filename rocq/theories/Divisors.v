(** Products of lines on a curve and their zeros: reciprocity, and products with the
    same zeros agree. *)
From Coq Require Import Permutation.
From Verif Require Import Base Algebra Pow Tower TowerFacts FiniteField SpecCurve SpecCurveFacts CurveGroup SpecPairing PairingLines.

Section Divisors.
Context {F : Type} (o : fops F) (a b : F) (H : field_laws o).
Hypothesis H2 : fadd o (f1 o) (f1 o) <> f0 o.
Notation "0" := (f0 o). Notation "1" := (f1 o).
Infix "+" := (fadd o). Infix "-" := (fsub o). Infix "*" := (fmul o).
Notation "- x" := (fneg o x).
Notation on := (on_curve o a b). Notation add := (pt_add o a). Notation neg := (pt_neg o).
Let HR := fl_rl _ H.
Add Field FD : (field_thy o H).

(** Y - g X - d, or X - x. *)
Inductive ln := Ln (g d : F) | Vt (x : F).
Definition leval (l : ln) (z : F * F) : F :=
  match l with Ln g d => snd z - g * fst z - d | Vt x => fst z - x end.

(** The zeros on the curve, with multiplicities. *)
Inductive lz : ln -> list (F * F) -> Prop :=
| lz_L g d x1 x2 x3 : x1 + x2 + x3 = g * g -> x1 * x2 + x1 * x3 + x2 * x3 = a - (1 + 1) * (g * d) -> x1 * x2 * x3 = d * d - b ->
    lz (Ln g d) [(x1, g * x1 + d); (x2, g * x2 + d); (x3, g * x3 + d)]
| lz_V x y : y * y = x * x * x + a * x + b -> lz (Vt x) [(x, y); (x, - y)].

Definition lprod (l : ln) (zs : list (F * F)) : F := fprod o (map (leval l) zs).
Definition both (l m : ln) : F := match l, m with Ln _ _, Ln _ _ => - (1) | _, _ => 1 end.

Lemma recip l m zl zm : lz l zl -> lz m zm -> lprod l zm = both l m * lprod m zl.
Proof.
  intros Hl Hm. destruct Hl as [g d x1 x2 x3 A1 A2 A3|x y A], Hm as [h e u1 u2 u3 B1 B2 B3|u v B];
    unfold lprod, both; cbn [map fprod fold_right leval fst snd].
  - (* both are products of the differences of the slopes *)
    assert (E1 : forall k c, (k * x1 + c) * ((k * x2 + c) * (k * x3 + c))
      = k * k * k * (d * d - b) + k * k * c * (a - (1 + 1) * (g * d)) + k * c * c * (g * g) + c * c * c).
    { intros k c. rewrite <- A1, <- A2, <- A3. ring. }
    assert (E2 : forall k c, (k * u1 + c) * ((k * u2 + c) * (k * u3 + c))
      = k * k * k * (e * e - b) + k * k * c * (a - (1 + 1) * (h * e)) + k * c * c * (h * h) + c * c * c).
    { intros k c. rewrite <- B1, <- B2, <- B3. ring. }
    transitivity (((h - g) * u1 + (e - d)) * (((h - g) * u2 + (e - d)) * ((h - g) * u3 + (e - d)))); [ring|].
    rewrite E2.
    transitivity (- (1) * (((g - h) * x1 + (d - e)) * (((g - h) * x2 + (d - e)) * ((g - h) * x3 + (d - e))))); [|ring].
    rewrite E1. ring.
  - transitivity ((g * u + d) * (g * u + d) - v * v); [ring|]. rewrite B.
    transitivity (u * u * (x1 + x2 + x3) - u * (x1 * x2 + x1 * x3 + x2 * x3) + x1 * x2 * x3 - u * u * u); [rewrite A1, A2, A3; ring|ring].
  - transitivity (- ((x * x * x + a * x + b) - (h * x + e) * (h * x + e)));
      [|rewrite <- A; ring].
    transitivity (- (x * x * x - x * x * (u1 + u2 + u3) + x * (u1 * u2 + u1 * u3 + u2 * u3) - u1 * u2 * u3)); [ring|].
    rewrite B1, B2, B3. ring.
  - ring.
Qed.

Lemma lz_on l zs z : lz l zs -> In z zs -> on (Some z).
Proof.
  intros Hl. destruct Hl as [g d x1 x2 x3 A1 A2 A3|x y A].
  - assert (E : forall x, (x - x1) * (x - x2) * (x - x3) = x * x * x + a * x + b - (g * x + d) * (g * x + d)).
    { intros x. transitivity (x * x * x - x * x * (x1 + x2 + x3) + x * (x1 * x2 + x1 * x3 + x2 * x3) - x1 * x2 * x3); [ring|].
      rewrite A1, A2, A3. ring. }
    intros [<- | [<- | [<- | []]]]; cbn [on_curve]; symmetry; apply (sub_zero_eq o H); rewrite <- E; ring.
  - intros [<- | [<- | []]]; cbn [on_curve]; [exact A|]. rewrite <- A. ring.
Qed.

Lemma lz_zero l zs z : lz l zs -> on (Some z) -> leval l z = 0 -> In z zs.
Proof.
  intros Hl. destruct z as [x y]. cbn [on_curve]. intros O Z. destruct Hl as [g d x1 x2 x3 A1 A2 A3|u v A].
  - cbn [leval fst snd] in Z.
    assert (Y : y = g * x + d). { apply (sub_zero_eq o H). rewrite <- Z. ring. }
    assert (E : (x - x1) * ((x - x2) * (x - x3)) = 0).
    { transitivity (x * x * x - x * x * (x1 + x2 + x3) + x * (x1 * x2 + x1 * x3 + x2 * x3) - x1 * x2 * x3); [ring|].
      rewrite A1, A2, A3. transitivity (x * x * x + a * x + b - (g * x + d) * (g * x + d)); [ring|]. rewrite <- Y, <- O. ring. }
    apply (mul_integral o H) in E. destruct E as [E|E]; [|apply (mul_integral o H) in E; destruct E as [E|E]];
      apply (sub_zero_eq o H) in E; rewrite Y, E; cbn [In]; auto.
  - cbn [leval fst snd] in Z. apply (sub_zero_eq o H) in Z. subst u.
    destruct (sqr_eq_cases o H y v) as [E|E]; [rewrite O, A; reflexivity|..]; rewrite E; cbn [In]; auto.
Qed.

(** ** Products of lines *)
Definition feval (fl : list ln) (z : F * F) : F := fprod o (map (fun l => leval l z) fl).
Inductive fz : list ln -> list (F * F) -> Prop :=
| fz_nil : fz [] []
| fz_cons l z fl zs : lz l z -> fz fl zs -> fz (l :: fl) (z ++ zs).

Lemma fz_one l z : lz l z -> fz [l] z.
Proof. intros Hl. rewrite <- (app_nil_r z). constructor; [exact Hl|constructor]. Qed.
Lemma fz_app f1 z1 f2 z2 : fz f1 z1 -> fz f2 z2 -> fz (f1 ++ f2) (z1 ++ z2).
Proof.
  induction 1 as [|l z fl zs Hl Hf IH]; intros K; [exact K|]. cbn [app]. rewrite <- app_assoc.
  constructor; [exact Hl|]. apply IH. exact K.
Qed.
Lemma feval_app f1 f2 z : feval (f1 ++ f2) z = feval f1 z * feval f2 z.
Proof. unfold feval. rewrite map_app. apply (fprod_app o HR). Qed.
Lemma fz_on fl zs z : fz fl zs -> In z zs -> on (Some z).
Proof.
  induction 1 as [|l z' fl zs Hl Hf IH]; intros K; [destruct K|].
  apply in_app_or in K. destruct K as [K|K]; [exact (lz_on _ _ _ Hl K)|exact (IH K)].
Qed.
Lemma fz_zero fl zs z : fz fl zs -> on (Some z) -> feval fl z = 0 -> In z zs.
Proof.
  intros Hf O. induction Hf as [|l z' fl zs Hl Hf IH]; intros E.
  - exfalso. exact (fl_1_0 _ H E).
  - change (leval l z * feval fl z = 0) in E. apply (mul_integral o H) in E. apply in_or_app.
    destruct E as [E|E]; [left; exact (lz_zero _ _ _ Hl O E)|right; exact (IH E)].
Qed.

Lemma fprod_map_mul2 {A} (f g : A -> F) l : fprod o (map (fun x => f x * g x) l) = fprod o (map f l) * fprod o (map g l).
Proof.
  induction l as [|x l IH]; cbn [map fprod fold_right]; [ring|].
  change (f x * g x * fprod o (map (fun x => f x * g x) l) = f x * fprod o (map f l) * (g x * fprod o (map g l))).
  rewrite IH. ring.
Qed.
Lemma fprod_map_one {A} (l : list A) : fprod o (map (fun _ => 1) l) = 1.
Proof. induction l as [|x l IH]; [reflexivity|]. change (1 * fprod o (map (fun _ => 1) l) = 1). rewrite IH. ring. Qed.

Definition sg (x : bool) : F := if x then - (1) else 1.
Lemma sg_xor x y : sg (xorb x y) = sg x * sg y.
Proof. destruct x, y; cbn; ring. Qed.
Lemma sg_and_l x y z : sg (xorb x y && z) = sg (x && z) * sg (y && z).
Proof. destruct x, y, z; cbn; ring. Qed.
Lemma sg_and_r x y z : sg (z && xorb x y) = sg (z && x) * sg (z && y).
Proof. destruct x, y, z; cbn; ring. Qed.
Lemma sg_sqr x : sg x * sg x = 1.
Proof. destruct x; cbn; ring. Qed.
Lemma both_sg l m zl zm : lz l zl -> lz m zm -> both l m = sg (Nat.odd (length zl) && Nat.odd (length zm)).
Proof. intros [] []; reflexivity. Qed.

Lemma recip_lf l zl fm zm : lz l zl -> fz fm zm ->
  lprod l zm = sg (Nat.odd (length zl) && Nat.odd (length zm)) * fprod o (map (feval fm) zl).
Proof.
  intros Hl. induction 1 as [|m z fm zm Hm Hf IH].
  - unfold feval. cbn [map fprod fold_right length]. change (Nat.odd 0) with false. rewrite Bool.andb_false_r. cbn [sg].
    unfold lprod. cbn [map fprod fold_right]. change (map (fun _ : F * F => fold_right (fmul o) 1 []) zl) with (map (fun _ : F * F => 1) zl).
    rewrite fprod_map_one. ring.
  - unfold lprod in *. rewrite map_app, (fprod_app o HR), IH, app_length, Nat.odd_add.
    pose proof (recip _ _ _ _ Hl Hm) as E. rewrite (both_sg _ _ _ _ Hl Hm) in E. unfold lprod in E. rewrite E.
    change (map (feval (m :: fm)) zl) with (map (fun z => leval m z * feval fm z) zl). rewrite fprod_map_mul2.
    rewrite sg_and_r. ring.
Qed.
(** Weil reciprocity for products of lines. *)
Theorem recip_ff fl zl fm zm : fz fl zl -> fz fm zm ->
  fprod o (map (feval fl) zm) = sg (Nat.odd (length zl) && Nat.odd (length zm)) * fprod o (map (feval fm) zl).
Proof.
  intros Hl Hm. induction Hl as [|l z fl zl Hl Hf IH].
  - cbn [map fprod fold_right length]. change (Nat.odd 0) with false. cbn [andb sg].
    change (map (feval []) zm) with (map (fun _ : F * F => 1) zm). rewrite fprod_map_one. ring.
  - change (map (feval (l :: fl)) zm) with (map (fun z => leval l z * feval fl z) zm). rewrite fprod_map_mul2, IH.
    pose proof (recip_lf _ _ _ _ Hl Hm) as E. unfold lprod in E. rewrite E.
    rewrite map_app, (fprod_app o HR), app_length, Nat.odd_add, sg_and_l. ring.
Qed.

(** ** The line through two points *)
Definition somes (l : list (point (F := F))) : list (F * F) := flat_map (fun P => match P with Some z => [z] | None => [] end) l.
Lemma somes_app l m : somes (l ++ m) = somes l ++ somes m.
Proof. apply flat_map_app. Qed.
Lemma in_somes l z : In z (somes l) <-> In (Some z) l.
Proof.
  unfold somes. rewrite in_flat_map. split.
  - intros ([z'|] & I1 & I2); [|destruct I2]. destruct I2 as [-> | []]. exact I1.
  - intros I1. exists (Some z). split; [exact I1|left; reflexivity].
Qed.
Lemma somes_perm l m : Permutation l m -> Permutation (somes l) (somes m).
Proof. intros P. unfold somes. rewrite P. reflexivity. Qed.

Lemma line_div A B : on A -> on B -> exists fl zs,
  (forall X Y, line o a A B X Y = feval fl (X, Y)) /\ fz fl zs /\ zs = somes [A; B; neg (add A B)] /\ (length fl <= 1)%nat.
Proof.
  intros hA hB. destruct A as [[x1 y1]|], B as [[x2 y2]|].
  - destruct (opp_dec o H x1 y1 x2 y2) as [O|N].
    + rewrite (add_opp o a H _ _ _ _ O). destruct O as (-> & ->).
      exists [Vt x2], [(x2, - y2); (x2, y2)]. split; [|split; [|split; [reflexivity|cbn; lia]]].
      * intros X Y. cbn [line]. rewrite !(feqb_refl o H). unfold feval. cbn [map fprod fold_right leval fst snd]. ring.
      * replace y2 with (- - y2) at 2 by ring. apply fz_one. constructor.
        cbn [on_curve] in hA. exact hA.
    + destruct (add_slope o a b H H2 _ _ _ _ hA hB N) as (l & S & EA). rewrite EA.
      destruct (slope_a o a H _ _ _ _ _ S) as [E1 Ea]. pose proof (on_b o a b H _ _ hB) as Eb.
      unfold pt_line. cbv zeta. set (x3 := l * l - x1 - x2). set (d := y1 - l * x1).
      exists [Ln l d], [(x1, l * x1 + d); (x2, l * x2 + d); (x3, l * x3 + d)].
      split; [|split; [|split; [|cbn; lia]]].
      * intros X Y. rewrite (line_of_slope o H a b H2 l _ _ _ _ _ _ hA hB N S). unfold feval.
        cbn [map fprod fold_right leval fst snd]. unfold d. ring.
      * apply fz_one. constructor; unfold x3, d; [ring|rewrite Ea, E1; ring|rewrite Eb, Ea, E1; ring].
      * cbn [somes flat_map pt_neg app]. unfold d. f_equal; [f_equal; ring|]. f_equal; [f_equal; rewrite E1; ring|].
        f_equal. f_equal. ring.
  - exists [Vt x1], [(x1, y1); (x1, - y1)]. split; [|split; [|split; [reflexivity|cbn; lia]]].
    + intros X Y. unfold feval. cbn [line map fprod fold_right leval fst snd]. ring.
    + apply fz_one. constructor. exact hA.
  - exists [Vt x2], [(x2, y2); (x2, - y2)]. split; [|split; [|split; [reflexivity|cbn; lia]]].
    + intros X Y. unfold feval. cbn [line map fprod fold_right leval fst snd]. ring.
    + apply fz_one. constructor. exact hB.
  - exists [], []. split; [|split; [constructor|split; [reflexivity|cbn; lia]]]. reflexivity.
Qed.

(** ** A product of lines is a(X) + b(X) Y *)
Fixpoint padd (p q : list F) : list F :=
  match p, q with [], _ => q | _, [] => p | x :: p', y :: q' => (x + y) :: padd p' q' end.
Lemma padd_eval p : forall q x, peval o (padd p q) x = peval o p x + peval o q x.
Proof.
  induction p as [|c p IH]; intros q x; [cbn [padd peval]; ring|]. destruct q as [|e q]; cbn [padd peval]; [ring|].
  rewrite IH. ring.
Qed.
Lemma padd_length p : forall q, length (padd p q) = Nat.max (length p) (length q).
Proof.
  induction p as [|c p IH]; intros q; [reflexivity|]. destruct q as [|e q]; cbn [padd length Nat.max]; [reflexivity|].
  rewrite IH. reflexivity.
Qed.
Lemma pscale_eval c p x : peval o (map (fmul o c) p) x = c * peval o p x.
Proof. induction p as [|e p IH]; cbn [map peval]; [ring|]. rewrite IH. ring. Qed.
Definition plin (c e : F) (p : list F) : list F := padd (map (fmul o c) p) (0 :: map (fmul o e) p).
Lemma plin_eval c e p x : peval o (plin c e p) x = (c + e * x) * peval o p x.
Proof. unfold plin. rewrite padd_eval. cbn [peval]. rewrite !pscale_eval. ring. Qed.
Lemma plin_length c e p : length (plin c e p) = S (length p).
Proof. unfold plin. rewrite padd_length. cbn [length]. rewrite !map_length. lia. Qed.

Lemma feval_poly fl : exists pa pb, (length pa <= 2 * length fl + 1)%nat /\ (length pb <= 2 * length fl)%nat /\
  forall x y, on (Some (x, y)) -> feval fl (x, y) = peval o pa x + peval o pb x * y.
Proof.
  induction fl as [|l fl (pa & pb & L1 & L2 & E)].
  { exists [1], []. split; [cbn; lia|]. split; [cbn; lia|]. intros x y _. unfold feval. cbn [map fprod fold_right peval]. ring. }
  destruct l as [g d|u].
  - exists (padd (plin (- d) (- g) pa) (padd (plin b a pb) (0 :: 0 :: 0 :: pb))), (padd pa (plin (- d) (- g) pb)).
    split; [|split].
    + rewrite !padd_length, !plin_length. cbn [length]. lia.
    + rewrite !padd_length, !plin_length. cbn [length]. lia.
    + intros x y O. change (feval (Ln g d :: fl) (x, y)) with ((y - g * x - d) * feval fl (x, y)). rewrite (E _ _ O).
      rewrite !padd_eval, !plin_eval. cbn [peval]. cbn [on_curve] in O.
      transitivity (peval o pa x * y - (g * x + d) * peval o pa x - (g * x + d) * (peval o pb x * y) + peval o pb x * (y * y)); [ring|].
      rewrite O. ring.
  - exists (plin (- u) 1 pa), (plin (- u) 1 pb). split; [|split].
    + rewrite plin_length. cbn [length]. lia.
    + rewrite plin_length. cbn [length]. lia.
    + intros x y O. change (feval (Vt u :: fl) (x, y)) with ((x - u) * feval fl (x, y)). rewrite (E _ _ O), !plin_eval. ring.
Qed.

Lemma vanish roots : NoDup roots -> forall p, (length p <= length roots)%nat -> (forall r, In r roots -> peval o p r = 0) ->
  forall x, peval o p x = 0.
Proof.
  induction 1 as [|r roots Hr Hn IH]; intros p L Z x.
  - destruct p; [reflexivity|cbn in L; lia].
  - assert (Zr : peval o p r = 0) by (apply Z; left; reflexivity).
    rewrite (pdiv_spec o H p r x), Zr. rewrite IH; [ring| |].
    + rewrite pdiv_length. cbn [length] in L. lia.
    + intros s Hs. assert (E : (s - r) * peval o (pdiv o p r) s = 0).
      { transitivity (peval o p s - peval o p r); [rewrite (pdiv_spec o H p r s); ring|]. rewrite Zr, (Z s) by (right; exact Hs). ring. }
      apply (mul_integral o H) in E. destruct E as [E|E]; [|exact E].
      exfalso. apply Hr. apply (sub_zero_eq o H) in E. subst. exact Hs.
Qed.

Lemma pow_coprime x m n : (0 <= m)%Z -> (0 <= n)%Z -> Z.gcd m n = 1%Z -> fpowz o x m = 1 -> fpowz o x n = 1 -> x = 1.
Proof.
  intros Hm Hn G Em En. destruct (Z.gcd_bezout m n 1%Z G) as (u & v & Ez).
  assert (X : forall k j, (0 <= k)%Z -> (0 <= j)%Z -> fpowz o x k = 1 -> fpowz o x (j * k)%Z = 1).
  { intros k j hk hj Ek. rewrite Z.mul_comm, (fpowz_mul o HR) by assumption. rewrite Ek. apply (fpowz_one o HR). }
  assert (Y : forall s t, (0 <= t)%Z -> (s = t + 1)%Z -> fpowz o x s = 1 -> fpowz o x t = 1 -> x = 1).
  { intros s t ht -> Es Et. rewrite (fpowz_succ o HR) in Es by assumption. rewrite Et in Es. rewrite <- Es. ring. }
  destruct (Z_le_gt_dec 0 u) as [U|U], (Z_le_gt_dec 0 v) as [V|V].
  - (* one of the summands is zero *)
    assert (hu : (0 <= u * m)%Z) by (apply Z.mul_nonneg_nonneg; assumption).
    assert (hv : (0 <= v * n)%Z) by (apply Z.mul_nonneg_nonneg; assumption).
    transitivity (fpowz o x 1%Z); [reflexivity|]. rewrite <- Ez, (fpowz_add o HR), !X by assumption. ring.
  - apply (Y (u * m)%Z ((- v) * n)%Z); [apply Z.mul_nonneg_nonneg; lia|lia|apply X; assumption|apply X; lia || assumption].
  - apply (Y (v * n)%Z ((- u) * m)%Z); [apply Z.mul_nonneg_nonneg; lia|lia|apply X; assumption|apply X; lia || assumption].
  - exfalso. assert (u * m <= 0)%Z by (apply Z.mul_nonpos_nonneg; lia). assert (v * n <= 0)%Z by (apply Z.mul_nonpos_nonneg; lia). lia.
Qed.

(** ** Equal zeros *)
Section Same.
Context (l q : Z) (kR : Z -> point (F := F)).
Hypothesis Hl : prime l.
Hypothesis R_on : forall i, on (kR i).
Hypothesis R_add : forall i j, kR (Z.add i j) = add (kR i) (kR j).
Hypothesis R_neg : forall i, kR (Z.opp i) = neg (kR i).
Hypothesis R_none : forall i, kR i = None <-> (l | i)%Z.
Hypothesis Hq : (1 <= q)%Z.
Hypothesis fer : forall x, x <> 0 -> fpowz o x (q - 1)%Z = 1.
Hypothesis lq : Z.gcd l (q - 1)%Z = 1%Z.
Context (fl fm : list ln) (zl zm : list (F * F)).
Hypothesis Hfl : fz fl zl.
Hypothesis Hfm : fz fm zm.
Hypothesis PZ : Permutation zl zm.
Hypothesis out : forall i z, In z zl -> kR i <> Some z.

Let val (f : list ln) (P : point) : F := match P with None => 1 | Some z => feval f z end.
Lemma fprod_somes f L : fprod o (map (feval f) (somes L)) = fprod o (map (val f) L).
Proof.
  induction L as [|[z|] L IH]; [reflexivity|..]; cbn [somes flat_map app map].
  - change (feval f z * fprod o (map (feval f) (somes L)) = feval f z * fprod o (map (val f) L)). rewrite IH. reflexivity.
  - change (fprod o (map (feval f) (somes L)) = 1 * fprod o (map (val f) L)). rewrite IH. ring.
Qed.
Lemma val_l_nz i : val fl (kR i) <> 0.
Proof.
  destruct (kR i) as [z|] eqn:E; [|exact (fl_1_0 _ H)]. cbn [val]. intros E0. pose proof (R_on i) as O. rewrite E in O.
  exact (out i z (fz_zero _ _ _ Hfl O E0) E).
Qed.
Lemma val_m_nz i : val fm (kR i) <> 0.
Proof.
  destruct (kR i) as [z|] eqn:E; [|exact (fl_1_0 _ H)]. cbn [val]. intros E0. pose proof (R_on i) as O. rewrite E in O.
  pose proof (fz_zero _ _ _ Hfm O E0) as I. apply (Permutation_in z (Permutation_sym PZ)) in I. exact (out i z I E).
Qed.
Let rho (i : Z) : F := val fl (kR i) * inv0 o (val fm (kR i)).
Lemma rho_nz i : rho i <> 0.
Proof. apply (mul_nonzero o H); [apply val_l_nz|apply (inv0_nonzero o H); apply val_m_nz]. Qed.
Lemma rho_line i j : rho i * rho j * rho (- (i + j))%Z = 1.
Proof.
  destruct (line_div (kR i) (kR j) (R_on i) (R_on j)) as (fn & zn & _ & Hn & En & _).
  pose proof (recip_ff _ _ _ _ Hfl Hn) as A. pose proof (recip_ff _ _ _ _ Hfm Hn) as B.
  rewrite (fprod_perm o HR _ _ (Permutation_map (feval fn) PZ)), (Permutation_length PZ), <- B in A.
  rewrite En, !fprod_somes in A. rewrite <- R_add, <- R_neg in A. cbn [map fprod fold_right] in A.
  unfold rho.
  transitivity (val fl (kR i) * (val fl (kR j) * (val fl (kR (- (i + j))) * 1)) *
    (inv0 o (val fm (kR i)) * inv0 o (val fm (kR j)) * inv0 o (val fm (kR (- (i + j)))))); [ring|]. rewrite A.
  transitivity ((inv0 o (val fm (kR i)) * val fm (kR i)) * (inv0 o (val fm (kR j)) * val fm (kR j)) * (inv0 o (val fm (kR (- (i + j)))) * val fm (kR (- (i + j))))); [ring|].
  rewrite !(inv0_l o H) by apply val_m_nz. ring.
Qed.
Lemma R_0 : kR 0%Z = None.
Proof. apply R_none. exists 0%Z. reflexivity. Qed.
Lemma rho_none i : (l | i)%Z -> rho i = 1.
Proof.
  intros D. apply R_none in D. unfold rho. rewrite D. cbn [val]. rewrite (inv0_unique o H 1 1); ring.
Qed.
Lemma rho_opp i : rho i * rho (- i)%Z = 1.
Proof.
  pose proof (rho_line i 0%Z) as E. rewrite Z.add_0_r, (rho_none 0%Z) in E by (exists 0%Z; reflexivity). rewrite <- E. ring.
Qed.
Lemma rho_add i j : rho (i + j)%Z = rho i * rho j.
Proof.
  transitivity (rho (i + j)%Z * (rho i * rho j * rho (- (i + j))%Z)); [rewrite rho_line; ring|].
  transitivity (rho i * rho j * (rho (i + j)%Z * rho (- (i + j))%Z)); [ring|]. rewrite rho_opp. ring.
Qed.
Lemma rho_pow i : (0 <= i)%Z -> rho i = fpowz o (rho 1%Z) i.
Proof.
  revert i. apply natlike_ind; [rewrite rho_none by (exists 0%Z; reflexivity); reflexivity|].
  intros i hi IH. unfold Z.succ. rewrite rho_add, (fpowz_succ o HR), IH by exact hi. ring.
Qed.
Lemma rho_one i : (0 <= i)%Z -> rho i = 1.
Proof.
  intros hi. rewrite rho_pow by exact hi.
  rewrite (pow_coprime (rho 1%Z) l (q - 1)%Z); [apply (fpowz_one o HR)|..].
  - pose proof (prime_ge_2 _ Hl). lia.
  - lia.
  - exact lq.
  - pose proof (prime_ge_2 _ Hl). rewrite <- rho_pow by lia. apply rho_none. exists 1%Z. lia.
  - apply fer. apply rho_nz.
Qed.
Lemma vals_agree i : (0 <= i)%Z -> val fl (kR i) = val fm (kR i).
Proof.
  intros hi. pose proof (rho_one i hi) as E. unfold rho in E.
  transitivity (val fl (kR i) * (inv0 o (val fm (kR i)) * val fm (kR i))).
  - rewrite (inv0_l o H) by apply val_m_nz. ring.
  - transitivity (val fl (kR i) * inv0 o (val fm (kR i)) * val fm (kR i)); [ring|]. rewrite E. ring.
Qed.

(** The x-coordinates of the multiples 1, ..., n. *)
Let xof (P : point (F := F)) : F := match P with Some (x, _) => x | None => 0 end.
Definition xs (n : nat) : list F := map (fun i => xof (kR (Z.of_nat i))) (seq 1 n).
Lemma small_some i : (0 < i < l)%Z -> exists x y, kR i = Some (x, y).
Proof.
  intros hi. destruct (kR i) as [[x y]|] eqn:E; [exists x, y; reflexivity|]. apply R_none in E.
  apply Z.divide_pos_le in E; lia.
Qed.
Lemma x_inj i j x y y' : kR i = Some (x, y) -> kR j = Some (x, y') -> (l | i - j)%Z \/ (l | i + j)%Z.
Proof.
  intros Ei Ej. pose proof (R_on i) as Oi. pose proof (R_on j) as Oj. rewrite Ei in Oi. rewrite Ej in Oj. cbn [on_curve] in Oi, Oj.
  destruct (sqr_eq_cases o H y y') as [E|E]; [rewrite Oi, Oj; reflexivity|left|right]; apply R_none.
  - unfold Z.sub. rewrite R_add, R_neg, Ei, Ej, E. apply (add_neg o a H).
  - rewrite R_add, Ei, Ej. apply (add_opp o a H). split; [reflexivity|exact E].
Qed.
Lemma xs_nodup n : (2 * Z.of_nat n < l)%Z -> NoDup (xs n).
Proof.
  intros hn. unfold xs.
  assert (X : forall s, NoDup s -> (forall i, In i s -> (1 <= i <= n)%nat) -> NoDup (map (fun i => xof (kR (Z.of_nat i))) s)).
  { induction 1 as [|i s Hi Hs IH]; intros B; cbn [map]; constructor.
    - intros I. apply in_map_iff in I. destruct I as (j & Ej & Ij).
      pose proof (B i (or_introl eq_refl)) as Bi. pose proof (B j (or_intror Ij)) as Bj.
      destruct (small_some (Z.of_nat i)) as (x & y & Ei); [lia|]. destruct (small_some (Z.of_nat j)) as (x' & y' & Ej'); [lia|].
      rewrite Ei, Ej' in Ej. cbn [xof] in Ej. subst x'.
      assert (Nij : i <> j) by (intros ->; contradiction).
      destruct (x_inj _ _ _ _ _ Ei Ej') as [D|D].
      + destruct (Z_lt_le_dec (Z.of_nat j) (Z.of_nat i)) as [L|L].
        * apply Z.divide_pos_le in D; lia.
        * apply Z.divide_opp_r in D. apply Z.divide_pos_le in D; lia.
      + apply Z.divide_pos_le in D; lia.
    - apply IH. intros k Ik. apply B. right. exact Ik. }
  apply X; [apply seq_NoDup|]. intros i I. apply in_seq in I. lia.
Qed.

Theorem same_zeros n : (2 * Z.of_nat n < l)%Z -> (2 * length fl + 1 <= n)%nat -> (2 * length fm + 1 <= n)%nat ->
  forall z, on (Some z) -> feval fl z = feval fm z.
Proof.
  intros hn hf hm [x0 y0] O0.
  destruct (feval_poly fl) as (pa & pb & La & Lb & E1). destruct (feval_poly fm) as (qa & qb & La' & Lb' & E2).
  set (ca := padd pa (map (fmul o (- (1))) qa)). set (cb := padd pb (map (fmul o (- (1))) qb)).
  assert (EC : forall x y, on (Some (x, y)) -> feval fl (x, y) - feval fm (x, y) = peval o ca x + peval o cb x * y).
  { intros x y O. unfold ca, cb. rewrite (E1 _ _ O), (E2 _ _ O), !padd_eval, !pscale_eval. ring. }
  assert (Z : forall x, In x (xs n) -> peval o ca x = 0 /\ peval o cb x = 0).
  { intros x I. unfold xs in I. apply in_map_iff in I. destruct I as (i & Ei & I). apply in_seq in I.
    destruct (small_some (Z.of_nat i)) as (x' & y & Ek); [lia|]. rewrite Ek in Ei. cbn [xof] in Ei. subst x'.
    pose proof (vals_agree (Z.of_nat i) ltac:(lia)) as V. rewrite Ek in V. cbn [val] in V.
    assert (Eo : kR (l - Z.of_nat i)%Z = Some (x, - y)).
    { unfold Z.sub. rewrite R_add, R_neg, Ek. rewrite (proj2 (R_none l)) by apply Z.divide_refl. reflexivity. }
    pose proof (vals_agree (l - Z.of_nat i)%Z ltac:(lia)) as W. rewrite Eo in W. cbn [val] in W.
    pose proof (R_on (Z.of_nat i)) as O. rewrite Ek in O. pose proof (neg_on o a b H _ O) as O'. cbn [pt_neg] in O'.
    pose proof (EC _ _ O) as A. pose proof (EC _ _ O') as B. rewrite V in A. rewrite W in B.
    assert (Y : y <> 0).
    { intros Y0. assert (D : (l | Z.of_nat i + Z.of_nat i)%Z).
      { apply R_none. rewrite R_add, Ek. apply (add_opp o a H). split; [reflexivity|]. rewrite Y0. ring. }
      apply Z.divide_pos_le in D; lia. }
    assert (A0 : peval o ca x = 0).
    { assert (S : (1 + 1) * peval o ca x = 0).
      { transitivity ((peval o ca x + peval o cb x * y) + (peval o ca x + peval o cb x * - y)); [ring|]. rewrite <- A, <- B. ring. }
      apply (mul_integral o H) in S. destruct S as [S|S]; [contradiction|exact S]. }
    split; [exact A0|]. assert (S : peval o cb x * y = 0).
    { transitivity (peval o ca x + peval o cb x * y - peval o ca x); [ring|]. rewrite <- A, A0. ring. }
    apply (mul_integral o H) in S. destruct S as [S|S]; [exact S|contradiction]. }
  assert (Lx : length (xs n) = n) by (unfold xs; rewrite map_length, seq_length; reflexivity).
  apply (sub_zero_eq o H). rewrite (EC _ _ O0).
  rewrite (vanish (xs n) (xs_nodup n hn) ca), (vanish (xs n) (xs_nodup n hn) cb).
  - ring.
  - unfold cb. rewrite padd_length, map_length, Lx. lia.
  - intros x I. apply Z. exact I.
  - unfold ca. rewrite padd_length, map_length, Lx. lia.
  - intros x I. apply Z. exact I.
Qed.
End Same.
End Divisors.
