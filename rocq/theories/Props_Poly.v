(** C69: the Fourier transform of src/fft.rs multiplies polynomials.  The composition (two transforms, products
    of the values, the transform with the inverse root, division by the length) is that of the users of the
    crate; it is written out here from the functions and constants of the crate. *)
From Verif Require Import Base Algebra Pow PrimeField SpecField Limbs LimbsFacts Field FieldFacts Params LimbField ConstFacts Certs Props_Field Props_Field2.
From Verif Require Import Group Fft FftFacts FftInst Props_Fft.
From Coq Require Import Arith.
Local Open Scope Z_scope.

(** The coefficient of X^i in the product of two polynomials, and in the product modulo X^n - 1, [n] the length
    of the second. *)
Definition product_coeff (ps qs : list Z) (i : nat) : Z :=
  zsum (map (fun j => nth j ps 0 * nth (i - j) qs 0) (seq 0 (S i))).
Definition cyclic_coeff (ps qs : list Z) (i : nat) : Z :=
  zsum (map (fun j => nth j ps 0 * nth (Z.to_nat ((Z.of_nat i - Z.of_nat j) mod Z.of_nat (length qs))) qs 0) (seq 0 (length ps))).

(** [fe_square] repeated *)
Definition squarings (c : fconf) (k : nat) (a : list Z) : list Z := Nat.iter k (fe_square c) a.
(** The root of unity of order 2^k, its inverse and 2^-k, from the constants of the field. *)
Definition root (c : fconf) (k : nat) : list Z := squarings c (Z.to_nat (two_adicity c) - k) (ROOT_OF_UNITY c).
Definition root_inv (c : fconf) (k : nat) : list Z := squarings c (Z.to_nat (two_adicity c) - k) (ROOT_OF_UNITY_INV c).
Definition size_inv (c : fconf) (k : nat) : list Z := fe_product c (repeat (TWO_INV c) k).
Definition multiply (c : fconf) (threads k : nat) (a b : list (list Z)) : option (list (list Z)) :=
  match best_fft (limb_fft c) threads a (root c k) k, best_fft (limb_fft c) threads b (root c k) k with
  | Some A, Some B =>
      option_map (map (fun d => fe_mul c d (size_inv c k)))
        (best_fft (limb_fft c) threads (map (fun x => fe_mul c (fst x) (snd x)) (combine A B)) (root_inv c k) k)
  | _, _ => None
  end.

(** ** Values of polynomials, and multiplication by X modulo X^n - 1 *)
Fixpoint ev (t : Z) (v : list Z) : Z := match v with [] => 0 | a :: v' => a + t * ev t v' end.
Definition rot (v : list Z) : list Z := match v with [] => [] | _ => last v 0 :: removelast v end.
Fixpoint axpy (x : Z) (v u : list Z) : list Z :=
  match v, u with a :: v', b :: u' => (x * a + b) :: axpy x v' u' | _, _ => [] end.
Fixpoint cyc (xs ys : list Z) : list Z :=
  match xs with [] => map (fun _ => 0) ys | x :: xs' => axpy x ys (rot (cyc xs' ys)) end.

Lemma zsum_app a b : zsum (a ++ b) = zsum a + zsum b.
Proof. unfold zsum. induction a as [|x a IH]; [reflexivity|]. cbn [app fold_right]. rewrite IH. ring. Qed.
Lemma zsum_scale {A} t (f : A -> Z) l : zsum (map (fun x => t * f x) l) = t * zsum (map f l).
Proof. unfold zsum. induction l as [|x l IH]; cbn [map fold_right]; [ring|]. rewrite IH. ring. Qed.
Lemma ev_app t a b : ev t (a ++ b) = ev t a + t ^ Z.of_nat (length a) * ev t b.
Proof.
  induction a as [|x a IH]; [cbn [app ev length Z.of_nat]; ring|]. cbn [app ev length]. rewrite IH, Nat2Z.inj_succ, Z.pow_succ_r by lia. ring.
Qed.
Lemma rot_length v : length (rot v) = length v.
Proof.
  destruct v as [|a v]; [reflexivity|]. unfold rot. pose proof (app_removelast_last 0 (l := a :: v) ltac:(discriminate)) as E.
  apply (f_equal (@length Z)) in E. rewrite app_length in E. cbn [length] in *. lia.
Qed.
Lemma axpy_length x v : forall u, length u = length v -> length (axpy x v u) = length v.
Proof. induction v as [|a v IH]; intros [|b u] L; try discriminate L; [reflexivity|]. cbn [axpy length]. rewrite IH; [reflexivity|]. now injection L. Qed.
Lemma cyc_length xs ys : length (cyc xs ys) = length ys.
Proof. induction xs as [|x xs IH]; cbn [cyc]; [apply map_length|]. apply axpy_length. rewrite rot_length. exact IH. Qed.
Lemma ev_axpy t x v : forall u, length u = length v -> ev t (axpy x v u) = x * ev t v + ev t u.
Proof.
  induction v as [|a v IH]; intros [|b u] L; try discriminate L; [cbn; ring|]. cbn [axpy ev]. rewrite IH by (now injection L). ring.
Qed.
Lemma ev_rot p t v : (p | t ^ Z.of_nat (length v) - 1) -> (p | ev t (rot v) - t * ev t v).
Proof.
  destruct v as [|a v]; [intros _; cbn [rot ev]; replace (0 - t * 0) with 0 by ring; apply Z.divide_0_r|]. intros D. change (rot (a :: v)) with (last (a :: v) 0 :: removelast (a :: v)).
  pose proof (app_removelast_last 0 (l := a :: v) ltac:(discriminate)) as E. set (l := last (a :: v) 0) in *. set (r := removelast (a :: v)) in *.
  clearbody l r. rewrite E in D |- *. cbn [ev]. rewrite ev_app. cbn [ev]. rewrite app_length in D. cbn [length] in D. rewrite Nat2Z.inj_add in D.
  change (Z.of_nat 1) with 1 in D. rewrite Z.pow_add_r, Z.pow_1_r in D by lia.
  replace (l + t * ev t r - t * (ev t r + t ^ Z.of_nat (length r) * (l + t * 0))) with (- (l * (t ^ Z.of_nat (length r) * t - 1))) by ring.
  apply Z.divide_opp_r, Z.divide_mul_r. exact D.
Qed.
Lemma ev_cyc p t xs ys : (p | t ^ Z.of_nat (length ys) - 1) -> (p | ev t (cyc xs ys) - ev t xs * ev t ys).
Proof.
  intros D. induction xs as [|x xs IH]; cbn [cyc ev].
  - replace (ev t (map (fun _ => 0) ys)) with 0; [replace (0 - 0 * ev t ys) with 0 by ring; apply Z.divide_0_r|]. clear D. induction ys as [|y ys IH]; [reflexivity|]. cbn [map ev]. rewrite <- IH. ring.
  - pose proof (cyc_length xs ys) as L. rewrite ev_axpy by (rewrite rot_length; exact L).
    pose proof (ev_rot p t (cyc xs ys) ltac:(rewrite L; exact D)) as R.
    replace (x * ev t ys + ev t (rot (cyc xs ys)) - (x + t * ev t xs) * ev t ys)
      with ((ev t (rot (cyc xs ys)) - t * ev t (cyc xs ys)) + t * (ev t (cyc xs ys) - ev t xs * ev t ys)) by ring.
    apply Z.divide_add_r; [exact R|apply Z.divide_mul_r; exact IH].
Qed.
Lemma nth_last_Z (v : list Z) : last v 0 = nth (length v - 1) v 0.
Proof. induction v as [|a [|b v] IH]; [reflexivity|reflexivity|]. cbn [length Nat.sub] in *. rewrite Nat.sub_0_r in *. cbn [last nth] in *. exact IH. Qed.
Lemma nth_removelast (v : list Z) : forall i, (i < length v - 1)%nat -> nth i (removelast v) 0 = nth i v 0.
Proof.
  induction v as [|a [|b v] IH]; intros i H; [reflexivity|cbn in H; lia|].
  change (removelast (a :: b :: v)) with (a :: removelast (b :: v)). destruct i as [|i]; [reflexivity|].
  cbn [nth]. rewrite IH by (cbn [length] in *; lia). reflexivity.
Qed.
Lemma nth_rot v i : (i < length v)%nat -> nth i (rot v) 0 = nth (Z.to_nat ((Z.of_nat i - 1) mod Z.of_nat (length v))) v 0.
Proof.
  intros H. destruct v as [|a v]; [cbn in H; lia|]. unfold rot. set (w := a :: v) in *. assert (Lw : (1 <= length w)%nat) by (cbn; lia).
  destruct i as [|i].
  - cbn [nth]. rewrite nth_last_Z. f_equal. change (Z.of_nat 0 - 1) with (-1).
    rewrite <- (Z_mod_plus_full (-1) 1), Z.mod_small by lia. lia.
  - cbn [nth]. rewrite nth_removelast by lia. f_equal. rewrite Z.mod_small by lia. lia.
Qed.
Lemma nth_axpy x v : forall u i, length u = length v -> nth i (axpy x v u) 0 = x * nth i v 0 + nth i u 0.
Proof.
  induction v as [|a v IH]; intros [|b u] i L; try discriminate L; [destruct i; cbn; ring|]. destruct i as [|i]; cbn [axpy nth]; [ring|].
  apply IH. now injection L.
Qed.
Lemma nth_cyc xs ys : forall i, (i < length ys)%nat -> nth i (cyc xs ys) 0 = cyclic_coeff xs ys i.
Proof.
  unfold cyclic_coeff. induction xs as [|x xs IH]; intros i H; cbn [cyc].
  - cbn. clear H. revert i. induction ys as [|y ys IH]; intros [|i]; try reflexivity. cbn [map nth]. apply IH.
  - pose proof (cyc_length xs ys) as L. rewrite nth_axpy by (rewrite rot_length; exact L). rewrite nth_rot by (rewrite L; exact H). rewrite L.
    set (n := Z.of_nat (length ys)) in *. assert (n1 : 0 < n) by lia.
    pose proof (Z.mod_pos_bound (Z.of_nat i - 1) n n1) as B.
    rewrite IH by lia. fold n. rewrite Z2Nat.id by lia.
    cbn [length seq map]. unfold zsum at 2. cbn [fold_right nth]. fold (zsum (map (fun j => nth j (x :: xs) 0 * nth (Z.to_nat ((Z.of_nat i - Z.of_nat j) mod n)) ys 0) (seq 1 (length xs)))).
    f_equal.
    + f_equal. f_equal. change (Z.of_nat 0) with 0. rewrite Z.sub_0_r, Z.mod_small by lia. lia.
    + rewrite <- seq_shift, map_map. unfold zsum. f_equal. apply map_ext. intros j. cbn [nth]. f_equal. f_equal. f_equal.
      rewrite Zminus_mod_idemp_l. f_equal. lia.
Qed.

(** Without wrap-around the two products agree. *)
Lemma zsum_zero l : Forall (fun x => x = 0) l -> zsum l = 0.
Proof. induction 1 as [|x l -> _ IH]; [reflexivity|]. exact IH. Qed.
Lemma nth_pad ps m j : nth j (ps ++ repeat 0 m) 0 = nth j ps 0.
Proof.
  destruct (lt_dec j (length ps)) as [H|H]; [now rewrite app_nth1 by exact H|].
  rewrite app_nth2, (nth_overflow ps) by lia. apply nth_repeat.
Qed.
Lemma cyclic_product ps qs n i : (length ps <= n)%nat -> (length qs <= n)%nat -> (length ps + length qs <= n + 1)%nat -> (i < n)%nat ->
  cyclic_coeff (ps ++ repeat 0 (n - length ps)) (qs ++ repeat 0 (n - length qs)) i = product_coeff ps qs i.
Proof.
  intros Hp Hq Hpq Hi. unfold cyclic_coeff, product_coeff. rewrite !app_length, !repeat_length.
  replace (length ps + (n - length ps))%nat with (S i + (n - S i))%nat by lia. replace (length qs + (n - length qs))%nat with n by lia.
  rewrite seq_app, map_app, zsum_app. rewrite (zsum_zero (map _ (seq (0 + S i) _))), Z.add_0_r.
  - f_equal. apply map_ext_in. intros j Hj. apply in_seq in Hj. rewrite !nth_pad. f_equal. f_equal. rewrite Z.mod_small by lia. lia.
  - apply Forall_forall. intros y Hy. apply in_map_iff in Hy as (j & <- & Hj). apply in_seq in Hj. rewrite !nth_pad.
    destruct (lt_dec j (length ps)) as [H|H]; [|rewrite (nth_overflow ps) by lia; ring].
    rewrite (nth_overflow qs); [ring|]. rewrite <- (Z_mod_plus_full _ 1), Z.mod_small by lia. lia.
Qed.

(** ** The transform is evaluation *)
Lemma zdft_from w i v : forall s, zsum (map (fun jx => snd jx * w ^ Z.of_nat (i * fst jx)) (combine (seq s (length v)) v))
  = w ^ Z.of_nat (i * s) * ev (w ^ Z.of_nat i) v.
Proof.
  induction v as [|a v IH]; intros s; [cbn; ring|]. cbn [length seq combine map ev]. unfold zsum. cbn [fold_right fst snd].
  fold (zsum (map (fun jx => snd jx * w ^ Z.of_nat (i * fst jx)) (combine (seq (S s) (length v)) v))).
  rewrite IH. replace (i * S s)%nat with (i * s + i)%nat by lia. rewrite Nat2Z.inj_add, Z.pow_add_r by lia. ring.
Qed.
Lemma zdft_ev w i v : zdft_entry w v i = ev (w ^ Z.of_nat i) v.
Proof. unfold zdft_entry. rewrite zdft_from, Nat.mul_0_r. change (w ^ Z.of_nat 0) with 1. ring. Qed.
Lemma ev_mod p t v : p <> 0 -> ev t (map (fun x => x mod p) v) mod p = ev t v mod p.
Proof.
  intros P. induction v as [|a v IH]; [reflexivity|]. cbn [map ev].
  rewrite Z.add_mod, Z.mul_mod, IH, Z.mod_mod, <- Z.mul_mod, <- Z.add_mod by exact P. reflexivity.
Qed.
Lemma neg1_order p x k : (k <> 0%nat -> (x ^ Z.of_nat (2 ^ (k - 1)) + 1) mod p = 0) -> p <> 0 -> k <> 0%nat ->
  (p | x ^ Z.of_nat (2 ^ k) - 1).
Proof.
  intros H P Z0. destruct k as [|k]; [now destruct Z0|].
  specialize (H ltac:(discriminate)). cbn [Nat.sub] in H. rewrite Nat.sub_0_r in H. apply Z.mod_divide in H; [|exact P].
    replace (2 ^ S k)%nat with (2 ^ k + 2 ^ k)%nat by (cbn [Nat.pow]; lia). rewrite Nat2Z.inj_add, Z.pow_add_r by lia.
    replace (x ^ Z.of_nat (2 ^ k) * x ^ Z.of_nat (2 ^ k) - 1) with ((x ^ Z.of_nat (2 ^ k) - 1) * (x ^ Z.of_nat (2 ^ k) + 1)) by ring.
    apply Z.divide_mul_r. exact H.
Qed.
Lemma pow_one p y i : p <> 0 -> (p | y - 1) -> (p | y ^ Z.of_nat i - 1).
Proof.
  intros P D. induction i as [|i IH]; [apply Z.divide_0_r|]. rewrite Nat2Z.inj_succ, Z.pow_succ_r by lia.
  replace (y * y ^ Z.of_nat i - 1) with (y * (y ^ Z.of_nat i - 1) + (y - 1)) by ring. apply Z.divide_add_r; [apply Z.divide_mul_r; exact IH|exact D].
Qed.
Lemma conv p x k xs ys i : p <> 0 -> (k <> 0%nat -> (x ^ Z.of_nat (2 ^ (k - 1)) + 1) mod p = 0) -> length ys = (2 ^ k)%nat -> (i < 2 ^ k)%nat ->
  zdft_entry x (map (fun z => z mod p) (cyc xs ys)) i mod p = (zdft_entry x xs i mod p * (zdft_entry x ys i mod p)) mod p.
Proof.
  intros P H L Hi. rewrite !zdft_ev, ev_mod, <- Z.mul_mod by exact P.
  assert (D' : (p | (x ^ Z.of_nat i) ^ Z.of_nat (length ys) - 1)).
  { rewrite L. destruct k as [|k].
    - replace i with 0%nat by (cbn in Hi; lia). apply Z.divide_0_r.
    - rewrite <- Z.pow_mul_r, Z.mul_comm, Z.pow_mul_r by lia. apply pow_one; [exact P|]. apply neg1_order; [exact H|exact P|discriminate]. }
  pose proof (ev_cyc p (x ^ Z.of_nat i) xs ys D') as C. apply Z.mod_divide in C; [|exact P].
  set (u := ev _ (cyc xs ys)) in *. set (v := ev _ xs * ev _ ys) in *. replace u with (u - v + v) by ring.
  rewrite Z.add_mod, C, Z.add_0_l, Z.mod_mod by exact P. reflexivity.
Qed.
Lemma f2_map_seq {A} (R : A -> Z -> Prop) (l : list A) f g n : Forall2 R l (map f (seq 0 n)) -> (forall i, (i < n)%nat -> f i = g i) -> Forall2 R l (map g (seq 0 n)).
Proof. intros H E. rewrite (map_ext_in g f); [exact H|]. intros i Hi. apply in_seq in Hi. symmetry. apply E. lia. Qed.
Lemma list_nth (v : list Z) : v = map (fun i => nth i v 0) (seq 0 (length v)).
Proof. induction v as [|a v IH]; [reflexivity|]. cbn [length seq map nth]. rewrite <- seq_shift, map_map. cbn [nth]. now rewrite <- IH. Qed.
Lemma f2_mul c (Hc : odd_conf c) (f g : nat -> Z) l : forall A B,
  Forall2 (represents (num_limbs c) (modulus c)) A (map f l) -> Forall2 (represents (num_limbs c) (modulus c)) B (map g l) ->
  Forall2 (represents (num_limbs c) (modulus c)) (map (fun x => fe_mul c (fst x) (snd x)) (combine A B)) (map (fun i => (f i * g i) mod modulus c) l).
Proof.
  induction l as [|i l IH]; intros A B HA HB; inversion HA; inversion HB; subst; [constructor|]. cbn [combine map fst snd].
  constructor; [now apply C02_mul|]. now apply IH.
Qed.
Lemma f2_inj c (Hc : odd_conf c) : forall A B xs, Forall2 (represents (num_limbs c) (modulus c)) A xs -> Forall2 (represents (num_limbs c) (modulus c)) B xs -> A = B.
Proof.
  induction A as [|a A IH]; intros B xs HA HB; inversion HA; subst; inversion HB; subst; [reflexivity|]. f_equal; [|eapply IH; eassumption].
  eapply repr_inj; eassumption.
Qed.

(** The product modulo X^n - 1, for any root of unity [w] of order [n = 2^k], its inverse [w'] and [ni = 1/n]. *)
Theorem C69_convolution : forall c, In c all_fields -> forall t1 t2 t3 a xs b ys w x w' x' ni xi k,
  let p := modulus c in let rep := represents (num_limbs c) p in
  Forall2 rep a xs -> Forall2 rep b ys -> rep w x -> rep w' x' -> rep ni xi -> length a = (2 ^ k)%nat -> length b = (2 ^ k)%nat ->
  (k <> 0%nat -> (x ^ Z.of_nat (2 ^ (k - 1)) + 1) mod p = 0) -> x' * x mod p = 1 -> xi * 2 ^ Z.of_nat k mod p = 1 ->
  exists A B D, best_fft (limb_fft c) t1 a w k = Some A /\ best_fft (limb_fft c) t2 b w k = Some B /\
    best_fft (limb_fft c) t3 (map (fun x => fe_mul c (fst x) (snd x)) (combine A B)) w' k = Some D /\
    Forall2 rep (map (fun d => fe_mul c d ni) D) (map (fun i => cyclic_coeff xs ys i mod p) (seq 0 (2 ^ k))).
Proof.
  intros c Ic t1 t2 t3 a xs b ys w x w' x' ni xi k p rep Ha Hb Hw Hw' Hni La Lb Root Inv Ni.
  pose proof (field_odd c Ic) as Hc. pose proof (p_gt1 c Hc) as P1. fold p in P1.
  pose proof (eq_trans (eq_sym (f2_len _ _ _ Hb)) Lb) as Ly.
  destruct (C14_field c Ic t1 a xs w x k Ha Hw La Root) as (A & EA & RA).
  destruct (C14_field c Ic t2 b ys w x k Hb Hw Lb Root) as (B & EB & RB). rewrite La in RA. rewrite Lb in RB.
  set (zs := map (fun z => z mod p) (cyc xs ys)). set (z := map (mont_of c) (cyc xs ys)).
  assert (Hz : Forall2 rep z zs).
  { unfold z, zs. generalize (cyc xs ys). induction l as [|v l IH]; constructor; [exact (mont_of_repr c v Ic)|exact IH]. }
  assert (Lz : length z = (2 ^ k)%nat) by (unfold z; now rewrite map_length, cyc_length).
  destruct (C14_field_inverse c Ic t1 t3 z zs w x w' x' k Hz Hw Hw' Lz Root Inv) as (E & D & EE & ED & RD).
  destruct (C14_field c Ic t1 z zs w x k Hz Hw Lz Root) as (E' & EE' & RE). rewrite EE in EE'. injection EE' as <-. rewrite Lz in RE.
  pose proof (f2_mul c Hc _ _ _ _ _ RA RB) as RM. fold p in RM.
  assert (EM : map (fun x => fe_mul c (fst x) (snd x)) (combine A B) = E).
  { eapply (f2_inj c Hc); [|exact RE]. eapply f2_map_seq; [exact RM|]. intros i Hi. cbv beta. symmetry. apply (conv p x k); [lia|exact Root|exact Ly|exact Hi]. }
  exists A, B, D. rewrite EM. split; [exact EA|]. split; [exact EB|]. split; [exact ED|].
  assert (EZ : map (fun i => cyclic_coeff xs ys i mod p) (seq 0 (2 ^ k)) = zs).
  { unfold zs. rewrite (list_nth (cyc xs ys)), map_map, cyc_length, Ly. apply map_ext_in. intros i Hi. apply in_seq in Hi.
    rewrite nth_cyc by lia. reflexivity. }
  rewrite EZ. assert (Bz : Forall (fun v => 0 <= v < p) zs).
  { unfold zs. apply Forall_forall. intros v Hv. apply in_map_iff in Hv as (u & <- & _). apply Z.mod_pos_bound. lia. }
  clear - RD Hni Ni Hc P1 Bz. revert D RD. induction Bz as [|v zs Bv _ IH]; intros D RD; inversion RD; subst; [constructor|]. cbn [map].
  constructor; [|now apply IH].
  assert (EV : v = (2 ^ Z.of_nat k * v) mod p * xi mod p).
  { rewrite Zmult_mod_idemp_l. replace (2 ^ Z.of_nat k * v * xi) with (xi * 2 ^ Z.of_nat k * v) by ring.
    rewrite <- Zmult_mod_idemp_l, Ni, Z.mul_1_l. symmetry. now apply Z.mod_small. }
  rewrite EV. now apply C02_mul.
Qed.
Print Assumptions C69_convolution.

(** ** The constants of the crate *)
Lemma squarings_repr c (Hc : odd_conf c) a x : represents (num_limbs c) (modulus c) a x -> forall k,
  represents (num_limbs c) (modulus c) (squarings c k a) (x ^ (2 ^ Z.of_nat k) mod modulus c).
Proof.
  intros H. pose proof (p_gt1 c Hc) as P1. induction k as [|k IH].
  - change (x ^ 2 ^ Z.of_nat 0) with (x ^ 1). rewrite Z.pow_1_r, Z.mod_small by apply H. exact H.
  - cbn [squarings Nat.iter]. fold (squarings c k a). pose proof (C02_square c _ _ Hc IH) as E. rewrite <- Z.mul_mod in E by lia.
    replace (x ^ 2 ^ Z.of_nat (S k)) with (x ^ 2 ^ Z.of_nat k * x ^ 2 ^ Z.of_nat k); [exact E|].
    rewrite Nat2Z.inj_succ, Z.pow_succ_r, <- Z.pow_add_r by lia. f_equal. lia.
Qed.
Lemma pow_sub_mul x S k : (1 <= k <= Z.to_nat S)%nat -> (x ^ 2 ^ Z.of_nat (Z.to_nat S - k)) ^ Z.of_nat (2 ^ (k - 1)) = x ^ 2 ^ (S - 1).
Proof.
  intros H. rewrite <- Z.pow_mul_r by lia. f_equal. rewrite Nat2Z.inj_pow. change (Z.of_nat 2) with 2.
  rewrite <- Z.pow_add_r by lia. f_equal. lia.
Qed.
Lemma roots_spec c k : In c all_fields -> (k <= Z.to_nat (two_adicity c))%nat ->
  let p := modulus c in let rep := represents (num_limbs c) p in
  exists x x' xi, rep (root c k) x /\ rep (root_inv c k) x' /\ rep (size_inv c k) xi /\
    (k <> 0%nat -> (x ^ Z.of_nat (2 ^ (k - 1)) + 1) mod p = 0) /\ x' * x mod p = 1 /\ xi * 2 ^ Z.of_nat k mod p = 1.
Proof.
  intros Ic Hk p rep. pose proof (field_odd c Ic) as Hc. pose proof (p_gt1 c Hc) as P1. fold p in P1.
  pose proof (root_half c Hc (generator_half _ Ic)) as RH. fold p in RH.
  destruct (C09_constants c Hc (field_prime c Ic) (generator_half _ Ic)) as (_ & _ & _ & (h & Rh & Eh) & _ & _ & _ & _ & w & wi & Rw & _ & Rwi & Ew).
  fold p in Eh, Ew. fold p rep in Rh, Rw, Rwi.
  assert (Ev : w = root_of_unity_int c mod p).
  { eapply (repr_unique c Hc); [exact Rw|]. exact (const_repr c Hc _). }
  set (m := (Z.to_nat (two_adicity c) - k)%nat).
  exists (w ^ 2 ^ Z.of_nat m mod p), (wi ^ 2 ^ Z.of_nat m mod p), (fold_right Z.mul 1 (repeat h k) mod p).
  split; [exact (squarings_repr c Hc _ _ Rw m)|]. split; [exact (squarings_repr c Hc _ _ Rwi m)|].
  split.
  { apply (C02_product c _ _ Hc). clear - Rh. induction k as [|k IH]; constructor; [exact Rh|exact IH]. }
  split.
  { intros N. rewrite <- Zplus_mod_idemp_l, <- Zpower_mod by lia. unfold m. rewrite pow_sub_mul by lia.
    rewrite Ev, <- Zpower_mod, RH by lia. replace (p - 1 + 1) with p by ring. apply Z_mod_same_full. }
  split.
  { rewrite <- Z.mul_mod, <- Z.pow_mul_l by lia. rewrite Zpower_mod, (Z.mul_comm wi), Ew, Z.pow_1_l by lia. apply Z.mod_1_l. exact P1. }
  rewrite Zmult_mod_idemp_l. clear - Eh P1. induction k as [|k IH]; [apply Z.mod_1_l; exact P1|].
  cbn [repeat fold_right]. rewrite Nat2Z.inj_succ, Z.pow_succ_r by lia.
  replace (h * fold_right Z.mul 1 (repeat h k) * (2 * 2 ^ Z.of_nat k)) with (2 * h * (fold_right Z.mul 1 (repeat h k) * 2 ^ Z.of_nat k)) by ring.
  rewrite Z.mul_mod, Eh, IH, Z.mul_1_l by lia. apply Z.mod_1_l. exact P1.
Qed.

(** Polynomials with any number of coefficients: padded with zeros to a common power of two that exceeds the
    degree of the product and that the field has roots of unity for, they are multiplied. *)
Theorem C69_multiply : forall c, In c all_fields -> forall threads k a ps b qs,
  let p := modulus c in let rep := represents (num_limbs c) p in let n := (2 ^ k)%nat in
  Forall2 rep a ps -> Forall2 rep b qs -> (k <= Z.to_nat (two_adicity c))%nat ->
  (length a <= n)%nat -> (length b <= n)%nat -> (length a + length b <= n + 1)%nat ->
  exists d, multiply c threads k (a ++ repeat (fe_zero c) (n - length a)) (b ++ repeat (fe_zero c) (n - length b)) = Some d /\
    Forall2 rep d (map (fun i => product_coeff ps qs i mod p) (seq 0 n)).
Proof.
  intros c Ic threads k a ps b qs p rep n Ha Hb Hk La Lb Lab. pose proof (field_odd c Ic) as Hc.
  destruct (roots_spec c k Ic Hk) as (x & x' & xi & Rx & Rx' & Ri & E1 & E2 & E3).
  assert (Z0 : forall m, Forall2 rep (repeat (fe_zero c) m) (repeat 0 m)).
  { induction m as [|m IH]; constructor; [exact (fe_zero_repr c Hc)|exact IH]. }
  pose proof (f2_len _ _ _ Ha) as La'. pose proof (f2_len _ _ _ Hb) as Lb'.
  assert (LA : length (a ++ repeat (fe_zero c) (n - length a)) = n) by (rewrite app_length, repeat_length; clear - La; lia).
  assert (LB : length (b ++ repeat (fe_zero c) (n - length b)) = n) by (rewrite app_length, repeat_length; clear - Lb; lia).
  destruct (C69_convolution c Ic threads threads threads _ _ _ _ _ _ _ _ _ _ k
    (Forall2_app Ha (Z0 (n - length a)%nat)) (Forall2_app Hb (Z0 (n - length b)%nat)) Rx Rx' Ri LA LB E1 E2 E3) as (A & B & D & EA & EB & ED & RD).
  exists (map (fun d => fe_mul c d (size_inv c k)) D). split.
  - unfold multiply. rewrite EA, EB, ED. reflexivity.
  - fold n in RD. rewrite La', Lb' in *. eapply f2_map_seq; [exact RD|]. clear - La Lb Lab. clearbody n. intros i Hi. cbv beta.
    f_equal. exact (cyclic_product ps qs n i La Lb Lab Hi).
Qed.
Print Assumptions C69_multiply.

(** (1 + 2 X + 3 X^2) (5 - X) in the scalar field of bn256, which has roots of unity of order up to 2^28. *)
Example C69_example : let v := mont_of bn256_fr in let z := fe_zero bn256_fr in let p := modulus bn256_fr in
  two_adicity bn256_fr = 28 /\
  exists d, multiply bn256_fr 4 2 ([v 1; v 2; v 3] ++ [z]) ([v 5; v (-1)] ++ [z; z]) = Some d /\
    Forall2 (represents (num_limbs bn256_fr) p) d [5; 9; 13; p - 3].
Proof.
  cbv zeta. assert (I : In bn256_fr all_fields) by (cbn [In all_fields]; tauto). assert (T : two_adicity bn256_fr = 28) by (vm_compute; reflexivity).
  split; [exact T|]. pose proof (fun x => mont_of_repr bn256_fr x I) as M.
  destruct (C69_multiply bn256_fr I 4 2 [mont_of bn256_fr 1; mont_of bn256_fr 2; mont_of bn256_fr 3] [1 mod modulus bn256_fr; 2 mod modulus bn256_fr; 3 mod modulus bn256_fr]
    [mont_of bn256_fr 5; mont_of bn256_fr (-1)] [5 mod modulus bn256_fr; (-1) mod modulus bn256_fr]) as (d & E & R).
  - do 3 (apply Forall2_cons; [apply M|]). apply Forall2_nil.
  - do 2 (apply Forall2_cons; [apply M|]). apply Forall2_nil.
  - rewrite T. change (Z.to_nat 28) with 28%nat. lia.
  - cbn; lia.
  - cbn; lia.
  - cbn; lia.
  - exists d. split; [exact E|]. refine (eq_ind _ (Forall2 _ d) R _ _). vm_compute. reflexivity.
Qed.
(** The same by evaluation in the field of 97 elements, with four threads; and a product of too
    high a degree, whose coefficients wrap around. *)
Example C69_small : let v := map (mont_of small_field) in
  multiply small_field 4 2 (v [1; 2; 3; 0]) (v [5; -1; 0; 0]) = Some (v [5; 9; 13; -3]) /\
  map (product_coeff [1; 2; 3] [5; -1]) [0; 1; 2; 3]%nat = [5; 9; 13; -3] /\
  multiply small_field 1 1 (v [1; 2]) (v [5; 7]) = Some (v [5 + 14; 17]) /\ map (cyclic_coeff [1; 2] [5; 7]) [0; 1]%nat = [19; 17].
Proof. vm_compute. intuition reflexivity. Qed.
