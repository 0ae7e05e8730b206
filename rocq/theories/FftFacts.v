(** [best_fft] computes the discrete Fourier transform. *)
From Verif Require Import Base Algebra Pow TowerFacts Group Fft.
From Coq Require Import ArithRing.

Local Open Scope nat_scope.

(** ** The bit-reversal permutation *)
Lemma bitrev_low l : forall n r, bitrev_loop (S l) n r = bitrev_loop l (n / 2) (2 * r + n mod 2).
Proof. reflexivity. Qed.
Lemma bitrev_acc l : forall n r, bitrev_loop l n r = bitrev_loop l n 0 + 2 ^ l * r.
Proof.
  induction l as [|l IH]; intros n r; cbn [bitrev_loop].
  - rewrite Nat.pow_0_r. lia.
  - rewrite (IH _ (2 * r + n mod 2)), (IH _ (2 * 0 + n mod 2)). rewrite Nat.pow_succ_r'. ring.
Qed.
Lemma bitrev_S_low l n b : b < 2 -> bitreverse (2 * n + b) (S l) = 2 ^ l * b + bitreverse n l.
Proof.
  intros Hb. unfold bitreverse. rewrite bitrev_low, bitrev_acc.
  replace ((2 * n + b) / 2) with n. 2:{ symmetry. rewrite Nat.mul_comm. rewrite Nat.div_add_l by lia. rewrite (Nat.div_small b 2) by lia. lia. }
  replace ((2 * n + b) mod 2) with b. 2:{ symmetry. rewrite Nat.add_comm, Nat.mul_comm, Nat.mod_add by lia. apply Nat.mod_small. lia. }
  lia.
Qed.
Lemma bitrev_S_high l : forall n b, n < 2 ^ l -> b < 2 -> bitreverse (n + 2 ^ l * b) (S l) = 2 * bitreverse n l + b.
Proof.
  induction l as [|l IH]; intros n b Hn Hb.
  - rewrite Nat.pow_0_r in *. replace n with 0 by lia. cbn. destruct b as [|[|]]; cbn; lia.
  - pose proof (Nat.div_mod n 2 ltac:(lia)) as D. set (m := n / 2) in *. set (e := n mod 2) in *.
    assert (He : e < 2) by (apply Nat.mod_upper_bound; lia).
    rewrite Nat.pow_succ_r' in *.
    replace (n + 2 * 2 ^ l * b) with (2 * (m + 2 ^ l * b) + e) by lia.
    rewrite bitrev_S_low by auto. rewrite IH by lia. rewrite D.
    rewrite bitrev_S_low by auto. rewrite Nat.pow_succ_r'. ring.
Qed.
Lemma bitrev_lt l : forall n, bitreverse n l < 2 ^ l.
Proof.
  induction l as [|l IH]; intros n; [cbn; lia|].
  rewrite (Nat.div_mod n 2) at 1 by lia. pose proof (Nat.mod_upper_bound n 2 ltac:(lia)).
  rewrite bitrev_S_low by lia. specialize (IH (n / 2)). rewrite Nat.pow_succ_r'. nia.
Qed.
Lemma bitrev_invol l : forall n, n < 2 ^ l -> bitreverse (bitreverse n l) l = n.
Proof.
  induction l as [|l IH]; intros n Hn; [cbn in *; lia|].
  rewrite Nat.pow_succ_r' in Hn. pose proof (Nat.div_mod n 2 ltac:(lia)) as D. pose proof (Nat.mod_upper_bound n 2 ltac:(lia)).
  rewrite D at 1. rewrite bitrev_S_low by lia. rewrite Nat.add_comm, bitrev_S_high by (auto using bitrev_lt).
  rewrite IH by lia. lia.
Qed.

Section Lists.
Context {A : Type}.
Implicit Types l : list A.
Lemma set_nth_length l : forall i x, length (set_nth l i x) = length l.
Proof. induction l as [|a l IH]; intros [|i] x; cbn; auto. Qed.
Lemma set_nth_nth l : forall i x j, nth_error (set_nth l i x) j = if Nat.eqb i j then (match nth_error l j with Some _ => Some x | None => None end) else nth_error l j.
Proof.
  induction l as [|a l IH]; intros i x j; cbn [set_nth].
  - destruct j; cbn; destruct (Nat.eqb i _); reflexivity.
  - destruct i as [|i], j as [|j]; cbn [nth_error Nat.eqb]; auto.
Qed.
Lemma nth_error_ext l l' : (forall i, nth_error l i = nth_error l' i) -> l = l'.
Proof.
  revert l'. induction l as [|a l IH]; intros [|b l'] E; auto.
  - specialize (E 0). discriminate.
  - specialize (E 0). discriminate.
  - pose proof (E 0) as E0. cbn in E0. injection E0 as ->. f_equal. apply IH. intros i. exact (E (S i)).
Qed.

Lemma permute_prefix l log_n : length l = 2 ^ log_n -> forall K, K <= length l -> exists l',
  fold_left (fun acc k => bindo acc (fun l =>
      let rk := bitreverse k log_n in
      if Nat.ltb k rk then swap l rk k else Some l)) (seq 0 K) (Some l) = Some l' /\
  length l' = length l /\
  forall i, i < length l -> nth_error l' i =
    nth_error l (if Nat.ltb (Nat.min i (bitreverse i log_n)) K then bitreverse i log_n else i).
Proof.
  intros HL. induction K as [|K IH]; intros HK.
  - exists l. split; [reflexivity|]. split; auto.
  - destruct IH as (l' & E & L & N); [lia|]. rewrite seq_S, fold_left_app, E. cbn [fold_left bindo Nat.add]. cbv zeta.
    pose proof (bitrev_lt log_n K) as RB. pose proof (bitrev_invol log_n K ltac:(lia)) as RI.
    set (r := bitreverse K log_n) in *.
    destruct (Nat.ltb_spec K r) as [Lt|Ge].
    + pose proof (N r ltac:(lia)) as Nr. pose proof (N K ltac:(lia)) as NK. rewrite RI in Nr. fold r in NK.
      destruct (Nat.ltb_spec (Nat.min r K) K); [lia|]. destruct (Nat.ltb_spec (Nat.min K r) K); [lia|].
      unfold swap.
      destruct (nth_error l r) as [x|] eqn:Ex; [|apply nth_error_None in Ex; lia].
      destruct (nth_error l K) as [y|] eqn:Ey; [|apply nth_error_None in Ey; lia].
      rewrite Nr, NK. eexists. split; [reflexivity|]. split; [rewrite !set_nth_length; exact L|].
      intros i Hi. rewrite !set_nth_nth. specialize (N i Hi).
      pose proof (bitrev_invol log_n i ltac:(lia)) as Ii.
      destruct (Nat.eqb_spec K i) as [<-|NKi].
      * destruct (Nat.eqb_spec r K); [lia|]. rewrite NK. fold r.
        destruct (Nat.ltb_spec (Nat.min K r) (S K)); [|lia]. congruence.
      * destruct (Nat.eqb_spec r i) as [<-|Nri].
        -- rewrite Nr. rewrite RI. destruct (Nat.ltb_spec (Nat.min r K) (S K)); [|lia]. congruence.
        -- rewrite N. destruct (Nat.ltb_spec (Nat.min i (bitreverse i log_n)) K), (Nat.ltb_spec (Nat.min i (bitreverse i log_n)) (S K)); auto; try lia.
           assert (M : Nat.min i (bitreverse i log_n) = K) by lia.
           exfalso. assert (BK : bitreverse i log_n = K) by lia. apply Nri. unfold r. rewrite <- BK. exact Ii.
    + exists l'. split; [reflexivity|]. split; [exact L|]. intros i Hi. rewrite (N i Hi).
      pose proof (bitrev_invol log_n i ltac:(lia)) as Ii.
      destruct (Nat.ltb_spec (Nat.min i (bitreverse i log_n)) K), (Nat.ltb_spec (Nat.min i (bitreverse i log_n)) (S K)); auto; try lia.
      assert (M : Nat.min i (bitreverse i log_n) = K) by lia.
      destruct (Nat.le_gt_cases i (bitreverse i log_n)).
      * assert (i = K) by lia. subst i. fold r in M. f_equal. fold r. fold r in H1. lia.
      * assert (BK : bitreverse i log_n = K) by lia. assert (i = r) by (unfold r; rewrite <- BK; symmetry; exact Ii). lia.
Qed.
Lemma permute_spec l log_n : length l = 2 ^ log_n -> exists l', permute l log_n = Some l' /\ length l' = length l /\
  forall i, i < length l -> nth_error l' i = nth_error l (bitreverse i log_n).
Proof.
  intros HL. destruct (permute_prefix l log_n HL (length l) (le_n _)) as (l' & E & L & N).
  exists l'. split; [exact E|]. split; [exact L|]. intros i Hi. rewrite (N i Hi).
  destruct (Nat.ltb_spec (Nat.min i (bitreverse i log_n)) (length l)); [reflexivity|lia].
Qed.

(** Even and odd positions; the recursive bit-reversal. *)
Fixpoint evens l : list A := match l with a :: l1 => match l1 with _ :: l' => a :: evens l' | [] => [a] end | [] => [] end.
Definition odds l : list A := match l with _ :: l' => evens l' | [] => [] end.
Fixpoint brp (k : nat) l : list A :=
  match k with O => l | S k' => brp k' (evens l) ++ brp k' (odds l) end.
Lemma evens_cons2 a b l : evens (a :: b :: l) = a :: evens l. Proof. reflexivity. Qed.
Lemma odds_cons2 a b l : odds (a :: b :: l) = b :: odds l.
Proof. destruct l; reflexivity. Qed.
Lemma pair_ind (P : list A -> Prop) : P [] -> (forall a, P [a]) -> (forall a b l, P l -> P (a :: b :: l)) -> forall l, P l.
Proof.
  intros H0 H1 H2. fix IH 1. intros [|a [|b l]]; [exact H0|apply H1|apply H2, IH].
Qed.
Lemma evens_nth l : forall i, nth_error (evens l) i = nth_error l (2 * i).
Proof.
  induction l as [|a|a b l IH] using pair_ind; intros i.
  - destruct i; reflexivity.
  - destruct i as [|[|i]]; reflexivity.
  - rewrite evens_cons2. destruct i as [|i]; [reflexivity|]. replace (2 * S i) with (S (S (2 * i))) by lia. apply IH.
Qed.
Lemma odds_nth l : forall i, nth_error (odds l) i = nth_error l (2 * i + 1).
Proof.
  intros i. destruct l as [|a l]; [destruct i; reflexivity|].
  cbn [odds]. rewrite evens_nth. replace (2 * i + 1) with (S (2 * i)) by lia. reflexivity.
Qed.
Lemma eo_length m : forall l, length l = 2 * m -> length (evens l) = m /\ length (odds l) = m.
Proof.
  induction m as [|m IH]; intros l HL.
  - destruct l; [split; reflexivity|discriminate].
  - destruct l as [|a [|b l]]; [discriminate|cbn in HL; lia|].
    rewrite evens_cons2, odds_cons2. cbn [length] in *. destruct (IH l) as [H1 H2]; lia.
Qed.
Lemma brp_length k : forall l, length l = 2 ^ k -> length (brp k l) = 2 ^ k.
Proof.
  induction k as [|k IH]; intros l HL; [exact HL|]. rewrite Nat.pow_succ_r' in *.
  destruct (eo_length (2 ^ k) l HL) as [E O]. cbn [brp]. rewrite app_length, !IH by auto. lia.
Qed.
Lemma brp_nth k : forall l i, length l = 2 ^ k -> i < 2 ^ k -> nth_error (brp k l) i = nth_error l (bitreverse i k).
Proof.
  induction k as [|k IH]; intros l i HL Hi.
  - cbn in *. replace i with 0 by lia. reflexivity.
  - rewrite Nat.pow_succ_r' in HL, Hi. destruct (eo_length (2 ^ k) l HL) as [E O]. cbn [brp].
    destruct (Nat.lt_ge_cases i (2 ^ k)) as [Lt|Ge].
    + rewrite nth_error_app1 by (rewrite brp_length; auto). rewrite IH, evens_nth by auto.
      replace i with (i + 2 ^ k * 0) at 2 by lia. rewrite bitrev_S_high by lia. f_equal. lia.
    + rewrite nth_error_app2 by (rewrite brp_length; auto). rewrite brp_length by auto.
      rewrite IH, odds_nth by (auto; lia).
      replace i with ((i - 2 ^ k) + 2 ^ k * 1) at 2 by lia. rewrite bitrev_S_high by lia. reflexivity.
Qed.
Lemma permute_brp l k : length l = 2 ^ k -> permute l k = Some (brp k l).
Proof.
  intros HL. destruct (permute_spec l k HL) as (l' & E & L & N). rewrite E. f_equal.
  apply nth_error_ext. intros i. destruct (Nat.lt_ge_cases i (2 ^ k)) as [Lt|Ge].
  - rewrite brp_nth by auto. apply N. lia.
  - rewrite (proj2 (nth_error_None l' i)) by lia. symmetry. apply nth_error_None. rewrite brp_length; auto.
Qed.
End Lists.

Lemma seq_shift_add m k : forall s, seq (m + s) k = map (fun i => m + i) (seq s k).
Proof.
  induction k as [|k IH]; intros s; cbn [seq map]; [reflexivity|]. f_equal. rewrite <- IH. f_equal. lia.
Qed.

(** ** Modules over a field *)
Record module_laws {M Sc : Type} (so : fops Sc) (g : gops M) (act : Sc -> M -> M) : Prop := {
  ml_grp : grp_laws g;
  ml_ring : ring_laws so;
  ml_add_r : forall s a b, act s (gadd g a b) = gadd g (act s a) (act s b);
  ml_add_l : forall s t a, act (fadd so s t) a = gadd g (act s a) (act t a);
  ml_mul : forall s t a, act (fmul so s t) a = act s (act t a);
  ml_one : forall a, act (f1 so) a = a }.

Section Dft.
Context {M Sc : Type} (so : fops Sc) (g : gops M) (act : Sc -> M -> M) (HM : module_laws so g act).
Notation HG := (ml_grp _ _ _ HM).
Notation HR := (ml_ring _ _ _ HM).
Infix "⊕" := (gadd g) (at level 50, left associativity).
Notation "⊖ x" := (gneg g x) (at level 35).
Infix "•" := act (at level 40).
Add Ring FRfft : (rl_ring _ HR).

Lemma act_zero a : f0 so • a = g0 g.
Proof.
  apply (g_cancel_l g HG (f0 so • a)). rewrite <- (ml_add_l _ _ _ HM), (g_0_r g HG). f_equal. ring.
Qed.
Lemma act_g0 s : s • g0 g = g0 g.
Proof. apply (g_cancel_l g HG (s • g0 g)). rewrite <- (ml_add_r _ _ _ HM), !(g_0_r g HG). reflexivity. Qed.
Lemma act_neg1 a : fneg so (f1 so) • a = ⊖ a.
Proof.
  apply (g_neg_unique g HG). rewrite <- (ml_one _ _ _ HM a) at 1. rewrite <- (ml_add_l _ _ _ HM).
  transitivity (f0 so • a); [f_equal; ring|apply act_zero].
Qed.
Lemma act_neg s a : fneg so s • a = ⊖ (s • a).
Proof. rewrite <- act_neg1, <- (ml_mul _ _ _ HM). f_equal. ring. Qed.

(** The discrete Fourier transform: entry [i] is the sum of [w^(i*j) a_j]. *)
Definition dft_entry (w : Sc) (a : list M) (i : nat) : M :=
  gsum g (map (fun ja => fpow_nat so w (i * fst ja) • snd ja) (combine (seq 0 (length a)) a)).
Definition dft (w : Sc) (a : list M) : list M := map (dft_entry w a) (seq 0 (length a)).

(** Horner form *)
Fixpoint hev (x : Sc) (a : list M) : M := match a with [] => g0 g | a0 :: a' => a0 ⊕ x • hev x a' end.

Lemma fpow_nat_add x n m : fpow_nat so x (n + m) = fmul so (fpow_nat so x n) (fpow_nat so x m).
Proof. induction n as [|n IH]; cbn [fpow_nat Nat.add]; [ring|]. rewrite IH. ring. Qed.
Lemma fpow_nat_mul x n m : fpow_nat so x (n * m) = fpow_nat so (fpow_nat so x n) m.
Proof.
  induction m as [|m IH]; [rewrite Nat.mul_0_r; reflexivity|].
  rewrite Nat.mul_succ_r, Nat.add_comm, fpow_nat_add, IH. reflexivity.
Qed.
Lemma gsum_act s l : s • gsum g l = gsum g (map (act s) l).
Proof.
  induction l as [|a l IH]; cbn [gsum fold_right map]; [apply act_g0|].
  rewrite (ml_add_r _ _ _ HM). fold (gsum g l). rewrite IH. reflexivity.
Qed.
Lemma hev_sum x a : forall k, fpow_nat so x k • hev x a
  = gsum g (map (fun ja => fpow_nat so x (fst ja) • snd ja) (combine (seq k (length a)) a)).
Proof.
  induction a as [|a0 a IH]; intros k; cbn [hev length seq combine map]; [apply act_g0|].
  cbn [gsum fold_right fst snd]. rewrite (ml_add_r _ _ _ HM). f_equal.
  rewrite <- (ml_mul _ _ _ HM). specialize (IH (1 + k)). cbn [Nat.add fpow_nat] in IH.
  transitivity (fmul so x (fpow_nat so x k) • hev x a); [f_equal; ring|exact IH].
Qed.
Lemma dft_hev w a i : dft_entry w a i = hev (fpow_nat so w i) a.
Proof.
  unfold dft_entry. pose proof (hev_sum (fpow_nat so w i) a 0) as E. cbn [fpow_nat] in E.
  rewrite (ml_one _ _ _ HM) in E. rewrite E. f_equal. apply map_ext. intros [j y]. cbn [fst snd].
  rewrite fpow_nat_mul. reflexivity.
Qed.
Lemma hev_split x : forall a, hev x a = hev (fmul so x x) (evens a) ⊕ x • hev (fmul so x x) (odds a).
Proof.
  induction a as [|a|a b l IH] using pair_ind.
  - cbn [hev evens odds]. rewrite act_g0, (gl_0 _ HG). reflexivity.
  - cbn [hev evens odds]. rewrite !act_g0, !(g_0_r g HG). reflexivity.
  - rewrite evens_cons2, odds_cons2. cbn [hev]. rewrite IH.
    rewrite !(ml_add_r _ _ _ HM), !(ml_mul _ _ _ HM).
    set (E := hev _ (evens l)). set (O := hev _ (odds l)).
    rewrite !(gl_assoc _ HG). f_equal. rewrite <- !(gl_assoc _ HG). f_equal. apply (gl_comm _ HG).
Qed.

(** The operations used by the code, on the module. *)
Definition mops : fft_ops M Sc := {| tadd := gadd g; tsub := fun a b => a ⊕ ⊖ b;
  tscale := fun a s => s • a; sone := f1 so; smul := fmul so |}.

Lemma twiddles_from_nth w x n : forall i, i < n ->
  nth_error (twiddles_from mops w x n) i = Some (fmul so x (fpow_nat so w i)).
Proof.
  revert x. induction n as [|n IH]; intros x i Hi; [lia|]. cbn [twiddles_from]. destruct i as [|i]; cbn [nth_error].
  - f_equal. cbn [fpow_nat]. ring.
  - rewrite IH by lia. f_equal. cbn [smul mops fpow_nat]. ring.
Qed.

Section Recursion.
Variables (w : Sc) (N : nat).
Definition tw := twiddles mops w N.
Lemma tw_nth i : i < N / 2 -> nth_error tw i = Some (fpow_nat so w i).
Proof. intros Hi. unfold tw, twiddles. rewrite twiddles_from_nth by exact Hi. f_equal. cbn [sone mops]. ring. Qed.

Lemma zip_spec tc : forall m i (fE fO : nat -> M), (i + m) * tc < N / 2 ->
  zip_butterfly mops tw tc i (map fE (seq (i + 1) m)) (map fO (seq (i + 1) m)) =
  Some (map (fun j => fE j ⊕ fpow_nat so w (j * tc) • fO j) (seq (i + 1) m),
        map (fun j => fE j ⊕ ⊖ (fpow_nat so w (j * tc) • fO j)) (seq (i + 1) m)).
Proof.
  induction m as [|m IH]; intros i fE fO Hb; cbn [seq map zip_butterfly]; [reflexivity|].
  rewrite tw_nth by nia. replace (S (i + 1)) with (i + 1 + 1) by lia. rewrite IH by nia.
  cbn [tscale tadd tsub mops]. reflexivity.
Qed.
Lemma butterfly_spec tc m (fE fO : nat -> M) : 0 < m -> (m - 1) * tc < N / 2 ->
  butterfly mops tw tc m (map fE (seq 0 m) ++ map fO (seq 0 m)) =
  Some (map (fun j => fE j ⊕ fpow_nat so w (j * tc) • fO j) (seq 0 m) ++
        map (fun j => fE j ⊕ ⊖ (fpow_nat so w (j * tc) • fO j)) (seq 0 m)).
Proof.
  intros Hm Hb. unfold butterfly. rewrite app_length, !map_length, !seq_length.
  destruct (Nat.ltb_spec (m + m) m); [lia|].
  rewrite firstn_app, map_length, seq_length, Nat.sub_diag, firstn_O, app_nil_r.
  rewrite firstn_all2 by (rewrite map_length, seq_length; lia).
  rewrite skipn_app, map_length, seq_length, Nat.sub_diag.
  rewrite skipn_all2 by (rewrite map_length, seq_length; lia). cbn [app].
  change (skipn 0 (map fO (seq 0 m))) with (map fO (seq 0 m)).
  destruct m as [|m]; [lia|]. cbn [seq map]. rewrite (zip_spec tc m 0) by (cbn in Hb; rewrite Nat.sub_0_r in Hb; exact Hb).
  cbn [tadd tsub mops Nat.mul fpow_nat app]. rewrite !(ml_one _ _ _ HM). reflexivity.
Qed.

Definition dfth (x : Sc) (a : list M) (m : nat) : list M := map (fun i => hev (fpow_nat so x i) a) (seq 0 m).

(** One butterfly merges the transforms of the even and odd parts. *)
Lemma merge tc m a : 0 < m -> (m - 1) * tc < N / 2 -> length a = 2 * m ->
  fpow_nat so w (m * tc) = fneg so (f1 so) ->
  butterfly mops tw tc m (dfth (fpow_nat so w (2 * tc)) (evens a) m ++ dfth (fpow_nat so w (2 * tc)) (odds a) m)
  = Some (dfth (fpow_nat so w tc) a (2 * m)).
Proof.
  intros Hm Hb HL Hw. unfold dfth at 1 2. rewrite butterfly_spec by auto. f_equal.
  unfold dfth. replace (2 * m) with (m + m) by lia. rewrite seq_app, map_app. f_equal.
  - apply map_ext. intros i. rewrite (hev_split (fpow_nat so (fpow_nat so w tc) i) a).
    rewrite <- !fpow_nat_mul. rewrite <- fpow_nat_add.
    replace (tc * i + tc * i) with (2 * tc * i) by lia. replace (i * tc) with (tc * i) by lia. reflexivity.
  - cbn [Nat.add]. replace (seq m m) with (map (fun i => m + i) (seq 0 m)).
    2:{ rewrite <- seq_shift_add, Nat.add_0_r. reflexivity. }
    rewrite map_map. apply map_ext. intros i.
    rewrite (hev_split (fpow_nat so (fpow_nat so w tc) (m + i)) a).
    assert (E : fpow_nat so (fpow_nat so w tc) (m + i) = fneg so (fpow_nat so w (tc * i))).
    { rewrite <- fpow_nat_mul, Nat.mul_add_distr_l, fpow_nat_add, (Nat.mul_comm tc m), Hw. ring. }
    rewrite E, act_neg. replace (fmul so (fneg so (fpow_nat so w (tc * i))) (fneg so (fpow_nat so w (tc * i)))) with (fpow_nat so (fpow_nat so w (2 * tc)) i).
    + rewrite (Nat.mul_comm i tc). reflexivity.
    + rewrite <- fpow_nat_mul. replace (2 * tc * i) with (tc * i + tc * i) by lia. rewrite fpow_nat_add. ring.
Qed.
Lemma dfth_length x a m : length (dfth x a m) = m.
Proof. unfold dfth. rewrite map_length, seq_length. reflexivity. Qed.

Hypothesis Hhalf : fpow_nat so w (N / 2) = fneg so (f1 so).

Lemma rec_spec : forall k fuel tc a, 0 < tc -> S k <= fuel -> length a = 2 ^ (S k) -> 2 ^ (S k) * tc = N ->
  recursive_butterfly mops fuel (brp (S k) a) (2 ^ (S k)) tc tw = Some (dfth (fpow_nat so w tc) a (2 ^ (S k))).
Proof.
  induction k as [|k IH]; intros fuel tc a Ht Hf HL HN; (destruct fuel as [|fuel]; [lia|]).
  - change (2 ^ 1) with 2 in *. cbn [recursive_butterfly Nat.eqb].
    destruct a as [|a0 [|a1 [|]]]; try discriminate. cbn [brp evens odds app].
    f_equal. unfold dfth. cbn [seq map]. cbn [hev]. rewrite !act_g0, !(g_0_r g HG).
    cbn [fpow_nat tadd tsub mops]. rewrite (ml_one _ _ _ HM). f_equal. f_equal.
    f_equal. rewrite <- act_neg1. f_equal. rewrite <- Hhalf. rewrite <- HN. rewrite Nat.mul_comm, Nat.div_mul by lia. ring.
  - assert (P : 0 < 2 ^ k) by (apply Nat.neq_0_lt_0, Nat.pow_nonzero; lia).
    assert (E2 : 2 ^ (S (S k)) = 2 * 2 ^ (S k)) by apply Nat.pow_succ_r'.
    assert (E1 : 2 ^ (S k) = 2 * 2 ^ k) by apply Nat.pow_succ_r'.
    cbn [recursive_butterfly]. destruct (Nat.eqb_spec (2 ^ S (S k)) 2); [lia|].
    assert (D : 2 ^ (S (S k)) / 2 = 2 ^ S k) by (rewrite E2, Nat.mul_comm; apply Nat.div_mul; lia).
    rewrite D. rewrite brp_length by exact HL. destruct (Nat.ltb_spec (2 ^ S (S k)) (2 ^ S k)); [lia|].
    destruct (eo_length (2 ^ S k) a) as [LE LO]; [lia|].
    change (brp (S (S k)) a) with (brp (S k) (evens a) ++ brp (S k) (odds a)).
    rewrite firstn_app, skipn_app, !brp_length, Nat.sub_diag by auto.
    rewrite firstn_O, app_nil_r, firstn_all2, skipn_all2 by (rewrite brp_length; auto). cbn [app].
    change (skipn 0 (brp (S k) (odds a))) with (brp (S k) (odds a)).
    rewrite (IH fuel (tc * 2) (evens a)), (IH fuel (tc * 2) (odds a)) by (auto; lia). cbn [bindo].
    rewrite dfth_length. replace (tc * 2) with (2 * tc) by lia. rewrite E2.
    assert (HD : N / 2 = 2 ^ S k * tc).
    { rewrite <- HN, E2. replace (2 * 2 ^ S k * tc) with (2 ^ S k * tc * 2) by lia. apply Nat.div_mul. lia. }
    apply merge; try lia; try nia. rewrite <- HD. exact Hhalf.
Qed.

(** ** The iterative path *)
Definition eo (b : list M) : list (list M) := [evens b; odds b].
Fixpoint blocks (d : nat) (a : list M) : list (list M) :=
  match d with O => [a] | S d' => flat_map eo (blocks d' a) end.
Lemma brp_blocks d : forall k a, brp (d + k) a = concat (map (brp k) (blocks d a)).
Proof.
  induction d as [|d IH]; intros k a; cbn [blocks].
  - cbn [map concat]. rewrite app_nil_r. reflexivity.
  - replace (S d + k) with (d + S k) by lia. rewrite IH. generalize (blocks d a) as bs.
    induction bs as [|b bs IHb]; cbn [map concat flat_map app eo]; [reflexivity|].
    rewrite IHb. cbn [brp]. rewrite <- app_assoc. reflexivity.
Qed.
Lemma blocks_length d : forall k a, length a = 2 ^ (d + k) -> Forall (fun b => length b = 2 ^ k) (blocks d a).
Proof.
  induction d as [|d IH]; intros k a HL; cbn [blocks]; [constructor; auto|].
  replace (S d + k) with (d + S k) in HL by lia. specialize (IH (S k) a HL).
  induction IH as [|b bs Hb Hbs IHb]; cbn [flat_map eo app]; [constructor|].
  rewrite Nat.pow_succ_r' in Hb. destruct (eo_length (2 ^ k) b Hb). repeat constructor; auto.
Qed.
Definition blk (s : nat) (b : list M) : list M := dfth (fpow_nat so w (N / 2 ^ s)) b (2 ^ s).

Lemma stage_spec s tc : 2 ^ (S s) * tc = N -> 0 < tc -> forall bs fuel, length bs <= fuel ->
  Forall (fun b => length b = 2 ^ (S s)) bs ->
  map_chunks fuel (2 ^ S s) (butterfly mops tw tc (2 ^ S s / 2)) (concat (map (blk s) (flat_map eo bs)))
  = Some (concat (map (blk (S s)) bs)).
Proof.
  intros HN Ht. assert (P : 0 < 2 ^ s) by (apply Nat.neq_0_lt_0, Nat.pow_nonzero; lia).
  rewrite Nat.pow_succ_r' in *.
  assert (D : 2 * 2 ^ s / 2 = 2 ^ s) by (rewrite Nat.mul_comm; apply Nat.div_mul; lia). rewrite D.
  assert (HD : N / 2 = 2 ^ s * tc).
  { rewrite <- HN. replace (2 * 2 ^ s * tc) with (2 ^ s * tc * 2) by lia. apply Nat.div_mul. lia. }
  assert (T1 : N / 2 ^ s = 2 * tc).
  { rewrite <- HN. replace (2 * 2 ^ s * tc) with (2 * tc * 2 ^ s) by lia. apply Nat.div_mul. lia. }
  assert (T2 : N / 2 ^ S s = tc).
  { rewrite <- HN, Nat.pow_succ_r'. replace (2 * 2 ^ s * tc) with (tc * (2 * 2 ^ s)) by lia. apply Nat.div_mul. lia. }
  induction bs as [|b bs IH]; intros fuel Hf HB.
  - destruct fuel; reflexivity.
  - inversion_clear HB as [|? ? Hb Hbs]. cbn [length] in Hf. destruct fuel as [|fuel]; [lia|].
    cbn [flat_map eo app map concat map_chunks].
    assert (L1 : length (blk s (evens b)) = 2 ^ s) by apply dfth_length.
    assert (L2 : length (blk s (odds b)) = 2 ^ s) by apply dfth_length.
    rewrite app_assoc. set (h := blk s (evens b) ++ blk s (odds b)). set (t := concat _).
    assert (Lh : length h = 2 * 2 ^ s) by (unfold h; rewrite app_length; lia).
    destruct (h ++ t) as [|x l] eqn:El.
    { apply (f_equal (@length M)) in El. rewrite app_length in El. cbn [length] in El. lia. }
    rewrite <- El. rewrite firstn_app, skipn_app, Lh, Nat.sub_diag, firstn_O, app_nil_r.
    rewrite firstn_all2, skipn_all2 by lia. cbn [app]. change (skipn 0 t) with t.
    unfold h at 1. unfold blk at 1 2. rewrite T1. rewrite merge; try lia; try nia.
    2:{ rewrite <- HD. exact Hhalf. }
    cbn [bindo]. unfold t. rewrite IH by (auto; lia). cbn [bindo]. unfold blk at 2. rewrite T2, Nat.pow_succ_r'. reflexivity.
Qed.
Lemma blocks_count d a : length (blocks d a) = 2 ^ d.
Proof.
  induction d as [|d IH]; [reflexivity|]. cbn [blocks]. rewrite Nat.pow_succ_r', <- IH.
  generalize (blocks d a). induction l as [|b l IHl]; cbn [flat_map eo app length]; lia.
Qed.
Lemma concat_blk_length s bs : length (concat (map (blk s) bs)) = 2 ^ s * length bs.
Proof.
  induction bs as [|b bs IH]; cbn [map concat length]; [lia|]. rewrite app_length, IH. unfold blk. rewrite dfth_length. lia.
Qed.
Lemma iterative_spec r : forall s a, length a = N -> N = 2 ^ (r + s) ->
  iterative mops r (2 ^ (S s)) (N / 2 ^ (S s)) tw (concat (map (blk s) (blocks r a))) = Some (blk (r + s) a).
Proof.
  induction r as [|r IH]; intros s a HL HN.
  - cbn [iterative blocks map concat Nat.add]. rewrite app_nil_r. reflexivity.
  - assert (P : forall e, 0 < 2 ^ e) by (intros e; apply Nat.neq_0_lt_0, Nat.pow_nonzero; lia).
    assert (ET : N / 2 ^ S s = 2 ^ r).
    { rewrite HN. replace (S r + s) with (r + S s) by lia. rewrite Nat.pow_add_r. apply Nat.div_mul. specialize (P (S s)). lia. }
    cbn [iterative blocks]. rewrite stage_spec.
    + cbn [bindo]. replace (2 ^ S s * 2) with (2 ^ S (S s)) by (rewrite (Nat.pow_succ_r' 2 (S s)); lia).
      rewrite Nat.div_div by (specialize (P (S s)); lia).
      replace (2 ^ S s * 2) with (2 ^ S (S s)) by (rewrite (Nat.pow_succ_r' 2 (S s)); lia).
      rewrite IH; [f_equal; f_equal; lia|exact HL|rewrite HN; f_equal; lia].
    + rewrite ET, HN. replace (S r + s) with (S s + r) by lia. rewrite Nat.pow_add_r. lia.
    + rewrite ET. apply P.
    + rewrite concat_blk_length. change (flat_map eo (blocks r a)) with (blocks (S r) a). rewrite !blocks_count.
      rewrite (Nat.pow_succ_r' 2 r). specialize (P s). specialize (P). nia.
    + apply blocks_length. rewrite HL, HN. f_equal. lia.
Qed.
End Recursion.

(** ** [best_fft] *)
Lemma dft_dfth w a : dft w a = dfth w a (length a).
Proof. unfold dft, dfth. apply map_ext. intros i. apply dft_hev. Qed.

Theorem best_fft_spec threads w k a : length a = 2 ^ k ->
  (k <> 0 -> fpow_nat so w (2 ^ (k - 1)) = fneg so (f1 so)) ->
  best_fft mops threads a w k = Some (dft w a).
Proof.
  intros HL Hw. unfold best_fft. rewrite HL, Nat.eqb_refl. cbn [negb]. rewrite permute_brp by exact HL.
  cbn [bindo]. rewrite dft_dfth, HL. destruct k as [|k].
  - cbn [Nat.leb iterative brp]. destruct a as [|x [|]]; try discriminate. f_equal.
    unfold dfth. cbn [Nat.pow seq map hev]. rewrite act_g0, (g_0_r g HG). reflexivity.
  - specialize (Hw ltac:(lia)). replace (S k - 1) with k in Hw by lia.
    assert (D : 2 ^ S k / 2 = 2 ^ k) by (rewrite Nat.pow_succ_r', Nat.mul_comm; apply Nat.div_mul; lia).
    assert (Hh : fpow_nat so w (2 ^ S k / 2) = fneg so (f1 so)) by (rewrite D; exact Hw).
    destruct (Nat.leb (S k) (Nat.log2 threads)).
    + pose proof (iterative_spec w (2 ^ S k) Hh (S k) 0 a HL) as E. rewrite Nat.add_0_r in E. specialize (E eq_refl).
      change (2 ^ 1) with 2 in E. unfold tw in E.
      replace (concat (map (blk w (2 ^ S k) 0) (blocks (S k) a))) with (brp (S k) a) in E.
      * rewrite E. f_equal. unfold blk. rewrite Nat.div_same by (apply Nat.pow_nonzero; lia).
        unfold dfth. apply map_ext. intros i. f_equal. f_equal. cbn [fpow_nat]. ring.
      * replace (S k) with (S k + 0) by lia. rewrite brp_blocks. replace (S k + 0) with (S k) by lia. f_equal.
        apply map_ext_in. intros b Hb. pose proof (blocks_length (S k) 0 a) as LB. rewrite Nat.add_0_r in LB.
        specialize (LB HL). rewrite Forall_forall in LB. specialize (LB b Hb). cbn in LB.
        destruct b as [|x [|]]; try discriminate. cbn [brp]. unfold blk, dfth. cbn [Nat.pow seq map hev].
        rewrite act_g0, (g_0_r g HG). reflexivity.
    + pose proof (rec_spec w (2 ^ S k) Hh k (S k) 1 a) as E. unfold tw in E. rewrite E by (auto; lia).
      f_equal. unfold dfth. apply map_ext. intros i. f_equal. f_equal. cbn [fpow_nat]. ring.
Qed.
End Dft.

(** ** Inverse transform *)
Section Inverse.
Context {M Sc : Type} (so : fops Sc) (g : gops M) (act : Sc -> M -> M) (HM : module_laws so g act) (HF : field_laws so).
Notation HG := (ml_grp _ _ _ HM).
Infix "⊕" := (gadd g) (at level 50, left associativity).
Infix "•" := act (at level 40).
Add Ring FRinv : (rl_ring _ (fl_rl so HF)).

(** Sums over [0..n-1] *)
Fixpoint gs (f : nat -> M) (n : nat) : M := match n with O => g0 g | S n' => gs f n' ⊕ f n' end.
Fixpoint fs (f : nat -> Sc) (n : nat) : Sc := match n with O => f0 so | S n' => fadd so (fs f n') (f n') end.
Lemma gs_ext f h n : (forall i, i < n -> f i = h i) -> gs f n = gs h n.
Proof. induction n as [|n IH]; intros E; cbn [gs]; [reflexivity|]. rewrite IH, E by (auto; intros; apply E; lia). reflexivity. Qed.
Lemma gs_add f h n : gs (fun i => f i ⊕ h i) n = gs f n ⊕ gs h n.
Proof. induction n as [|n IH]; cbn [gs]; [symmetry; apply (gl_0 _ HG)|]. rewrite IH. apply (g_swap g HG). Qed.
Lemma gs_zero n : gs (fun _ => g0 g) n = g0 g.
Proof. induction n as [|n IH]; cbn [gs]; [reflexivity|]. rewrite IH. apply (gl_0 _ HG). Qed.
Lemma gs_act s f n : s • gs f n = gs (fun i => s • f i) n.
Proof. induction n as [|n IH]; cbn [gs]; [apply (act_g0 so g act HM)|]. rewrite (ml_add_r _ _ _ HM), IH. reflexivity. Qed.
Lemma fs_act f a n : fs f n • a = gs (fun i => f i • a) n.
Proof. induction n as [|n IH]; cbn [gs fs]; [apply (act_zero so g act HM)|]. rewrite (ml_add_l _ _ _ HM), IH. reflexivity. Qed.
Lemma gs_swap f n m : gs (fun i => gs (fun j => f i j) m) n = gs (fun j => gs (fun i => f i j) n) m.
Proof.
  induction n as [|n IH]; cbn [gs]; [symmetry; apply gs_zero|]. rewrite IH, <- gs_add. reflexivity.
Qed.
Lemma gs_pick f k n : k < n -> (forall i, i < n -> i <> k -> f i = g0 g) -> gs f n = f k.
Proof.
  intros Hk. induction n as [|n IH]; intros E; [lia|]. cbn [gs]. destruct (Nat.eq_dec k n) as [->|N].
  - replace (gs f n) with (g0 g); [apply (gl_0 _ HG)|]. rewrite (gs_ext f (fun _ => g0 g)); [symmetry; apply gs_zero|].
    intros i Hi. apply E; lia.
  - rewrite IH by (auto; try lia; intros; apply E; lia). rewrite (E n) by lia. apply (g_0_r g HG).
Qed.
Lemma gs_shift f n : gs f (S n) = f 0 ⊕ gs (fun i => f (S i)) n.
Proof.
  induction n as [|n IH].
  - cbn [gs]. rewrite (gl_0 _ HG), (g_0_r g HG). reflexivity.
  - change (gs f (S (S n))) with (gs f (S n) ⊕ f (S n)). rewrite IH. cbn [gs]. apply (gl_assoc _ HG).
Qed.
Lemma gsum_gs l : forall f : nat -> M, gsum g (map (fun ja => f (fst ja)) (combine (seq 0 (length l)) l)) = gs f (@length M l) .
Proof.
  intros f. replace (map (fun ja : nat * M => f (fst ja)) (combine (seq 0 (length l)) l)) with (map f (seq 0 (length l))).
  - generalize (length l) as n. intros n. revert f. induction n as [|n IH]; intros f; [reflexivity|].
    rewrite gs_shift. cbn [seq map gsum fold_right]. f_equal. rewrite <- seq_shift, map_map. apply (IH (fun i => f (S i))).
  - rewrite <- (map_map fst f). f_equal.
    generalize 0 as s. induction l as [|a l IH]; intros s; cbn [length seq combine map]; [reflexivity|]. f_equal. apply IH.
Qed.
Lemma combine_nth_fst (l : list M) d : forall s (h : nat -> M -> M),
  map (fun ja => h (fst ja) (snd ja)) (combine (seq s (length l)) l) = map (fun ja => h (fst ja) (nth (fst ja - s) l d)) (combine (seq s (length l)) l).
Proof.
  induction l as [|a l IH]; intros s h; cbn [length seq combine map]; [reflexivity|]. cbn [fst snd]. f_equal.
  - rewrite Nat.sub_diag. reflexivity.
  - rewrite IH. apply map_ext_in. intros [j y] Hj. cbn [fst snd]. apply in_combine_l in Hj. apply in_seq in Hj.
    replace (j - s) with (S (j - S s)) by lia. reflexivity.
Qed.
Lemma dft_entry_gs w a i : dft_entry so g act w a i = gs (fun j => fpow_nat so w (i * j) • nth j a (g0 g)) (length a).
Proof.
  unfold dft_entry. rewrite (combine_nth_fst a (g0 g) 0 (fun j y => fpow_nat so w (i * j) • y)).
  rewrite <- gsum_gs. f_equal. apply map_ext. intros [j y]. cbn [fst snd]. rewrite Nat.sub_0_r. reflexivity.
Qed.

Lemma geom x n : fmul so (fsub so x (f1 so)) (fs (fpow_nat so x) n) = fsub so (fpow_nat so x n) (f1 so).
Proof. induction n as [|n IH]; cbn [fs fpow_nat]; [ring|].
  transitivity (fadd so (fmul so (fsub so x (f1 so)) (fs (fpow_nat so x) n)) (fmul so (fsub so x (f1 so)) (fpow_nat so x n))); [ring|].
  rewrite IH. ring.
Qed.
Lemma pow_one n : fpow_nat so (f1 so) n = f1 so.
Proof. induction n as [|n IH]; cbn [fpow_nat]; [reflexivity|]. rewrite IH. ring. Qed.
Lemma fs_one n : fs (fpow_nat so (f1 so)) n = fs (fun _ => f1 so) n.
Proof. induction n as [|n IH]; cbn [fs]; [reflexivity|]. rewrite IH, pow_one. reflexivity. Qed.
(** [n] as a field element. *)
Definition nat_to_f (n : nat) : Sc := fs (fun _ => f1 so) n.

Section Root.
Variables (w w' : Sc) (k : nat).
Hypothesis H2 : fneg so (f1 so) <> f1 so.
Hypothesis Hk : k <> 0.
Hypothesis Hw : fpow_nat so w (2 ^ (k - 1)) = fneg so (f1 so).
Hypothesis Hinv : fmul so w' w = f1 so.
Lemma root_full : fpow_nat so w (2 ^ k) = f1 so.
Proof.
  replace (2 ^ k) with (2 ^ (k - 1) + 2 ^ (k - 1)).
  - rewrite (fpow_nat_add so g act HM), Hw. ring.
  - destruct k as [|j]; [lia|]. replace (S j - 1) with j by lia. rewrite Nat.pow_succ_r'. lia.
Qed.
Lemma odd_split d : 0 < d -> exists e m, d = 2 ^ e * (2 * m + 1).
Proof.
  induction d as [d IH] using lt_wf_ind. intros Hd.
  destruct (Nat.Even_or_Odd d) as [[h Hh]|[h Hh]].
  - destruct (IH h) as (e & m & E); [lia|lia|]. exists (S e), m. rewrite Nat.pow_succ_r'. lia.
  - exists 0, h. cbn. lia.
Qed.
Lemma neg1_pow m : fpow_nat so (fneg so (f1 so)) (2 * m + 1) = fneg so (f1 so).
Proof.
  induction m as [|m IH].
  - cbn [Nat.mul Nat.add fpow_nat]. ring.
  - replace (2 * S m + 1) with (S (S (2 * m + 1))) by lia. cbn [fpow_nat]. rewrite IH. ring.
Qed.
Lemma root_not_one d : 0 < d < 2 ^ k -> fpow_nat so w d <> f1 so.
Proof.
  intros Hd E. destruct (odd_split d) as (e & m & ->); [lia|].
  assert (e < k). { apply Nat.nle_gt. intros L. assert (2 ^ k <= 2 ^ e) by (apply Nat.pow_le_mono_r; lia). nia. }
  apply H2. rewrite <- (neg1_pow m). rewrite <- Hw. rewrite <- (fpow_nat_mul so g act HM).
  replace (2 ^ (k - 1) * (2 * m + 1)) with (2 ^ e * (2 * m + 1) * 2 ^ (k - 1 - e)).
  - rewrite (fpow_nat_mul so g act HM), E. apply pow_one.
  - replace (k - 1) with (e + (k - 1 - e)) at 2 by lia. rewrite Nat.pow_add_r. ring.
Qed.
Lemma inv_pow d : fmul so (fpow_nat so w' d) (fpow_nat so w d) = f1 so.
Proof.
  induction d as [|d IH]; cbn [fpow_nat]; [ring|].
  transitivity (fmul so (fmul so w' w) (fmul so (fpow_nat so w' d) (fpow_nat so w d))); [ring|]. rewrite Hinv, IH. ring.
Qed.
Lemma cross_not_one i j : i < 2 ^ k -> j < 2 ^ k -> i <> j ->
  fmul so (fpow_nat so w' i) (fpow_nat so w j) <> f1 so.
Proof.
  intros Hi Hj N E. destruct (Nat.lt_total i j) as [L|[->|L]]; [|lia|].
  - apply (root_not_one (j - i)); [lia|]. replace j with (i + (j - i)) in E by lia. rewrite (fpow_nat_add so g act HM) in E.
    rewrite <- E. transitivity (fmul so (fmul so (fpow_nat so w' i) (fpow_nat so w i)) (fpow_nat so w (j - i))); [rewrite inv_pow|]; ring.
  - apply (root_not_one (i - j)); [lia|]. replace i with (j + (i - j)) in E by lia. rewrite (fpow_nat_add so g act HM) in E.
    assert (E' : fpow_nat so w' (i - j) = f1 so).
    { rewrite <- E. transitivity (fmul so (fmul so (fpow_nat so w' j) (fpow_nat so w j)) (fpow_nat so w' (i - j))); [rewrite inv_pow|]; ring. }
    rewrite <- (inv_pow (i - j)), E'. ring.
Qed.
Lemma cross_sum i j : i < 2 ^ k -> j < 2 ^ k ->
  fs (fpow_nat so (fmul so (fpow_nat so w' i) (fpow_nat so w j))) (2 ^ k) = if Nat.eqb i j then nat_to_f (2 ^ k) else f0 so.
Proof.
  intros Hi Hj. destruct (Nat.eqb_spec i j) as [->|N].
  - rewrite inv_pow. apply fs_one.
  - set (x := fmul so _ _). pose proof (geom x (2 ^ k)) as E.
    assert (X : fpow_nat so x (2 ^ k) = f1 so).
    { unfold x. assert (PM : forall a b n, fpow_nat so (fmul so a b) n = fmul so (fpow_nat so a n) (fpow_nat so b n)).
      { clear - HF. intros a b n. induction n as [|n IH]; cbn [fpow_nat]; [ring|]. rewrite IH. ring. }
      rewrite PM, <- !(fpow_nat_mul so g act HM), (Nat.mul_comm i), (Nat.mul_comm j), !(fpow_nat_mul so g act HM), root_full, pow_one.
      assert (W' : fpow_nat so w' (2 ^ k) = f1 so). { pose proof (inv_pow (2 ^ k)) as I. rewrite root_full in I. rewrite <- I. ring. }
      rewrite W', pow_one. ring. }
    rewrite X in E. assert (E0 : fmul so (fsub so x (f1 so)) (fs (fpow_nat so x) (2 ^ k)) = f0 so) by (rewrite E; ring).
    destruct (mul_integral so HF _ _ E0) as [Z|Z]; [|exact Z].
    exfalso. apply (cross_not_one i j Hi Hj N). apply (sub_zero_eq so HF). exact Z.
Qed.
Theorem dft_inverse a : length a = 2 ^ k -> dft so g act w' (dft so g act w a) = map (act (nat_to_f (2 ^ k))) a.
Proof.
  intros HL. assert (LD : length (dft so g act w a) = 2 ^ k) by (unfold dft; rewrite map_length, seq_length; exact HL).
  unfold dft at 1. rewrite LD. apply nth_error_ext. intros i.
  destruct (Nat.lt_ge_cases i (2 ^ k)) as [L|G].
  2:{ rewrite (proj2 (nth_error_None _ i)) by (rewrite map_length, seq_length; lia).
      symmetry. apply nth_error_None. rewrite map_length. lia. }
  rewrite !nth_error_map. rewrite (nth_error_nth' (seq 0 (2 ^ k)) 0) by (rewrite seq_length; lia). rewrite seq_nth by lia.
  rewrite (nth_error_nth' a (g0 g)) by lia. cbn [option_map Nat.add]. f_equal.
  rewrite dft_entry_gs, LD.
  rewrite (gs_ext _ (fun j => gs (fun l => fpow_nat so (fmul so (fpow_nat so w' i) (fpow_nat so w l)) j • nth l a (g0 g)) (2 ^ k))).
  - rewrite gs_swap. rewrite (gs_pick _ i); auto.
    + rewrite <- fs_act, cross_sum, Nat.eqb_refl by auto. reflexivity.
    + intros l Hl N. rewrite <- fs_act, cross_sum by auto. destruct (Nat.eqb_spec i l); [lia|]. apply (act_zero so g act HM).
  - intros j Hj. unfold dft. rewrite HL, (nth_indep _ _ (dft_entry so g act w a 0)) by (rewrite map_length, seq_length; lia).
    rewrite map_nth, seq_nth by lia. cbn [Nat.add]. rewrite dft_entry_gs, gs_act, HL. apply gs_ext. intros l Hl.
    rewrite <- (ml_mul _ _ _ HM). f_equal.
    assert (PM : forall a b n, fpow_nat so (fmul so a b) n = fmul so (fpow_nat so a n) (fpow_nat so b n)).
    { clear - HF. intros a b n. induction n as [|n IH]; cbn [fpow_nat]; [ring|]. rewrite IH. ring. }
    rewrite PM, <- !(fpow_nat_mul so g act HM). f_equal. f_equal. lia.
Qed.
End Root.
Lemma dft_single w x : dft so g act w [x] = [x].
Proof.
  unfold dft, dft_entry. cbn [length seq combine map fst snd gsum fold_right Nat.mul]. cbn [fpow_nat].
  rewrite (ml_one _ _ _ HM), (g_0_r g HG). reflexivity.
Qed.
Lemma dft_inverse0 w w' a : length a = 1 -> dft so g act w' (dft so g act w a) = map (act (nat_to_f 1)) a.
Proof.
  destruct a as [|x [|]]; try discriminate. intros _. rewrite !dft_single. cbn [map]. unfold nat_to_f. cbn [fs].
  replace (fadd so (f0 so) (f1 so)) with (f1 so) by ring. rewrite (ml_one _ _ _ HM). reflexivity.
Qed.
End Inverse.
