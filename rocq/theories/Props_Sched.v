(** C65: the multi-threaded multi-scalar multiplications do not depend on the schedule. *)
From Verif Require Import Base Word Bytes Field SpecField Params Algebra PrimeField SpecCurve SpecCurveFacts Group Curve CurveFacts CurveGroup CurveParams CurveInst CrateCurves CurveSum
  Fft FftFacts Msm MsmFacts MsmSched MsmSchedFacts Props_Msm.

Section Runs.
Context {F : Type} (o : fops F) (c : cconf F) (sc : fconf) (ln_ceil : nat -> Z).
Notation snext := (serial_next o c sc ln_ceil).

Lemma nth_combine {X Y} (xs : list X) (ys : list Y) i x y :
  nth_error (combine xs ys) i = Some (x, y) <-> nth_error xs i = Some x /\ nth_error ys i = Some y.
Proof.
  revert ys i. induction xs as [|a xs IH]; intros [|b ys] [|i]; cbn; try (split; [discriminate|intros [E1 E2]; discriminate]).
  - split; [intros E; injection E as -> ->; auto|intros [E1 E2]; congruence].
  - apply IH.
Qed.
Lemma map_fst_combine {X Y} (xs : list X) (ys : list Y) : length xs = length ys -> map fst (combine xs ys) = xs.
Proof. revert ys. induction xs as [|x xs IH]; intros [|y ys] E; cbn in *; try discriminate; [reflexivity|]. f_equal. apply IH. lia. Qed.
Lemma chunks_len {X Y} ch : forall fuel (xs : list X) (ys : list Y), length xs = length ys ->
  length (chunks fuel ch xs) = length (chunks fuel ch ys).
Proof.
  induction fuel as [|fuel IH]; intros xs ys E; [reflexivity|]. cbn [chunks].
  destruct xs as [|x xs], ys as [|y ys]; try discriminate; [reflexivity|]. cbn [length]. f_equal. apply IH. rewrite !skipn_length, E. reflexivity.
Qed.
Lemma repeat_nth {X} (x y : X) n k : nth_error (repeat x n) k = Some y -> x = y.
Proof. intros E. apply nth_error_In, repeat_spec in E. congruence. Qed.

(** ** The chunks of [msm_parallel] *)
Lemma panics_stop l a : serial_panics l = true -> snext l a = None.
Proof using All. destruct l; (discriminate || reflexivity). Qed.
Section Scope.
Context (cbs : list (list (list Z) * list (aff F))).
Let n := length cbs.
Let tasks := map (fun cb => SStart (fst cb) (snd cb)) cbs.
Let ts := combine (seq 0 n) tasks.
Let mem := repeat (proj_identity o) n.
Let res (k : nat) : option (proj F) := match nth_error cbs k with Some cb => msm_serial o c sc ln_ceil (fst cb) (snd cb) (proj_identity o) | None => None end.
Lemma scope_good : good (ts, mem).
Proof using All.
  assert (M : map fst ts = seq 0 n) by (apply map_fst_combine; unfold tasks, n; rewrite map_length, seq_length; reflexivity).
  split; cbn [fst snd]; [rewrite M; apply seq_NoDup|]. apply Forall_forall. intros t Ht. apply (in_map fst) in Ht. rewrite M in Ht.
  apply in_seq in Ht. unfold mem. rewrite repeat_length. lia.
Qed.
Lemma scope_cov k : (k < length mem)%nat -> In k (map fst ts).
Proof using All.
  unfold mem. rewrite repeat_length. intros Hk. unfold ts. rewrite map_fst_combine by (unfold tasks, n; rewrite map_length, seq_length; reflexivity).
  apply in_seq. lia.
Qed.
Lemma scope_res i k l a : nth_error ts i = Some (k, l) -> nth_error mem k = Some a ->
  match res k with Some r => ends snext l a SReturn r | None => exists a', ends snext l a SPanic a' end.
Proof using All.
  intros E Ea. apply repeat_nth in Ea. subst a. apply nth_combine in E as [E1 E2].
  assert (i < n)%nat by (apply nth_error_Some; unfold tasks in E2; rewrite nth_error_map in E2; destruct (nth_error cbs i); [discriminate|discriminate]).
  rewrite seq_nth_error in E1 by assumption. injection E1 as <-. cbn [Nat.add] in *. unfold tasks in E2. rewrite nth_error_map in E2. unfold res.
  destruct (nth_error cbs i) as [cb|]; [|discriminate]. injection E2 as <-. apply serial_ends.
Qed.
Lemma scope_seq : sequence (map res (seq 0 (length mem))) =
  sequence (map (fun cb => msm_serial o c sc ln_ceil (fst cb) (snd cb) (proj_identity o)) cbs).
Proof using All.
  f_equal. unfold mem. rewrite repeat_length. apply nth_error_ext. intros i. rewrite !nth_error_map.
  destruct (Nat.lt_ge_cases i n) as [Hi|Hi].
  - rewrite seq_nth_error by exact Hi. cbn [option_map Nat.add]. unfold res.
    destruct (nth_error cbs i) as [cb|] eqn:E; [reflexivity|]. apply nth_error_None in E. unfold n in Hi. lia.
  - rewrite (proj2 (nth_error_None (seq 0 n) i)) by (rewrite seq_length; exact Hi).
    rewrite (proj2 (nth_error_None cbs i)) by exact Hi. reflexivity.
Qed.
Lemma scope_unique ts' mem' r : pool_run snext (ts, mem) (ts', mem') -> pool_outcome snext serial_panics (ts', mem') r ->
  r = sequence (map (fun cb => msm_serial o c sc ln_ceil (fst cb) (snd cb) (proj_identity o)) cbs).
Proof using All.
  intros R O. rewrite <- scope_seq.
  refine (outcome_unique snext serial_panics SReturn SPanic res ts mem scope_good eq_refl eq_refl panics_stop scope_cov scope_res ts' mem' r R O).
Qed.
Lemma scope_exists : exists ts' mem' r, pool_run snext (ts, mem) (ts', mem') /\ pool_outcome snext serial_panics (ts', mem') r.
Proof using All. exact (outcome_exists snext serial_panics SReturn SPanic res ts mem scope_good eq_refl eq_refl panics_stop scope_cov scope_res). Qed.
Lemma scope_acc : Acc (fun c' c => pool_step snext c c') (ts, mem).
Proof using All.
  apply pool_total; [exact scope_good|]. intros i k l a Ei Ek. pose proof (scope_res i k l a Ei Ek) as X. destruct (res k); [eauto|]. destruct X as [a' X]. eauto.
Qed.
End Scope.

(** ** The windows of [msm_best] *)
Section Windows.
Context (ws : Z) (coeffs : list (list Z)) (bases bases_local : list (aff F)) (n : nat).
Notation wnext := (window_next o c ws coeffs bases bases_local).
Let ts := rev (map (fun w => (w, WStart (Z.of_nat w) : @wloc F)) (seq 0 n)).
Let mem := repeat (proj_identity o) n.
Let res (k : nat) : option (proj F) := best_window o c ws coeffs bases bases_local (Z.of_nat k).
Lemma win_fst : map fst ts = rev (seq 0 n).
Proof using All. unfold ts. rewrite map_rev, map_map. cbn [fst]. rewrite map_id. reflexivity. Qed.
Lemma win_good : good (ts, mem).
Proof using All.
  split; cbn [fst snd]; [rewrite win_fst; apply NoDup_rev, seq_NoDup|]. apply Forall_forall. intros t Ht. apply (in_map fst) in Ht.
  rewrite win_fst in Ht. apply in_rev, in_seq in Ht. unfold mem. rewrite repeat_length. lia.
Qed.
Lemma win_cov k : (k < length mem)%nat -> In k (map fst ts).
Proof using All. unfold mem. rewrite repeat_length, win_fst. intros Hk. rewrite <- in_rev. apply in_seq. lia. Qed.
Lemma win_res i k l a : nth_error ts i = Some (k, l) -> nth_error mem k = Some a ->
  match res k with Some r => ends wnext l a WReturn r | None => exists a', ends wnext l a WPanic a' end.
Proof using All.
  intros E Ea. apply repeat_nth in Ea. subst a. apply nth_error_In in E. unfold ts in E. rewrite <- in_rev in E.
  apply in_map_iff in E as (w & E & _). injection E as <- <-. apply window_ends.
Qed.
Lemma win_stop l a : window_panics l = true -> wnext l a = None.
Proof using All. destruct l; (discriminate || reflexivity). Qed.
Lemma win_seq : sequence (map res (seq 0 (length mem))) = sequence (map (best_window o c ws coeffs bases bases_local) (map Z.of_nat (seq 0 n))).
Proof using All. unfold mem. rewrite repeat_length, map_map. reflexivity. Qed.
Lemma win_unique ts' mem' r : pool_run wnext (ts, mem) (ts', mem') -> pool_outcome wnext window_panics (ts', mem') r ->
  r = sequence (map (best_window o c ws coeffs bases bases_local) (map Z.of_nat (seq 0 n))).
Proof using All.
  intros R O. rewrite <- win_seq.
  exact (outcome_unique wnext window_panics WReturn WPanic res ts mem win_good eq_refl eq_refl win_stop win_cov win_res ts' mem' r R O).
Qed.
Lemma win_exists : exists ts' mem' r, pool_run wnext (ts, mem) (ts', mem') /\ pool_outcome wnext window_panics (ts', mem') r.
Proof using All. exact (outcome_exists wnext window_panics WReturn WPanic res ts mem win_good eq_refl eq_refl win_stop win_cov win_res). Qed.
Lemma win_acc : Acc (fun c' c => pool_step wnext c c') (ts, mem).
Proof using All.
  apply pool_total; [exact win_good|]. intros i k l a Ei Ek. pose proof (win_res i k l a Ei Ek) as X. destruct (res k); [eauto|]. destruct X as [a' X]. eauto.
Qed.
End Windows.

Lemma bindo_map {X Y} (x : option X) (f : X -> Y) : bindo x (fun y => Some (f y)) = option_map f x.
Proof. destruct x; reflexivity. Qed.
(** One task: the calling thread. *)
Lemma one_run coeffs bases ts mem :
  pool_run snext ([(O, SStart coeffs bases)], [proj_identity o]) (ts, mem) -> pool_done snext (ts, mem) ->
  (if existsb (fun t => serial_panics (snd t)) ts then None else nth_error mem 0) = msm_serial o c sc ln_ceil coeffs bases (proj_identity o).
Proof using All.
  intros R D. pose proof (scope_good [(coeffs, bases)]) as G. cbn in G.
  destruct (run_solo _ _ _ R G) as (G' & M & Lm & T & _). cbn [fst snd map length] in M, Lm, T.
  destruct (T O O _ _ eq_refl eq_refl) as (l' & a' & X1 & X2 & X3).
  destruct ts as [|[k l] [|t ts]]; try discriminate. injection X1 as -> ->. cbn [existsb snd]. rewrite orb_false_r, X2.
  pose proof (proj1 (done_next snext _ _ G') D O O l' a' eq_refl X2) as N.
  pose proof (serial_ends o c sc ln_ceil coeffs bases (proj_identity o)) as E.
  destruct (msm_serial o c sc ln_ceil coeffs bases (proj_identity o)) as [r|].
  - destruct E as [E1 E2]. destruct (solo_det _ _ _ _ _ _ _ E1 E2 X3 N) as [<- <-]. reflexivity.
  - destruct E as (a & E1 & E2). destruct (solo_det _ _ _ _ _ _ _ E1 E2 X3 N) as [<- <-]. reflexivity.
Qed.
Lemma one_exists coeffs bases : exists ts mem,
  pool_run snext ([(O, SStart coeffs bases)], [proj_identity o]) (ts, mem) /\ pool_done snext (ts, mem).
Proof using All.
  pose proof (scope_good [(coeffs, bases)]) as G. cbn in G. apply (fun H => proj2 (pool_total snext _ _ G H)).
  intros i k l a Ei Ek. pose proof (scope_res [(coeffs, bases)] i k l a Ei Ek) as X. cbv beta in X.
  match type of X with match ?m with _ => _ end => destruct m end; [eauto|destruct X as [a' X]; eauto].
Qed.

Lemma parallel_runs threads coeffs bases r :
  msm_parallel_run o c sc ln_ceil threads coeffs bases r <-> r = msm_parallel o c sc ln_ceil threads coeffs bases.
Proof using All.
  unfold msm_parallel. cbv zeta. split.
  - intros [N|ts mem E T R D|E T Z|ts mem r' E T Z chunk cs tasks R O].
    + destruct (Nat.eqb_spec (length coeffs) (length bases)); [contradiction|reflexivity].
    + rewrite (proj2 (Nat.eqb_eq _ _) E), (proj2 (Nat.ltb_ge _ _) T). cbn [negb]. exact (one_run _ _ _ _ R D).
    + rewrite (proj2 (Nat.eqb_eq _ _) E), (proj2 (Nat.ltb_lt _ _) T), Z. reflexivity.
    + rewrite (proj2 (Nat.eqb_eq _ _) E), (proj2 (Nat.ltb_lt _ _) T). cbn [negb]. rewrite (proj2 (Nat.eqb_neq _ _) Z). fold chunk.
      rewrite bindo_map. f_equal. fold cs. unfold tasks in R.
      assert (Lc : length (combine cs (chunks (length bases) chunk bases)) = length cs).
      { rewrite combine_length. unfold cs. rewrite E. rewrite (chunks_len chunk (length bases) coeffs bases E). apply Nat.min_id. }
      pose proof (scope_unique (combine cs (chunks (length bases) chunk bases)) ts mem r') as U. rewrite Lc in U. exact (U R O).
  - intros ->. destruct (Nat.eqb_spec (length coeffs) (length bases)) as [E|E]; cbn [negb]; [|constructor; exact E].
    destruct (Nat.ltb_spec threads (length coeffs)) as [T|T].
    + destruct (Nat.eqb_spec (length coeffs / threads) 0) as [Z|Z]; [apply mpr_chunk0; auto|].
      set (chunk := (length coeffs / threads)%nat) in *. set (cs := chunks (length coeffs) chunk coeffs).
      assert (Lc : length (combine cs (chunks (length bases) chunk bases)) = length cs).
      { rewrite combine_length. unfold cs. rewrite E. rewrite (chunks_len chunk (length bases) coeffs bases E). apply Nat.min_id. }
      destruct (scope_exists (combine cs (chunks (length bases) chunk bases))) as (ts & mem & r & R & O). rewrite Lc in R.
      pose proof (scope_unique (combine cs (chunks (length bases) chunk bases)) ts mem r) as U. rewrite Lc in U.
      rewrite bindo_map, <- (U R O). exact (mpr_scope o c sc ln_ceil threads coeffs bases ts mem r E T Z R O).
    + destruct (one_exists coeffs bases) as (ts & mem & R & D). rewrite <- (one_run _ _ _ _ R D). apply mpr_one; auto.
Qed.
Lemma best_runs threads coeffs bases r :
  msm_best_run o c sc ln_ceil threads coeffs bases r <-> r = msm_best o c sc ln_ceil threads coeffs bases.
Proof using All.
  unfold msm_best. cbv zeta. split.
  - intros [N|r' E L R|E L S1|bl ts mem r' E L S1 ws n step R O].
    + destruct (Nat.eqb_spec (length coeffs) (length bases)); [contradiction|reflexivity].
    + rewrite (proj2 (Nat.eqb_eq _ _) E). cbn [negb]. cbv zeta. rewrite (proj2 (Z.ltb_lt _ _) L). apply parallel_runs. exact R.
    + rewrite (proj2 (Nat.eqb_eq _ _) E). cbn [negb]. cbv zeta. rewrite (proj2 (Z.ltb_ge _ _) L), S1. reflexivity.
    + rewrite (proj2 (Nat.eqb_eq _ _) E). cbn [negb]. cbv zeta. rewrite (proj2 (Z.ltb_ge _ _) L), S1. cbn [bindo]. fold ws. fold n.
      rewrite bindo_map. f_equal. exact (win_unique ws (map (to_repr sc) coeffs) bases bl n ts mem r' R O).
  - intros ->. destruct (Nat.eqb_spec (length coeffs) (length bases)) as [E|E]; cbn [negb]; [|constructor; exact E]. cbv zeta.
    destruct (Z.ltb_spec (window_size ln_ceil (length bases)) 10) as [L|L]; [apply mbr_small; auto; apply parallel_runs; reflexivity|].
    destruct (sequence (map (msm_affine o c) bases)) as [bl|] eqn:S1; cbn [bindo]; [|apply mbr_affine; auto].
    set (ws := window_size ln_ceil (length bases)) in *. set (n := Z.to_nat (num_bits sc / ws + 1)).
    destruct (win_exists ws (map (to_repr sc) coeffs) bases bl n) as (ts & mem & r & R & O).
    rewrite bindo_map, <- (win_unique ws (map (to_repr sc) coeffs) bases bl n ts mem r R O).
    exact (mbr_windows o c sc ln_ceil threads coeffs bases bl ts mem r E L S1 R O).
Qed.
End Runs.

(** Whatever the order and the interleaving in which the pool runs the statements of the tasks, the outcome
    (a value or a panic) is that of the functions of Msm.v.  Nothing is assumed about the operations. *)
Theorem C65_parallel : forall F (o : fops F) c sc ln_ceil threads coeffs bases r,
  msm_parallel_run o c sc ln_ceil threads coeffs bases r <-> r = msm_parallel o c sc ln_ceil threads coeffs bases.
Proof. intros. apply parallel_runs. Qed.
Print Assumptions C65_parallel.
Theorem C65_best : forall F (o : fops F) c sc ln_ceil threads coeffs bases r,
  msm_best_run o c sc ln_ceil threads coeffs bases r <-> r = msm_best o c sc ln_ceil threads coeffs bases.
Proof. intros. apply best_runs. Qed.
Print Assumptions C65_best.
(** So on the curves every run gives the sum of the multiples. *)
Theorem C65_sum : forall F (o : fops F) c g sc, crate_curve o c g sc -> forall ln_ceil, ln_ok ln_ceil -> forall threads ks vs bases Ps,
  (0 < threads)%nat -> Forall2 (represents (num_limbs sc) (modulus sc)) ks vs -> Forall2 (arep o c) bases Ps -> length ks = length bases ->
  forall r, msm_parallel_run o c sc ln_ceil threads ks bases r -> exists p, r = Some p /\ prep o c p (msum_pts o (ca c) vs Ps).
Proof.
  intros F o c g sc HV ln Hln threads ks vs bases Ps Ht HK HB L r R. apply C65_parallel in R.
  destruct (C16_parallel F o c g sc HV ln Hln threads ks vs bases Ps Ht HK HB L) as (p & E & P). exists p. split; [congruence|exact P].
Qed.
Print Assumptions C65_sum.
(** No run goes on forever: the relation of one step of the pool is well founded below the start. *)
Theorem C65_terminates : forall F (o : fops F) c sc ln_ceil,
  (forall cbs : list (list (list Z) * list (aff F)),
     Acc (fun c' c0 => pool_step (serial_next o c sc ln_ceil) c0 c')
       (combine (seq 0 (length cbs)) (map (fun cb => SStart (fst cb) (snd cb)) cbs), repeat (proj_identity o) (length cbs))) /\
  (forall ws coeffs bases bases_local n,
     Acc (fun c' c0 => pool_step (window_next o c ws coeffs bases bases_local) c0 c')
       (rev (map (fun w => (w, WStart (Z.of_nat w))) (seq 0 n)), repeat (proj_identity o) n)).
Proof. intros F o c sc ln_ceil. split; intros; [apply scope_acc|apply (win_acc o c sc ln_ceil)]. Qed.
Print Assumptions C65_terminates.

(** Two tasks that write to the same cell would make the result depend on the schedule: the condition that the
    cells are different matters. *)
Definition ex_next (l : nat) (a : nat) : option (nat * nat) := match l with O => None | S O => Some (O, 2 * a)%nat | _ => Some (O, a + 1)%nat end.
Example ex_shared_cell :
  pool_run ex_next ([(O, 1%nat); (O, 2%nat)], [1%nat]) ([(O, O); (O, O)], [3%nat]) /\
  pool_run ex_next ([(O, 1%nat); (O, 2%nat)], [1%nat]) ([(O, O); (O, O)], [4%nat]) /\
  pool_done ex_next ([(O, O); (O, O)], [3%nat]) /\ pool_done ex_next ([(O, O); (O, O)], [4%nat]).
Proof.
  split; [|split; [|split]].
  - eapply pool_more; [refine (pool_task ex_next 0 0 1%nat 1%nat O 2%nat _ _ _ _ _); reflexivity|]. cbn.
    eapply pool_more; [refine (pool_task ex_next 1 0 2%nat 2%nat O 3%nat _ _ _ _ _); reflexivity|]. constructor.
  - eapply pool_more; [refine (pool_task ex_next 1 0 2%nat 1%nat O 2%nat _ _ _ _ _); reflexivity|]. cbn.
    eapply pool_more; [refine (pool_task ex_next 0 0 1%nat 2%nat O 4%nat _ _ _ _ _); reflexivity|]. constructor.
  - intros c' St. inversion St as [i k l a l' a' ts mem Et Em En]; subst. destruct i as [|[|i]]; cbn in Et; try (injection Et as <- <-; discriminate).
    destruct i; discriminate.
  - intros c' St. inversion St as [i k l a l' a' ts mem Et Em En]; subst. destruct i as [|[|i]]; cbn in Et; try (injection Et as <- <-; discriminate).
    destruct i; discriminate.
Qed.
