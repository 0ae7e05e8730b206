(** Interleavings of the two closures of [rayon::join] in
    [recursive_butterfly_arithmetic] (src/fft.rs:96-133).

    The slice is a memory indexed by [nat]; every statement of a butterfly is
    one atomic step.  A program is a tree of sequential and parallel
    compositions; a trace of a parallel composition is any interleaving of
    traces of its two sides.  Every trace of the program built from
    [recursive_butterfly] leaves the same values in the slice as the sequential
    model [Fft.recursive_butterfly]. *)
From Verif Require Import Base Fft.
From Coq Require Import Arith Lia.
Local Open Scope nat_scope.

Section Sched.
Context {G Sc : Type} (o : fft_ops G Sc).

(** Cell [j] holds the slice element [a[j]] and the local variable [t] of the
    butterfly whose right-hand element is [a[j]]. *)
Definition mem := nat -> G * G.
Inductive op :=
| OLoad (j : nat)             (* let mut t = *b    fft.rs:117,125 *)
| OScale (j : nat) (w : Sc)   (* t *= &twiddles[.] fft.rs:126 *)
| OCopy (i j : nat)           (* *b = *a           fft.rs:118,127 *)
| OAdd (i j : nat)            (* *a += &t          fft.rs:119,128 *)
| OSub (j : nat).             (* *b -= &t          fft.rs:120,129 *)
Definition upd (m : mem) (j : nat) (x : G * G) : mem := fun k => if Nat.eqb k j then x else m k.
Definition step (m : mem) (x : op) : mem :=
  match x with
  | OLoad j => upd m j (fst (m j), fst (m j))
  | OScale j w => upd m j (fst (m j), tscale o (snd (m j)) w)
  | OCopy i j => upd m j (fst (m i), snd (m j))
  | OAdd i j => upd m i (tadd o (fst (m i)) (snd (m j)), snd (m i))
  | OSub j => upd m j (tsub o (fst (m j)) (snd (m j)), snd (m j))
  end.
Definition exec (m : mem) (l : list op) : mem := fold_left step l m.

Inductive prog := PRun (l : list op) | PSeq (p q : prog) | PPar (p q : prog).
Inductive interleaving : list op -> list op -> list op -> Prop :=
| il_nil : interleaving [] [] []
| il_left x l1 l2 l : interleaving l1 l2 l -> interleaving (x :: l1) l2 (x :: l)
| il_right x l1 l2 l : interleaving l1 l2 l -> interleaving l1 (x :: l2) (x :: l).
Fixpoint trace (p : prog) (l : list op) : Prop :=
  match p with
  | PRun l0 => l = l0
  | PSeq p q => exists l1 l2, trace p l1 /\ trace q l2 /\ l = l1 ++ l2
  | PPar p q => exists l1 l2, trace p l1 /\ trace q l2 /\ interleaving l1 l2 l
  end.

(** fft.rs:113-130, the statements of one butterfly level over
    [a[lo .. lo+half]] and [a[lo+half .. lo+2*half]] *)
Definition bfly0 (i j : nat) : list op := [OLoad j; OCopy i j; OAdd i j; OSub j].
Definition bfly (w : Sc) (i j : nat) : list op := [OLoad j; OScale j w; OCopy i j; OAdd i j; OSub j].
Fixpoint level (tw : list Sc) (tc s cnt lo hi : nat) : option (list op) :=
  match cnt with
  | O => Some []
  | S cnt' =>
      match nth_error tw ((s + 1) * tc) with
      | None => None
      | Some w => bindo (level tw tc (s + 1) cnt' (S lo) (S hi)) (fun l => Some (bfly w lo hi ++ l))
      end
  end.
Fixpoint rec_prog (fuel lo n tc : nat) (tw : list Sc) : option prog :=
  match fuel with
  | O => None
  | S fuel' =>
      if Nat.eqb n 2 then Some (PRun (bfly0 lo (lo + 1)))
      else
        bindo (rec_prog fuel' lo (n / 2) (tc * 2) tw) (fun p =>
        bindo (rec_prog fuel' (lo + n / 2) (n / 2) (tc * 2) tw) (fun q =>
        bindo (level tw tc 0 (n / 2 - 1) (S lo) (S (lo + n / 2))) (fun l =>
        Some (PSeq (PPar p q) (PRun (bfly0 lo (lo + n / 2) ++ l))))))
  end.

(** *** Facts *)
Definition idx (x : op) : list nat :=
  match x with OLoad j | OScale j _ | OSub j => [j] | OCopy i j | OAdd i j => [i; j] end.
Definition within (lo n : nat) (l : list op) : Prop := Forall (fun x => Forall (fun i => lo <= i < lo + n) (idx x)) l.
Definition agree (S : nat -> Prop) (m m' : mem) : Prop := forall i, S i -> m i = m' i.
Lemma upd_same m j x : upd m j x j = x.
Proof. unfold upd. rewrite Nat.eqb_refl. reflexivity. Qed.
Lemma upd_other m j x k : k <> j -> upd m j x k = m k.
Proof. intros N. unfold upd. destruct (Nat.eqb_spec k j); [lia|reflexivity]. Qed.

Lemma step_frame lo n m x i : Forall (fun i => lo <= i < lo + n) (idx x) -> ~ (lo <= i < lo + n) -> step m x i = m i.
Proof.
  intros F N. destruct x; cbn [step idx] in *; repeat match goal with H : Forall _ (_ :: _) |- _ => inversion H; clear H; subst end;
    apply upd_other; lia.
Qed.
Lemma step_local lo n m m' x : Forall (fun i => lo <= i < lo + n) (idx x) ->
  agree (fun i => lo <= i < lo + n) m m' -> agree (fun i => lo <= i < lo + n) (step m x) (step m' x).
Proof.
  intros F A i Hi. destruct x; cbn [step idx] in *; repeat match goal with H : Forall _ (_ :: _) |- _ => inversion H; clear H; subst end;
    unfold upd; repeat rewrite A by lia; reflexivity.
Qed.
Lemma exec_frame lo n l : forall m i, within lo n l -> ~ (lo <= i < lo + n) -> exec m l i = m i.
Proof.
  induction l as [|x l IH]; intros m i W N; [reflexivity|]. inversion W; subst. cbn [exec fold_left].
  fold (exec (step m x) l). rewrite IH by auto. apply (step_frame lo n); auto.
Qed.
Lemma exec_local lo n l : forall m m', within lo n l ->
  agree (fun i => lo <= i < lo + n) m m' -> agree (fun i => lo <= i < lo + n) (exec m l) (exec m' l).
Proof.
  induction l as [|x l IH]; intros m m' W A; [exact A|]. inversion W; subst. cbn [exec fold_left]. apply IH; auto.
  apply (step_local lo n); auto.
Qed.
Lemma exec_app m l l' : exec m (l ++ l') = exec (exec m l) l'.
Proof. apply fold_left_app. Qed.

(** Interleaving two runs over disjoint ranges gives each range the value of
    its own run. *)
Lemma il_exec lo n lo' n' l1 l2 l : lo + n <= lo' -> interleaving l1 l2 l -> within lo n l1 -> within lo' n' l2 ->
  forall m m1 m2, agree (fun i => lo <= i < lo + n) m m1 -> agree (fun i => lo' <= i < lo' + n') m m2 ->
  agree (fun i => lo <= i < lo + n) (exec m l) (exec m1 l1) /\
  agree (fun i => lo' <= i < lo' + n') (exec m l) (exec m2 l2).
Proof.
  intros D I. induction I as [|x l1 l2 l I IH|x l1 l2 l I IH]; intros W1 W2 m m1 m2 A1 A2.
  - split; assumption.
  - inversion W1 as [|? ? Hx W1']; subst. cbn [exec fold_left]. apply IH; auto.
    + apply (step_local lo n); auto.
    + intros i Hi. rewrite (step_frame lo n) by (auto; lia). auto.
  - inversion W2 as [|? ? Hx W2']; subst. cbn [exec fold_left]. apply IH; auto.
    + intros i Hi. rewrite (step_frame lo' n') by (auto; lia). auto.
    + apply (step_local lo' n'); auto.
Qed.
Lemma il_within lo n l1 l2 l : interleaving l1 l2 l -> within lo n l1 -> within lo n l2 -> within lo n l.
Proof.
  intros I. induction I; intros W1 W2; auto.
  - inversion W1; subst. constructor; auto. apply IHI; auto.
  - inversion W2; subst. constructor; auto. apply IHI; auto.
Qed.
Lemma within_weak lo n lo' n' l : lo' <= lo -> lo + n <= lo' + n' -> within lo n l -> within lo' n' l.
Proof.
  intros A B W. eapply Forall_impl; [|exact W]. intros x F. eapply Forall_impl; [|exact F]. cbn. intros; lia.
Qed.
Lemma within_app lo n l l' : within lo n l -> within lo n l' -> within lo n (l ++ l').
Proof. intros A B. apply Forall_app; split; assumption. Qed.

(** [vals m lo n] is the content of the slice [a[lo..lo+n]]. *)
Definition vals (m : mem) (lo n : nat) : list G := map (fun i => fst (m i)) (seq lo n).
Lemma vals_agree m m' lo n : agree (fun i => lo <= i < lo + n) m m' -> vals m lo n = vals m' lo n.
Proof. intros A. apply map_ext_in. intros i Hi. apply in_seq in Hi. rewrite A by lia. reflexivity. Qed.
Lemma vals_app m lo n n' : vals m lo (n + n') = vals m lo n ++ vals m (lo + n) n'.
Proof. unfold vals. rewrite seq_app, map_app. reflexivity. Qed.
Lemma vals_length m lo n : length (vals m lo n) = n.
Proof. unfold vals. rewrite map_length, seq_length. reflexivity. Qed.

Ltac mem_simpl := repeat (rewrite upd_same || rewrite upd_other by lia); cbn [fst snd].
Lemma bfly_vals w i j m : i <> j ->
  fst (exec m (bfly w i j) i) = tadd o (fst (m i)) (tscale o (fst (m j)) w) /\
  fst (exec m (bfly w i j) j) = tsub o (fst (m i)) (tscale o (fst (m j)) w) /\
  forall k, k <> i -> k <> j -> exec m (bfly w i j) k = m k.
Proof.
  intros N. cbn [exec bfly fold_left step]. refine (conj _ (conj _ _)).
  - rewrite (upd_other _ j _ i) by lia. rewrite upd_same. cbn [fst]. mem_simpl. reflexivity.
  - rewrite upd_same. cbn [fst]. mem_simpl. reflexivity.
  - intros k A B. rewrite !upd_other by assumption. reflexivity.
Qed.
Lemma bfly0_vals i j m : i <> j ->
  fst (exec m (bfly0 i j) i) = tadd o (fst (m i)) (fst (m j)) /\
  fst (exec m (bfly0 i j) j) = tsub o (fst (m i)) (fst (m j)) /\
  forall k, k <> i -> k <> j -> exec m (bfly0 i j) k = m k.
Proof.
  intros N. cbn [exec bfly0 fold_left step]. refine (conj _ (conj _ _)).
  - rewrite (upd_other _ j _ i) by lia. rewrite upd_same. cbn [fst]. mem_simpl. reflexivity.
  - rewrite upd_same. cbn [fst]. mem_simpl. reflexivity.
  - intros k A B. rewrite !upd_other by assumption. reflexivity.
Qed.
Lemma bfly_within w i j lo n : lo <= i < lo + n -> lo <= j < lo + n -> within lo n (bfly w i j).
Proof. intros A B. unfold within, bfly. repeat constructor; cbn [idx]; lia. Qed.
Lemma bfly0_within i j lo n : lo <= i < lo + n -> lo <= j < lo + n -> within lo n (bfly0 i j).
Proof. intros A B. unfold within, bfly0. repeat constructor; cbn [idx]; lia. Qed.

Lemma level_spec tw tc : forall cnt s lo hi m l r, lo + cnt <= hi ->
  zip_butterfly o tw tc s (vals m lo cnt) (vals m hi cnt) = Some (l, r) ->
  exists ops, level tw tc s cnt lo hi = Some ops /\
    (forall a n, a <= lo -> hi + cnt <= a + n -> within a n ops) /\
    vals (exec m ops) lo cnt = l /\ vals (exec m ops) hi cnt = r /\
    (forall k, ~ (lo <= k < lo + cnt) -> ~ (hi <= k < hi + cnt) -> exec m ops k = m k).
Proof.
  induction cnt as [|cnt IH]; intros s lo hi m l r D E.
  - cbn in E. injection E as <- <-. exists []. cbn. repeat split; auto. intros; constructor.
  - cbn [vals seq map zip_butterfly] in E. cbn [level].
    destruct (nth_error tw ((s + 1) * tc)) as [w|]; [|discriminate]. fold (vals m (S lo) cnt) (vals m (S hi) cnt) in E.
    destruct (zip_butterfly o tw tc (s + 1) _ _) as [[l' r']|] eqn:E'; [|discriminate]. injection E as <- <-.
    set (m' := exec m (bfly w lo hi)).
    destruct (bfly_vals w lo hi m ltac:(lia)) as (V1 & V2 & V3).
    replace (vals m (S lo) cnt) with (vals m' (S lo) cnt) in E' by (apply vals_agree; intros k Hk; apply V3; lia).
    replace (vals m (S hi) cnt) with (vals m' (S hi) cnt) in E' by (apply vals_agree; intros k Hk; apply V3; lia).
    destruct (IH (s + 1) (S lo) (S hi) m' l' r' ltac:(lia) E') as (ops & -> & Hw & <- & <- & Hf).
    exists (bfly w lo hi ++ ops). cbn [bindo]. split; [reflexivity|]. split; [|split; [|split]].
    + intros a n A B. apply within_app; [apply bfly_within; lia|apply Hw; lia].
    + rewrite exec_app. fold m'. unfold vals. cbn [seq map]. f_equal. rewrite Hf by lia. exact V1.
    + rewrite exec_app. fold m'. unfold vals. cbn [seq map]. f_equal. rewrite Hf by lia. exact V2.
    + intros k A B. rewrite exec_app. fold m'. rewrite Hf by lia. apply V3; lia.
Qed.

Lemma butterfly_level tw tc half lo m r : 0 < half ->
  butterfly o tw tc half (vals m lo (half + half)) = Some r ->
  exists ops, level tw tc 0 (half - 1) (S lo) (S (lo + half)) = Some ops /\
    within lo (half + half) (bfly0 lo (lo + half) ++ ops) /\
    vals (exec m (bfly0 lo (lo + half) ++ ops)) lo (half + half) = r.
Proof.
  intros Hh. unfold butterfly. rewrite vals_length. destruct (Nat.ltb_spec (half + half) half); [lia|].
  rewrite vals_app. rewrite firstn_app, skipn_app, vals_length, Nat.sub_diag.
  rewrite firstn_all2, skipn_all2 by (rewrite vals_length; lia). cbn [firstn skipn app]. rewrite app_nil_r.
  destruct half as [|h]; [lia|]. cbn [vals seq map]. fold (vals m (S lo) h) (vals m (S (lo + S h)) h).
  destruct (zip_butterfly o tw tc 0 (vals m (S lo) h) (vals m (S (lo + S h)) h)) as [[l r']|] eqn:E; [|discriminate]. intros [= <-].
  replace (S h - 1) with h by lia.
  destruct (bfly0_vals lo (lo + S h) m ltac:(lia)) as (V1 & V2 & V3).
  set (m' := exec m (bfly0 lo (lo + S h))) in *.
  replace (vals m (S lo) h) with (vals m' (S lo) h) in E by (apply vals_agree; intros k Hk; apply V3; lia).
  replace (vals m (S (lo + S h)) h) with (vals m' (S (lo + S h)) h) in E by (apply vals_agree; intros k Hk; apply V3; lia).
  destruct (level_spec tw tc h 0 (S lo) (S (lo + S h)) m' l r' ltac:(lia) E) as (ops & -> & Hw & <- & <- & Hf).
  exists ops. split; [reflexivity|]. split.
  - apply within_app; [apply bfly0_within; lia|apply Hw; lia].
  - rewrite exec_app. fold m'. rewrite vals_app. unfold vals at 1 2. cbn [seq map].
    rewrite !Hf by lia. rewrite V1, V2. reflexivity.
Qed.

Theorem rec_prog_spec tw : forall k fuel lo tc m r,
  recursive_butterfly o fuel (vals m lo (2 ^ S k)) (2 ^ S k) tc tw = Some r ->
  exists p, rec_prog fuel lo (2 ^ S k) tc tw = Some p /\
    (forall l, trace p l -> within lo (2 ^ S k) l) /\
    (forall l, trace p l -> vals (exec m l) lo (2 ^ S k) = r).
Proof.
  induction k as [|k IH]; intros fuel lo tc m r E; destruct fuel as [|fuel]; try discriminate.
  - cbn in E. injection E as <-. exists (PRun (bfly0 lo (lo + 1))). cbn [rec_prog Nat.pow Nat.mul Nat.add Nat.eqb]. split; [reflexivity|].
    destruct (bfly0_vals lo (lo + 1) m ltac:(lia)) as (V1 & V2 & V3). split.
    + intros l ->. apply bfly0_within; lia.
    + intros l ->. unfold vals. cbn [seq map]. rewrite V1. replace (S lo) with (lo + 1) by lia. rewrite V2. reflexivity.
  - cbn [recursive_butterfly rec_prog] in *.
    assert (P : 2 ^ S (S k) / 2 = 2 ^ S k). { rewrite (Nat.pow_succ_r' 2 (S k)), Nat.mul_comm. apply Nat.div_mul. lia. }
    assert (P2 : 2 ^ S (S k) = 2 ^ S k + 2 ^ S k) by (rewrite (Nat.pow_succ_r' 2 (S k)); lia).
    assert (P3 : 2 <= 2 ^ S k) by (rewrite Nat.pow_succ_r'; pose proof (Nat.pow_nonzero 2 k); lia).
    rewrite P in *. rewrite P2 in *. set (h := 2 ^ S k) in *.
    destruct (Nat.eqb_spec (h + h) 2); [lia|]. rewrite vals_length in E. destruct (Nat.ltb_spec (h + h) h); [lia|].
    rewrite vals_app, firstn_app, skipn_app, vals_length, Nat.sub_diag in E.
    rewrite firstn_all2, skipn_all2 in E by (rewrite vals_length; lia). cbn [firstn skipn app] in E. rewrite app_nil_r in E.
    destruct (recursive_butterfly o fuel (vals m lo h) h (tc * 2) tw) as [a|] eqn:Ea; [|discriminate].
    destruct (recursive_butterfly o fuel (vals m (lo + h) h) h (tc * 2) tw) as [b|] eqn:Eb; [|discriminate].
    cbn [bindo] in E.
    destruct (IH _ _ _ _ _ Ea) as (p & -> & Wp & Vp). destruct (IH _ _ _ _ _ Eb) as (q & -> & Wq & Vq). cbn [bindo].
    assert (Par : forall l1 l2 l, trace p l1 -> trace q l2 -> interleaving l1 l2 l -> vals (exec m l) lo (h + h) = a ++ b).
    { intros l1 l2 l T1 T2 I. destruct (il_exec lo h (lo + h) h l1 l2 l ltac:(lia) I (Wp _ T1) (Wq _ T2) m m m) as [A1 A2];
        try (intros i _; reflexivity).
      rewrite vals_app, (vals_agree _ _ _ _ A1), (vals_agree _ _ _ _ A2), (Vp _ T1), (Vq _ T2). reflexivity. }
    assert (Ha : exists l1, trace p l1). { clear. induction p as [l|p [l1 H1] q [l2 H2]|p [l1 H1] q [l2 H2]].
      - exists l. reflexivity.
      - exists (l1 ++ l2), l1, l2. auto.
      - exists (l1 ++ l2), l1, l2. repeat split; auto. clear. induction l1 as [|x l1 J]; [induction l2 as [|x l2 J]|]; cbn; constructor; auto. }
    destruct Ha as [la Ta]. pose proof (Vp _ Ta) as La. apply (f_equal (@length G)) in La. rewrite vals_length in La. rewrite <- La in E.
    assert (LV : exists ops, level tw tc 0 (h - 1) (S lo) (S (lo + h)) = Some ops).
    { destruct (butterfly o tw tc h (a ++ b)) as [r'|] eqn:EB; [|discriminate].
      assert (Hq : exists l1, trace q l1). { clear. induction q as [l|p [l1 H1] q [l2 H2]|p [l1 H1] q [l2 H2]].
        - exists l. reflexivity.
        - exists (l1 ++ l2), l1, l2. auto.
        - exists (l1 ++ l2), l1, l2. repeat split; auto. clear. induction l1 as [|x l1 J]; [induction l2 as [|x l2 J]|]; cbn; constructor; auto. }
      destruct Hq as [lb Tb].
      assert (I : interleaving la lb (la ++ lb)). { clear. induction la as [|x l1 J]; [induction lb as [|x l2 J]|]; cbn; constructor; auto. }
      rewrite <- (Par _ _ _ Ta Tb I) in EB. destruct (butterfly_level _ _ h _ _ _ ltac:(lia) EB) as (ops & Hops & _). exists ops. exact Hops. }
    destruct LV as [ops HL]. rewrite HL. cbn [bindo].
    eexists; split; [reflexivity|].
    assert (Tail : forall l, trace (PSeq (PPar p q) (PRun (bfly0 lo (lo + h) ++ ops))) l ->
      within lo (h + h) l /\ vals (exec m l) lo (h + h) = r).
    { intros l (l1 & l2 & (x1 & x2 & T1 & T2 & I) & T3 & ->). cbn in T3. subst l2.
      rewrite exec_app. pose proof (Par _ _ _ T1 T2 I) as PV. rewrite <- PV in E.
      destruct (butterfly_level _ _ h _ _ _ ltac:(lia) E) as (ops' & Hops & Hw & Hv). rewrite HL in Hops. injection Hops as <-.
      split; [|exact Hv]. apply within_app; [|exact Hw].
      apply (il_within lo (h + h) _ _ _ I).
      - apply (within_weak lo h); [lia|lia|]. apply Wp. exact T1.
      - apply (within_weak (lo + h) h); [lia|lia|]. apply Wq. exact T2. }
    split; intros l T; apply (Tail l T).
Qed.
End Sched.
