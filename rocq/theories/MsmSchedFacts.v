(** Facts about the pool of tasks of MsmSched.v. *)
From Verif Require Import Base Algebra Word Limbs Bytes Field Curve Fft FftFacts Msm MsmSched.

Section PoolFacts.
Context {L A : Type} (next : L -> A -> option (L * A)).
Notation config := (@config L A). Notation pool_step := (pool_step next). Notation pool_run := (pool_run next).
Notation pool_done := (pool_done next). Notation solo := (solo next).

Definition good (c : config) : Prop := NoDup (map fst (fst c)) /\ Forall (fun t => fst t < length (snd c))%nat (fst c).
Lemma map_fst_set (ts : list (nat * L)) i k l l' : nth_error ts i = Some (k, l) -> map fst (set_nth ts i (k, l')) = map fst ts.
Proof.
  revert i. induction ts as [|t ts IH]; intros [|i] E; cbn in *; try discriminate.
  - injection E as ->. reflexivity.
  - f_equal. exact (IH i E).
Qed.
Lemma nodup_slots (ts : list (nat * L)) i j k l l' : NoDup (map fst ts) -> nth_error ts i = Some (k, l) -> nth_error ts j = Some (k, l') -> i = j.
Proof.
  intros N Ei Ej. apply (proj1 (NoDup_nth_error _) N).
  - rewrite map_length. apply nth_error_Some. rewrite Ei. discriminate.
  - rewrite (map_nth_error fst _ _ Ei), (map_nth_error fst _ _ Ej). reflexivity.
Qed.
Lemma step_good c c' : pool_step c c' -> good c -> good c' /\ map fst (fst c') = map fst (fst c) /\ length (snd c') = length (snd c).
Proof.
  intros [i k l a l' a' ts mem Et Em En] [N B]. cbn [fst snd] in *.
  pose proof (map_fst_set ts i k l l' Et) as M. split; [|split; [exact M|apply set_nth_length]].
  split; cbn [fst snd]; [rewrite M; exact N|]. rewrite set_nth_length.
  apply Forall_forall. intros t Ht. apply (in_map fst) in Ht. rewrite M in Ht. apply in_map_iff in Ht as (t' & <- & Ht).
  rewrite Forall_forall in B. exact (B t' Ht).
Qed.

(** Every task has gone through steps of its own, and nothing else has happened to its cell. *)
Theorem run_solo c c' : pool_run c c' -> good c ->
  good c' /\ map fst (fst c') = map fst (fst c) /\ length (snd c') = length (snd c) /\
  (forall i k l a, nth_error (fst c) i = Some (k, l) -> nth_error (snd c) k = Some a ->
     exists l' a', nth_error (fst c') i = Some (k, l') /\ nth_error (snd c') k = Some a' /\ solo l a l' a') /\
  (forall k, ~ In k (map fst (fst c)) -> nth_error (snd c') k = nth_error (snd c) k).
Proof.
  intros R. induction R as [c|c c1 c2 St R IH]; intros G.
  - split; [exact G|]. split; [reflexivity|]. split; [reflexivity|]. split; [|auto]. intros i k l a Ei Ek. exists l, a. repeat split; auto. constructor.
  - destruct (step_good _ _ St G) as (G1 & M1 & L1). destruct (IH G1) as (G2 & M2 & L2 & T & U).
    split; [exact G2|]. split; [congruence|]. split; [congruence|]. destruct St as [i k l a l' a' ts mem Et Em En]. cbn [fst snd] in *. split.
    + intros j kj lj aj Ej Ekj. destruct (Nat.eq_dec i j) as [<-|D].
      * rewrite Et in Ej. injection Ej as <- <-. rewrite Em in Ekj. injection Ekj as <-.
        destruct (T i k l' a') as (l2 & a2 & X1 & X2 & X3).
        -- rewrite set_nth_nth, Nat.eqb_refl, Et. reflexivity.
        -- rewrite set_nth_nth, Nat.eqb_refl, Em. reflexivity.
        -- exists l2, a2. repeat split; auto. econstructor; eauto.
      * assert (kj <> k) as Dk by (intros ->; apply D; eapply nodup_slots; [apply G|exact Et|exact Ej]).
        apply T.
        -- rewrite set_nth_nth. destruct (Nat.eqb_spec i j); [contradiction|exact Ej].
        -- rewrite set_nth_nth. destruct (Nat.eqb_spec k kj); [congruence|exact Ekj].
    + intros kk Hk. rewrite U by (rewrite M1; exact Hk). rewrite set_nth_nth. destruct (Nat.eqb_spec k kk) as [<-|]; [|reflexivity].
      exfalso. apply Hk. apply in_map_iff. exists (k, l). split; [reflexivity|]. exact (nth_error_In _ _ Et).
Qed.

Lemma solo_det l a l1 a1 l2 a2 : solo l a l1 a1 -> next l1 a1 = None -> solo l a l2 a2 -> next l2 a2 = None -> l1 = l2 /\ a1 = a2.
Proof.
  intros S1. induction S1 as [l a|l a l' a' l1 a1 E S1 IH]; intros N1 S2 N2.
  - destruct S2 as [|? ? ? ? ? ? E2 S2]; [auto|congruence].
  - destruct S2 as [|? ? ? ? ? ? E2 S2]; [congruence|]. rewrite E in E2. injection E2 as <- <-. auto.
Qed.
Lemma solo_trans l a l1 a1 l2 a2 : solo l a l1 a1 -> solo l1 a1 l2 a2 -> solo l a l2 a2.
Proof. intros S1 S2. induction S1; [exact S2|econstructor; eauto]. Qed.
Lemma solo_one l a l1 a1 : next l a = Some (l1, a1) -> solo l a l1 a1.
Proof. intros E. econstructor; [exact E|constructor]. Qed.

Lemma done_next ts mem : good (ts, mem) -> (pool_done (ts, mem) <->
  forall i k l a, nth_error ts i = Some (k, l) -> nth_error mem k = Some a -> next l a = None).
Proof.
  intros G. split.
  - intros D i k l a Ei Ek. destruct (next l a) as [[l' a']|] eqn:E; [|reflexivity]. exfalso. apply (D (set_nth ts i (k, l'), set_nth mem k a')).
    econstructor; eauto.
  - intros H c' St. inversion St as [i k l a l' a' ts' mem' Et Em En]; subst. rewrite (H i k l a Et Em) in En. discriminate.
Qed.

(** [ends l a l' a']: alone, the task ends like this. *)
Definition ends (l : L) (a : A) (l' : L) (a' : A) : Prop := solo l a l' a' /\ next l' a' = None.
Theorem done_ends ts mem ts' mem' : good (ts, mem) -> pool_run (ts, mem) (ts', mem') -> pool_done (ts', mem') ->
  forall i k l a l1 a1, nth_error ts i = Some (k, l) -> nth_error mem k = Some a -> ends l a l1 a1 ->
  nth_error ts' i = Some (k, l1) /\ nth_error mem' k = Some a1.
Proof.
  intros G R D i k l a l1 a1 Ei Ek [S1 N1]. destruct (run_solo _ _ R G) as (G' & _ & _ & T & _). cbn [fst snd] in T.
  destruct (T i k l a Ei Ek) as (l2 & a2 & X1 & X2 & X3).
  destruct (solo_det _ _ _ _ _ _ S1 N1 X3 (proj1 (done_next _ _ G') D _ _ _ _ X1 X2)) as [-> ->]. auto.
Qed.

(** Termination: the tasks together make as many steps as alone. *)
Fixpoint halts (n : nat) (l : L) (a : A) : Prop :=
  match n with O => next l a = None | S n' => exists l' a', next l a = Some (l', a') /\ halts n' l' a' end.
Lemma ends_halts l a l' a' : ends l a l' a' -> exists n, halts n l a.
Proof.
  intros [S1 N]. induction S1 as [l a|l a l1 a1 l2 a2 E S1 IH]; [exists O; exact N|].
  destruct (IH N) as [n Hn]. exists (S n). cbn. eauto.
Qed.
Definition counts (ts : list (nat * L)) (mem : list A) (ns : list nat) : Prop :=
  length ns = length ts /\ forall i k l, nth_error ts i = Some (k, l) -> exists a n, nth_error mem k = Some a /\ nth_error ns i = Some n /\ halts n l a.
Lemma list_sum_set ns : forall i n m, nth_error ns i = Some n -> (list_sum (set_nth ns i m) + n = list_sum ns + m)%nat.
Proof.
  induction ns as [|x ns IH]; intros [|i] n m E; cbn [nth_error set_nth list_sum fold_right] in *; try discriminate.
  - injection E as ->. lia.
  - specialize (IH i n m E). unfold list_sum in IH. lia.
Qed.
Lemma counts_step ts mem c' ns : good (ts, mem) -> counts ts mem ns -> pool_step (ts, mem) c' ->
  exists ns', counts (fst c') (snd c') ns' /\ (S (list_sum ns') = list_sum ns)%nat.
Proof.
  intros G [Ln H] St. inversion St as [i k l a l' a' ts' mem' Et Em En]; subst. cbn [fst snd].
  destruct (H i k l Et) as (a0 & n & Ea & Ens & Hn). rewrite Em in Ea. injection Ea as <-.
  destruct n as [|n]; [cbn in Hn; congruence|]. destruct Hn as (l2 & a2 & E2 & Hn). rewrite En in E2. injection E2 as <- <-.
  exists (set_nth ns i n). split; [|pose proof (list_sum_set ns i (S n) n Ens); lia].
  split; [rewrite !set_nth_length; exact Ln|]. intros j kj lj Ej. rewrite set_nth_nth in Ej. destruct (Nat.eqb_spec i j) as [<-|D].
  - rewrite Et in Ej. injection Ej as <- <-. exists a', n. rewrite !set_nth_nth, !Nat.eqb_refl, Em, Ens. auto.
  - destruct (H j kj lj Ej) as (aj & nj & E1 & E2 & E3). exists aj, nj. rewrite !set_nth_nth.
    destruct (Nat.eqb_spec k kj) as [->|]; [exfalso; apply D; eapply nodup_slots; [apply G|exact Et|exact Ej]|].
    destruct (Nat.eqb_spec i j); [contradiction|]. auto.
Qed.
(** No infinite run, and a complete run exists. *)
Theorem pool_total ts mem : good (ts, mem) ->
  (forall i k l a, nth_error ts i = Some (k, l) -> nth_error mem k = Some a -> exists l' a', ends l a l' a') ->
  Acc (fun c' c => pool_step c c') (ts, mem) /\ exists ts' mem', pool_run (ts, mem) (ts', mem') /\ pool_done (ts', mem').
Proof.
  intros G H.
  assert (C : exists ns, counts ts mem ns).
  { destruct G as [_ B]. cbn [fst snd] in B. clear - H B. induction ts as [|[k l] ts IH].
    - exists []. split; [reflexivity|]. intros [|i] k l E; discriminate.
    - inversion B as [|? ? B1 B2]; subst. destruct IH as [ns [Ln Hn]]; [exact B2|intros i; exact (H (S i))|].
      cbn [fst] in B1. destruct (nth_error mem k) as [a|] eqn:Ek; [|apply nth_error_None in Ek; lia].
      destruct (H O k l a eq_refl Ek) as (l' & a' & E). destruct (ends_halts _ _ _ _ E) as [n Hh].
      exists (n :: ns). split; [cbn; lia|]. intros [|i] kj lj Ej; [injection Ej as <- <-; exists a, n; auto|exact (Hn i kj lj Ej)]. }
  destruct C as [ns C]. remember (list_sum ns) as N eqn:EN.
  revert ts mem ns G C EN H. induction N as [N IH] using lt_wf_ind. intros ts mem ns G C EN _. split.
  - constructor. intros [ts' mem'] St. destruct (counts_step _ _ _ _ G C St) as (ns' & C' & Es).
    destruct (step_good _ _ St G) as (G' & _). apply (IH (list_sum ns') ltac:(lia) ts' mem' ns' G' C' eq_refl).
    intros i k l a Ei Ek. destruct (proj2 C' i k l Ei) as (a' & n & E1 & E2 & E3). cbn [snd] in E1. rewrite Ek in E1. injection E1 as <-.
    clear - E3. revert l a E3. induction n as [|n IHn]; intros l a Hh; [exists l, a; split; [constructor|exact Hh]|].
    destruct Hh as (l1 & a1 & E & Hh). destruct (IHn _ _ Hh) as (l2 & a2 & S2 & N2). exists l2, a2. split; [econstructor; eauto|exact N2].
  - assert (X : pool_done (ts, mem) \/ exists c', pool_step (ts, mem) c').
    { destruct (list_sum ns) as [|n] eqn:Es.
      - left. intros c' St. destruct (counts_step _ _ _ _ G C St) as (ns' & _ & E'). lia.
      - right. destruct C as [Ln C]. assert (Y : exists i m, nth_error ns i = Some (S m)).
        { clear - Es. revert n Es. induction ns as [|x ns IHns]; intros n Es; [discriminate|]. destruct x as [|x]; [|exists O, x; reflexivity].
          destruct (IHns n Es) as (i & m & E). exists (S i), m. exact E. }
        destruct Y as (i & m & Ei). destruct (nth_error ts i) as [[k l]|] eqn:Et.
        2:{ apply nth_error_None in Et. rewrite <- Ln in Et. apply nth_error_None in Et. congruence. }
        destruct (C i k l Et) as (a & n' & E1 & E2 & E3). rewrite Ei in E2. injection E2 as <-. destruct E3 as (l' & a' & E3 & _).
        eexists. econstructor; eauto. }
    destruct X as [D|[[ts1 mem1] St]]; [exists ts, mem; split; [constructor|exact D]|].
    destruct (counts_step _ _ _ _ G C St) as (ns' & C' & Es). destruct (step_good _ _ St G) as (G' & _).
    destruct (IH (list_sum ns') ltac:(lia) ts1 mem1 ns' G' C' eq_refl) as (_ & ts2 & mem2 & R & D).
    + intros i k l a Ei Ek. destruct (proj2 C' i k l Ei) as (a' & n & E1 & E2 & E3). cbn [snd] in E1. rewrite Ek in E1. injection E1 as <-.
      clear - E3. revert l a E3. induction n as [|n IHn]; intros l a Hh; [exists l, a; split; [constructor|exact Hh]|].
      destruct Hh as (l1 & a1 & E & Hh). destruct (IHn _ _ Hh) as (l2 & a2 & S2 & N2). exists l2, a2. split; [econstructor; eauto|exact N2].
    + exists ts2, mem2. split; [econstructor; eauto|exact D].
Qed.

(** ** The outcome *)
Lemma sequence_none (l : list (option A)) : sequence l = None <-> In None l.
Proof.
  induction l as [|[x|] l IH]; cbn; [split; [discriminate|tauto]| |tauto].
  fold (sequence l). destruct (sequence l) as [r|]; cbn.
  - split; [discriminate|]. intros [E|E]; [discriminate|]. apply IH in E. discriminate.
  - split; [intros _; right; apply IH; reflexivity|reflexivity].
Qed.
Lemma sequence_some (l : list (option A)) r : sequence l = Some r -> l = map Some r.
Proof.
  revert r. induction l as [|[x|] l IH]; intros r; cbn; [intros E; injection E as <-; reflexivity| |discriminate].
  fold (sequence l). destruct (sequence l) as [r'|]; cbn; [|discriminate]. intros E. injection E as <-. cbn. f_equal. auto.
Qed.
Lemma seq_nth_error n : forall s k, (k < n)%nat -> nth_error (seq s n) k = Some (s + k)%nat.
Proof.
  induction n as [|n IH]; intros s [|k] Hk; cbn [seq nth_error]; try lia; [f_equal; lia|]. rewrite IH by lia. f_equal. lia.
Qed.
Section Outcome.
Context (panics : L -> bool) (ret pan : L) (res : nat -> option A) (ts : list (nat * L)) (mem : list A).
Context (G : good (ts, mem)) (Pr : panics ret = false) (Pp : panics pan = true).
Context (Np : forall l a, panics l = true -> next l a = None).
Context (Cov : forall k, (k < length mem)%nat -> In k (map fst ts)).
Context (Res : forall i k l a, nth_error ts i = Some (k, l) -> nth_error mem k = Some a ->
  match res k with Some r => ends l a ret r | None => exists a', ends l a pan a' end).
Lemma slot_cell k l i : nth_error ts i = Some (k, l) -> exists a, nth_error mem k = Some a.
Proof using G.
  clear - G.  intros E. destruct G as [_ B]. rewrite Forall_forall in B. specialize (B _ (nth_error_In _ _ E)). cbn [fst snd] in B.
  destruct (nth_error mem k) as [a|] eqn:Ek; [eauto|]. apply nth_error_None in Ek. lia.
Qed.
Theorem outcome_unique ts' mem' r : pool_run (ts, mem) (ts', mem') -> pool_outcome next panics (ts', mem') r ->
  r = sequence (map res (seq 0 (length mem))).
Proof using All.
  intros R O. destruct (run_solo _ _ R G) as (G' & M & Lm & T & _). cbn [fst snd] in M, Lm, T.
  assert (Back : forall i k l', nth_error ts' i = Some (k, l') -> exists l a a', nth_error ts i = Some (k, l) /\ nth_error mem k = Some a /\ nth_error mem' k = Some a' /\ solo l a l' a').
  { intros i k l' E. assert (X : nth_error (map fst ts) i = Some k) by (rewrite <- M; exact (map_nth_error fst _ _ E)).
    destruct (nth_error ts i) as [[k0 l]|] eqn:Et.
    2:{ apply nth_error_None in Et. rewrite <- (map_length fst) in Et. apply nth_error_None in Et. congruence. }
    rewrite (map_nth_error fst _ _ Et) in X. injection X as ->. destruct (slot_cell _ _ _ Et) as [a Ea].
    destruct (T i k l a Et Ea) as (l2 & a2 & X1 & X2 & X3). rewrite E in X1. injection X1 as <-. exists l, a, a2. auto. }
  inversion O as [ts0 mem0 Ex|ts0 mem0 Ex D]; subst.
  - symmetry. apply sequence_none. apply existsb_exists in Ex as ([k l'] & In' & Hp). cbn [snd] in Hp.
    apply In_nth_error in In' as [i E]. destruct (Back i k l' E) as (l & a & a' & E1 & E2 & E3 & E4).
    specialize (Res i k l a E1 E2). apply in_map_iff. exists k. split.
    + destruct (res k) as [r|]; [|reflexivity]. destruct Res as [S1 N1]. destruct (solo_det _ _ _ _ _ _ S1 N1 E4 (Np _ _ Hp)) as [<- _]. congruence.
    + apply in_seq. split; [lia|]. apply nth_error_Some. rewrite E2. discriminate.
  - assert (Y : forall k, (k < length mem)%nat -> nth_error mem' k = res k /\ res k <> None).
    { intros k Hk. specialize (Cov k Hk). apply in_map_iff in Cov as ([k0 l] & E0 & In0). cbn in E0. subst k0.
      apply In_nth_error in In0 as [i E]. destruct (slot_cell _ _ _ E) as [a Ea]. specialize (Res i k l a E Ea).
      destruct (res k) as [r|].
      - split; [|discriminate]. exact (proj2 (done_ends _ _ _ _ G R D i k l a _ _ E Ea Res)).
      - destruct Res as [a' X]. destruct (done_ends _ _ _ _ G R D i k l a _ _ E Ea X) as [X1 _].
        exfalso. assert (existsb (fun t => panics (snd t)) ts' = true); [|congruence].
        apply existsb_exists. exists (k, pan). split; [exact (nth_error_In _ _ X1)|exact Pp]. }
    destruct (sequence (map res (seq 0 (length mem)))) as [rs|] eqn:Es.
    + f_equal. apply sequence_some in Es. apply nth_error_ext. intros k.
      assert (Ls : length rs = length mem) by (apply (f_equal (@length _)) in Es; rewrite !map_length, seq_length in Es; auto).
      destruct (Nat.lt_ge_cases k (length mem)) as [Hk|Hk].
      * destruct (Y k Hk) as [Y1 Y2]. rewrite Y1.
        assert (Z1 : nth_error (map res (seq 0 (length mem))) k = Some (res k)).
        { apply (map_nth_error res). apply seq_nth_error. exact Hk. }
        rewrite Es in Z1. destruct (nth_error rs k) as [x|] eqn:Ek; [rewrite (map_nth_error Some _ _ Ek) in Z1; congruence|].
        apply nth_error_None in Ek. lia.
      * rewrite (proj2 (nth_error_None _ _)), (proj2 (nth_error_None _ _)) by lia. reflexivity.
    + apply sequence_none in Es. apply in_map_iff in Es as (k & E & Hk). apply in_seq in Hk. destruct (Y k ltac:(lia)) as [_ Y2]. contradiction.
Qed.
Theorem outcome_exists : exists ts' mem' r, pool_run (ts, mem) (ts', mem') /\ pool_outcome next panics (ts', mem') r.
Proof using All.
  destruct (pool_total ts mem G) as (_ & ts' & mem' & R & D).
  - intros i k l a Ei Ek. specialize (Res i k l a Ei Ek). destruct (res k) as [r|]; [eauto|]. destruct Res as [a' X]. eauto.
  - exists ts', mem'. destruct (existsb (fun t => panics (snd t)) ts') eqn:E; [exists None|exists (Some mem')]; (split; [exact R|constructor; auto]).
Qed.
End Outcome.
End PoolFacts.

(** * The tasks *)
Section TaskFacts.
Context {F : Type} (o : fops F) (c : cconf F) (sc : fconf) (ln_ceil : nat -> Z).
Notation snext := (serial_next o c sc ln_ceil). Notation ssolo := (solo snext).

Lemma serial_step_none w ws l : fold_left (serial_step o c w ws) l None = None.
Proof. induction l as [|x l IH]; [reflexivity|exact IH]. Qed.
Lemma serial_window_none ws cbs l : fold_left (serial_window o c ws cbs) l None = None.
Proof. induction l as [|x l IH]; [reflexivity|exact IH]. Qed.
Lemma s_double ws cbs w rest : forall n acc, ssolo (SDouble n ws cbs w rest) acc (SDouble 0 ws cbs w rest) (double_n o c n acc).
Proof. induction n as [|n IH]; intros acc; [constructor|]. econstructor; [reflexivity|apply IH]. Qed.
Lemma s_fill ws cbs w rest acc : forall todo b,
  match fold_left (serial_step o c w ws) todo (Some b) with
  | Some b' => ssolo (SFill todo b ws cbs w rest) acc (SFill [] b' ws cbs w rest) acc
  | None => ssolo (SFill todo b ws cbs w rest) acc SPanic acc
  end.
Proof.
  induction todo as [|cb todo IH]; intros b; [constructor|]. cbn [fold_left].
  destruct (serial_step o c w ws (Some b) cb) as [b1|] eqn:E.
  - specialize (IH b1). destruct (fold_left _ todo (Some b1)); (econstructor; [cbn [serial_next]; rewrite E; reflexivity|exact IH]).
  - rewrite serial_step_none. apply solo_one. cbn [serial_next]. rewrite E. reflexivity.
Qed.
Lemma s_sum ws cbs rest : forall todo run acc, exists run',
  ssolo (SSum todo run ws cbs rest) acc (SSum [] run' ws cbs rest) (sum_by_parts o c (sbucket_add o c) todo run acc).
Proof.
  induction todo as [|b todo IH]; intros run acc; [exists run; constructor|]. cbn [sum_by_parts].
  destruct (IH (sbucket_add o c b run) (proj_add o c acc (sbucket_add o c b run))) as [r S1]. exists r. econstructor; [reflexivity|exact S1].
Qed.
Lemma s_windows ws cbs : forall rest acc,
  match fold_left (serial_window o c ws cbs) rest (Some acc) with
  | Some r => ends snext (SWindows ws cbs rest) acc SReturn r
  | None => exists a, ends snext (SWindows ws cbs rest) acc SPanic a
  end.
Proof.
  induction rest as [|w rest IH]; intros acc; cbn [fold_left].
  - split; [apply solo_one; reflexivity|reflexivity].
  - cbn [serial_window bindo]. set (acc1 := double_n o c (Z.to_nat ws) acc). set (b0 := repeat SNone _).
    assert (S1 : ssolo (SWindows ws cbs (w :: rest)) acc (SFill cbs b0 ws cbs w rest) acc1).
    { econstructor; [reflexivity|]. eapply solo_trans; [apply s_double|]. apply solo_one. reflexivity. }
    pose proof (s_fill ws cbs w rest acc1 cbs b0) as Fl.
    destruct (fold_left (serial_step o c w ws) cbs (Some b0)) as [b|]; cbn [bindo].
    + destruct (s_sum ws cbs rest (rev b) (proj_identity o) acc1) as [run Sm]. set (acc2 := sum_by_parts _ _ _ _ _ _) in *.
      assert (S2 : ssolo (SWindows ws cbs (w :: rest)) acc (SWindows ws cbs rest) acc2).
      { eapply solo_trans; [exact S1|]. eapply solo_trans; [exact Fl|]. econstructor; [reflexivity|].
        eapply solo_trans; [exact Sm|]. apply solo_one. reflexivity. }
      specialize (IH acc2). destruct (fold_left _ rest (Some acc2)) as [r|].
      * destruct IH as [I1 I2]. split; [eapply solo_trans; [exact S2|exact I1]|exact I2].
      * destruct IH as (a & I1 & I2). exists a. split; [eapply solo_trans; [exact S2|exact I1]|exact I2].
    + rewrite serial_window_none. exists acc1. split; [eapply solo_trans; [exact S1|exact Fl]|reflexivity].
Qed.
Lemma serial_ends coeffs bases acc :
  match msm_serial o c sc ln_ceil coeffs bases acc with
  | Some r => ends snext (SStart coeffs bases) acc SReturn r
  | None => exists a, ends snext (SStart coeffs bases) acc SPanic a
  end.
Proof.
  unfold msm_serial. cbv zeta. destruct (Nat.eqb (max_byte_size sc (map (to_repr sc) coeffs)) 0) eqn:E1.
  - split; [apply solo_one; cbn [serial_next]; rewrite E1; reflexivity|reflexivity].
  - destruct (window_size ln_ceil (length bases) <=? 0) eqn:E2.
    + exists acc. split; [apply solo_one; cbn [serial_next]; rewrite E1, E2; reflexivity|reflexivity].
    + set (rest := rev _). pose proof (s_windows (window_size ln_ceil (length bases)) (combine (map (to_repr sc) coeffs) bases) rest acc) as X.
      assert (S1 : snext (SStart coeffs bases) acc = Some (SWindows (window_size ln_ceil (length bases)) (combine (map (to_repr sc) coeffs) bases) rest, acc))
        by (cbn [serial_next]; rewrite E1, E2; reflexivity).
      destruct (fold_left _ rest (Some acc)) as [r|].
      * destruct X as [X1 X2]. split; [econstructor; [exact S1|exact X1]|exact X2].
      * destruct X as (a & X1 & X2). exists a. split; [econstructor; [exact S1|exact X1]|exact X2].
Qed.

Context (ws : Z) (coeffs : list (list Z)) (bases bases_local : list (aff F)).
Notation wnext := (window_next o c ws coeffs bases bases_local). Notation wsolo := (solo wnext).
Lemma best_step_none w l : fold_left (best_step o c w ws bases bases_local) l None = None.
Proof. induction l as [|x l IH]; [reflexivity|exact IH]. Qed.
Lemma w_fill w acc : forall todo j s,
  match fold_left (best_step o c w ws bases bases_local) todo (Some (j, s)) with
  | Some (j', s') => wsolo (WFill todo j s w) acc (WFill [] j' s' w) acc
  | None => wsolo (WFill todo j s w) acc WPanic acc
  end.
Proof.
  induction todo as [|ic todo IH]; intros j s; [constructor|]. cbn [fold_left].
  destruct (best_step o c w ws bases bases_local (Some (j, s)) ic) as [[j1 s1]|] eqn:E.
  - specialize (IH j1 s1). destruct (fold_left _ todo (Some (j1, s1))) as [[j2 s2]|]; (econstructor; [cbn [window_next]; rewrite E; reflexivity|exact IH]).
  - rewrite best_step_none. apply solo_one. cbn [window_next]. rewrite E. reflexivity.
Qed.
Lemma w_sum w : forall todo run acc,
  match best_sum o c todo run acc with
  | Some r => exists run', wsolo (WSum todo run w) acc (WSum [] run' w) r
  | None => exists a, wsolo (WSum todo run w) acc WPanic a
  end.
Proof.
  induction todo as [|[j a] todo IH]; intros run acc; cbn [best_sum]; [exists run; constructor|].
  destruct (jbucket_add o c j a) as [p|] eqn:E; cbn [bindo].
  - specialize (IH (proj_add o c run p) (proj_add o c acc (proj_add o c run p))).
    destruct (best_sum _ _ todo _ _) as [r|]; destruct IH as [x S1]; exists x; (econstructor; [cbn [window_next]; rewrite E; reflexivity|exact S1]).
  - exists acc. apply solo_one. cbn [window_next]. rewrite E. reflexivity.
Qed.
Lemma w_double : forall n acc, wsolo (WDouble n) acc WReturn (double_n o c n acc).
Proof. induction n as [|n IH]; intros acc; [apply solo_one; reflexivity|]. econstructor; [reflexivity|apply IH]. Qed.
Lemma window_ends w :
  match best_window o c ws coeffs bases bases_local w with
  | Some r => ends wnext (WStart w) (proj_identity o) WReturn r
  | None => exists a, ends wnext (WStart w) (proj_identity o) WPanic a
  end.
Proof.
  unfold best_window. set (i := proj_identity o). set (todo := combine _ coeffs). set (j0 := repeat None _).
  pose proof (w_fill w i todo j0 (sched_new ws)) as Fl. destruct (fold_left _ todo (Some (j0, sched_new ws))) as [[j s]|]; cbn [bindo].
  - assert (S1 : wsolo (WStart w) i (WFill [] j s w) i) by (econstructor; [reflexivity|exact Fl]).
    destruct (sched_execute o bases_local s) as [s1|] eqn:E; cbn [bindo].
    + assert (S2 : wsolo (WStart w) i (WSum (rev (combine j (s_buckets s1))) i w) i).
      { eapply solo_trans; [exact S1|]. apply solo_one. cbn [window_next]. rewrite E. reflexivity. }
      pose proof (w_sum w (rev (combine j (s_buckets s1))) i i) as Sm. destruct (best_sum _ _ _ i i) as [acc|]; cbn [bindo].
      * destruct Sm as [run Sm]. split; [|reflexivity]. eapply solo_trans; [exact S2|]. eapply solo_trans; [exact Sm|].
        econstructor; [reflexivity|]. apply w_double.
      * destruct Sm as [a Sm]. exists a. split; [eapply solo_trans; [exact S2|exact Sm]|reflexivity].
    + exists i. split; [|reflexivity]. eapply solo_trans; [exact S1|]. apply solo_one. cbn [window_next]. rewrite E. reflexivity.
  - exists i. split; [econstructor; [reflexivity|exact Fl]|reflexivity].
Qed.
End TaskFacts.
