(** The batched-affine multi-scalar multiplication [msm_best]. *)
From Verif Require Import Base Algebra TowerFacts SpecField Word Limbs LimbsFacts Bytes BytesFacts Field FieldFacts FieldSerdeFacts Group.
From Verif Require Import SpecCurve SpecCurveFacts Curve CurveFacts CurveGroup Fft FftFacts Msm MsmFacts.

Section Best.
Context {F : Type} (o : fops F) (c : cconf F) (HC : curve_laws o c) (Ha0 : ca c = f0 o).
Let H := cl_field _ _ HC.
Let HR := fl_rl _ H.
Add Field FMB : (field_thy o H).
Notation g := (cpt_ops o c HC).
Notation HG := (cpt_laws o c HC).
Notation pt := (cpt o c).
Notation rp := (rp o c). Notation ra := (ra o c).
Infix "⊕" := (gadd g) (at level 50, left associativity).
Notation "k ⋅ P" := (gmul g k P) (at level 40).
Local Notation "x +f y" := (fadd o x y) (at level 50, left associativity).
Local Notation "x -f y" := (fsub o x y) (at level 50, left associativity).
Local Notation "x *f y" := (fmul o x y) (at level 40, left associativity).

(** A finite point with its coordinates; an affine bucket *)
Definition rfin (p : aff F) (Q : pt) : Prop := proj1_sig Q = Some (ax p, ay p).
Definition rab (b : option (aff F)) (Q : pt) : Prop := proj1_sig Q = option_map (fun q => (ax q, ay q)) b.
Definition sgn (s : bool) (Q : pt) : pt := if s then Q else gneg g Q.

Lemma rfin_on p Q : rfin p Q -> on_curve o (ca c) (cb c) (Some (ax p, ay p)).
Proof. intros E. rewrite <- E. apply (cpt_on o c HC). Qed.
Lemma y_nz x y : on_curve o (ca c) (cb c) (Some (x, y)) -> y <> f0 o.
Proof.
  intros E ->. apply (cl_no2 _ _ HC x). cbn [on_curve] in E. rewrite <- E. ring.
Qed.
Lemma ysq_eq x y y' : on_curve o (ca c) (cb c) (Some (x, y)) -> on_curve o (ca c) (cb c) (Some (x, y')) -> y <> y' -> y = fneg o y'.
Proof.
  cbn [on_curve]. intros E E' N. assert (X : (y -f y') *f (y +f y') = f0 o).
  { transitivity (y *f y -f y' *f y'); [ring|]. rewrite E, E'. ring. }
  destruct (mul_integral o H _ _ X) as [Y|Y]; [destruct N; apply (sub_zero_eq o H); exact Y|].
  transitivity ((y +f y') -f y'); [ring|]. rewrite Y. ring.
Qed.
(** Any [l] satisfying the defining equation of the slope gives the sum. *)
Lemma line_add xq yq xb yb l (A B : pt) : proj1_sig A = Some (xq, yq) -> proj1_sig B = Some (xb, yb) ->
  (xq <> xb /\ l *f (xq -f xb) = yq -f yb \/ xq = xb /\ yq = yb /\ l *f (yq +f yq) = xb *f xb +f xb *f xb +f xb *f xb) ->
  proj1_sig (A ⊕ B) = let x := l *f l -f (xq +f xb) in Some (x, l *f (xb -f x) -f yb).
Proof.
  intros EA EB S. rewrite (gl_comm _ HG). cbn [cpt_ops gadd mkpt proj1_sig]. rewrite EA, EB.
  pose proof (cpt_on o c HC A) as OA. pose proof (cpt_on o c HC B) as OB. rewrite EA in OA. rewrite EB in OB.
  destruct (add_slope o (ca c) (cb c) H (cl_two _ _ HC) xb yb xq yq OB OA) as (m & (S1 & S2) & ->).
  - intros (Ex & Ey). destruct S as [(N & _)|(_ & Ey' & _)]; [congruence|]. rewrite Ey' in Ey.
    apply (dbl_nz o H (cl_two _ _ HC) yb (y_nz _ _ OB)). rewrite Ey at 1. ring.
  - assert (l = m) as ->.
    { destruct S as [(N & E)|(Ex & Ey & E)].
      - apply (mul_cancel_l o H (xq -f xb)); [apply (diff_nz o H); exact N|].
        transitivity (l *f (xq -f xb)); [ring|]. rewrite E. transitivity (fneg o (yb -f yq)); [ring|]. rewrite S1. ring.
      - subst yq xq. apply (mul_cancel_l o H (yb +f yb)); [apply (dbl_nz o H (cl_two _ _ HC)), (y_nz _ _ OB)|].
        transitivity (l *f (yb +f yb)); [ring|]. rewrite E. transitivity (m *f (yb +f yb)); [rewrite S2, Ha0; ring|ring]. }
    cbv zeta. unfold pt_line. f_equal. f_equal; ring.
Qed.
Lemma sgn_pt s p Q : rfin p Q -> proj1_sig (sgn s Q) = Some (ax p, if s then ay p else fneg o (ay p)).
Proof. intros E. destruct s; [exact E|]. cbn [sgn cpt_ops gneg mkpt proj1_sig]. rewrite E. reflexivity. Qed.

(** ** batch_add *)
Section Batch.
Variables (bases : list (aff F)) (Qv : nat -> pt).
Hypothesis HB : forall i p, nth_error bases i = Some p -> rfin p (Qv i).
Notation contrib sp := (sgn (sp_sign sp) (Qv (base_idx sp))).
Lemma batch_spec : forall pts bk As acc, rbs o c rab bk As -> acc <> f0 o -> NoDup (map buck_idx pts) ->
  Forall (fun sp => (exists q, nth_error bk (buck_idx sp) = Some (Some q)) /\ (base_idx sp < length bases)%nat) pts ->
  exists bk1 accf tz, batch_fwd o bases pts bk acc = Some (bk1, accf, tz) /\ length tz = length pts /\ accf <> f0 o /\
    length bk1 = length bk /\ (forall i, ~ In i (map buck_idx pts) -> nth_error bk1 i = nth_error bk i) /\
    forall inv rest bkX, inv *f accf = f1 o -> (forall i, In i (map buck_idx pts) -> nth_error bkX i = nth_error bk1 i) ->
    exists bk2 inv2, batch_bwd o bases (rev (combine pts tz) ++ rest) bkX inv = batch_bwd o bases rest bk2 inv2 /\ inv2 *f acc = f1 o /\
      length bk2 = length bkX /\ (forall i, ~ In i (map buck_idx pts) -> nth_error bk2 i = nth_error bkX i) /\
      Forall (fun sp => exists b, nth_error bk2 (buck_idx sp) = Some b /\ rab b (As (buck_idx sp) ⊕ contrib sp)) pts.
Proof.
  induction pts as [|sp pts IH]; intros bk As acc HA Hacc ND HF.
  - exists bk, acc, []. split; [reflexivity|]. split; [reflexivity|]. split; [exact Hacc|]. split; [reflexivity|]. split; [auto|].
    intros inv rest bkX E _. exists bkX, inv. repeat (split; auto).
  - inversion HF as [|? ? ((q & Eq) & Lb) HF']; subst. cbn [map] in ND. inversion ND as [|? ? NI ND']; subst.
    destruct (nth_error bases (base_idx sp)) as [b|] eqn:Eb; [|apply nth_error_None in Eb; lia].
    pose proof (HB _ _ Eb) as RB. pose proof (HA _ _ Eq) as RQ. cbn [rab option_map] in RQ. unfold rab in RQ. cbn [option_map] in RQ.
    pose proof (sgn_pt (sp_sign sp) _ _ RB) as RS. set (yb := if sp_sign sp then ay b else fneg o (ay b)) in *.
    assert (OQ : on_curve o (ca c) (cb c) (Some (ax q, ay q))) by (rewrite <- RQ; apply (cpt_on o c HC)).
    assert (OB : on_curve o (ca c) (cb c) (Some (ax b, yb))) by (rewrite <- RS; apply (cpt_on o c HC)).
    cbn [batch_fwd]. rewrite Eq, Eb.
    (* the two kinds of steps: (a) an addition with (t, z) *)
    assert (ADD : forall t z, z <> f0 o ->
       (forall inv2, inv2 *f (acc *f z) = f1 o ->
          let l := inv2 *f t in let x := fsqr o l -f (ax q +f ax b) in
          proj1_sig (As (buck_idx sp) ⊕ contrib sp) = Some (x, if sp_sign sp then l *f (ax b -f x) -f ay b else l *f (ax b -f x) +f ay b)) ->
       exists bk1 accf tz, (bindo (batch_fwd o bases pts bk (acc *f z)) (fun r => let '(bs, a, tz) := r in Some (bs, a, (t, z) :: tz))) = Some (bk1, accf, tz) /\
         length tz = length (sp :: pts) /\ accf <> f0 o /\ length bk1 = length bk /\
         (forall i, ~ In i (map buck_idx (sp :: pts)) -> nth_error bk1 i = nth_error bk i) /\
         forall inv rest bkX, inv *f accf = f1 o -> (forall i, In i (map buck_idx (sp :: pts)) -> nth_error bkX i = nth_error bk1 i) ->
         exists bk2 inv2, batch_bwd o bases (rev (combine (sp :: pts) tz) ++ rest) bkX inv = batch_bwd o bases rest bk2 inv2 /\ inv2 *f acc = f1 o /\
           length bk2 = length bkX /\ (forall i, ~ In i (map buck_idx (sp :: pts)) -> nth_error bk2 i = nth_error bkX i) /\
           Forall (fun sp => exists b, nth_error bk2 (buck_idx sp) = Some b /\ rab b (As (buck_idx sp) ⊕ contrib sp)) (sp :: pts)).
    { intros t z Hz HS. destruct (IH bk As (acc *f z) HA (mul_nonzero o H _ _ Hacc Hz) ND' HF') as (bk1 & accf & tz & -> & T1 & T2 & T3 & T4 & T5).
      exists bk1, accf, ((t, z) :: tz). cbn [bindo]. split; [reflexivity|]. split; [cbn; lia|]. split; [exact T2|]. split; [exact T3|].
      split; [intros i Hi; apply T4; cbn in Hi; tauto|].
      intros inv rest bkX Hinv HX. cbn [combine rev]. rewrite <- app_assoc. cbn [app].
      destruct (T5 inv ((sp, (t, z)) :: rest) bkX Hinv) as (bk2 & inv2 & -> & U1 & U2 & U3 & U4).
      { intros i Hi. apply HX. cbn. tauto. }
      cbn [batch_bwd]. rewrite U3 by exact NI. rewrite HX by (cbn; auto). rewrite T4 by exact NI. rewrite Eq, Eb.
      eexists _, (inv2 *f z). split; [reflexivity|]. split; [rewrite <- U1; ring|]. split; [rewrite set_nth_length; exact U2|]. split.
      - intros i Hi. rewrite set_nth_nth. cbn in Hi. destruct (Nat.eqb_spec (buck_idx sp) i); [tauto|]. apply U3. tauto.
      - constructor.
        + rewrite set_nth_nth, Nat.eqb_refl, U3, HX, T4, Eq by (cbn; auto). eexists. split; [reflexivity|].
          unfold rab. cbn [option_map ax ay]. rewrite (HS inv2 U1). reflexivity.
        + apply Forall_forall. intros sp' Hsp. rewrite set_nth_nth. destruct (Nat.eqb_spec (buck_idx sp) (buck_idx sp')) as [E|_].
          { destruct NI. rewrite E. apply in_map. exact Hsp. }
          exact (proj1 (Forall_forall _ _) U4 sp' Hsp). }
    destruct (feqb o (ax q) (ax b)) eqn:Ex.
    + apply (fl_eqb _ H) in Ex.
      assert (XE : xorb (feqb o (ay q) (ay b)) (negb (sp_sign sp)) = true <-> ay q = yb).
      { pose proof (rfin_on _ _ RB) as OB'. rewrite Ex in OQ. unfold yb. destruct (feqb o (ay q) (ay b)) eqn:Ey.
        - apply (fl_eqb _ H) in Ey. destruct (sp_sign sp); cbn; [tauto|]. split; [discriminate|]. intros E. exfalso.
          apply (dbl_nz o H (cl_two _ _ HC) (ay b) (y_nz _ _ OB')). rewrite <- Ey at 1. rewrite E. ring.
        - apply (feqb_false o H) in Ey. destruct (sp_sign sp); cbn; [split; [discriminate|contradiction]|]. split; [|reflexivity]. intros _.
          apply (ysq_eq (ax b)); assumption. }
      destruct (xorb (feqb o (ay q) (ay b)) (negb (sp_sign sp))).
      * pose proof (proj1 XE eq_refl) as Ey. apply ADD; [apply (dbl_nz o H (cl_two _ _ HC)), (y_nz _ _ OQ)|].
        intros inv2 Hi. cbv zeta. erewrite line_add; [|exact RQ|exact RS|right; split; [exact Ex|split; [exact Ey|]]]; cycle 1.
        { instantiate (1 := inv2 *f (acc *f (fsqr o (ax b) +f fsqr o (ax b) +f fsqr o (ax b)))).
          transitivity ((inv2 *f (acc *f (ay q +f ay q))) *f (fsqr o (ax b) +f fsqr o (ax b) +f fsqr o (ax b))); [ring|].
          rewrite Hi, (rl_sqr _ HR). ring. }
        cbv zeta. rewrite (rl_sqr _ HR (_ *f _)). unfold yb. destruct (sp_sign sp); f_equal; f_equal; ring.
      * assert (EO : opp_pts o (ax q) (ay q) (ax b) yb).
        { split; [exact Ex|]. rewrite Ex in OQ. apply (ysq_eq (ax b)); [exact OQ|exact OB|]. intros E. apply XE in E. discriminate. }
        set (As' := fun i => if Nat.eqb i (buck_idx sp) then g0 g else As i).
        destruct (IH (set_nth bk (buck_idx sp) None) As' acc) as (bk1 & accf & tz & -> & T1 & T2 & T3 & T4 & T5); [|exact Hacc|exact ND'| |].
        { unfold As'. apply (rbs_set o c rab); [exact HA|]. reflexivity. }
        { apply Forall_forall. intros sp' Hsp. destruct (proj1 (Forall_forall _ _) HF' sp' Hsp) as ((q' & E') & L'). split; [|exact L'].
          exists q'. rewrite set_nth_nth. destruct (Nat.eqb_spec (buck_idx sp) (buck_idx sp')) as [E|_]; [|exact E'].
          destruct NI. rewrite E. apply in_map. exact Hsp. }
        cbn [bindo]. exists bk1, accf, ((f0 o, f0 o) :: tz). split; [reflexivity|]. split; [cbn; lia|]. split; [exact T2|].
        rewrite set_nth_length in T3. split; [exact T3|]. split.
        { intros i Hi. cbn in Hi. rewrite T4 by tauto. rewrite set_nth_nth. destruct (Nat.eqb_spec (buck_idx sp) i); [tauto|reflexivity]. }
        intros inv rest bkX Hinv HX. cbn [combine rev]. rewrite <- app_assoc. cbn [app].
        destruct (T5 inv ((sp, (f0 o, f0 o)) :: rest) bkX Hinv) as (bk2 & inv2 & -> & U1 & U2 & U3 & U4).
        { intros i Hi. apply HX. cbn. tauto. }
        assert (EN : nth_error bk2 (buck_idx sp) = Some None).
        { rewrite U3 by exact NI. rewrite HX by (cbn; auto). rewrite T4 by exact NI. rewrite set_nth_nth, Nat.eqb_refl, Eq. reflexivity. }
        cbn [batch_bwd]. rewrite EN, Eb. exists bk2, inv2. split; [reflexivity|]. split; [exact U1|]. split; [exact U2|]. split.
        { intros i Hi. apply U3. cbn in Hi. tauto. }
        constructor.
        { exists None. split; [exact EN|]. unfold rab. cbn [option_map cpt_ops gadd mkpt proj1_sig]. rewrite RQ, RS. apply (add_opp o (ca c) H). exact EO. }
        apply Forall_forall. intros sp' Hsp. destruct (proj1 (Forall_forall _ _) U4 sp' Hsp) as (b' & E1 & E2). exists b'. split; [exact E1|].
        unfold As' in E2. destruct (Nat.eqb_spec (buck_idx sp') (buck_idx sp)) as [E|_]; [|exact E2]. destruct NI. rewrite <- E. apply in_map. exact Hsp.
    + apply (feqb_false o H) in Ex. apply ADD; [apply (diff_nz o H); exact Ex|].
      intros inv2 Hi. cbv zeta.
      replace (if sp_sign sp then acc *f (ay q -f ay b) else acc *f (ay q +f ay b)) with (acc *f (ay q -f yb)) by (unfold yb; destruct (sp_sign sp); ring).
      erewrite line_add; [|exact RQ|exact RS|left; split; [exact Ex|]]; cycle 1.
      { instantiate (1 := inv2 *f (acc *f (ay q -f yb))).
        transitivity ((inv2 *f (acc *f (ax q -f ax b))) *f (ay q -f yb)); [ring|]. rewrite Hi. ring. }
      cbv zeta. rewrite (rl_sqr _ HR (_ *f _)). unfold yb. destruct (sp_sign sp); f_equal; f_equal; ring.
Qed.
Definition vapply (As : nat -> pt) (pts : list sched_point) : nat -> pt := fold_left (fun V sp => vadd g V (buck_idx sp) (contrib sp)) pts As.
Lemma vapply_out pts : forall As i, ~ In i (map buck_idx pts) -> vapply As pts i = As i.
Proof.
  induction pts as [|sp pts IH]; intros As i Hi; [reflexivity|]. unfold vapply in *. cbn [fold_left]. cbn in Hi. rewrite IH by tauto.
  unfold vadd. destruct (Nat.eqb_spec i (buck_idx sp)); [subst; tauto|reflexivity].
Qed.
Lemma vapply_in pts : forall As sp, NoDup (map buck_idx pts) -> In sp pts -> vapply As pts (buck_idx sp) = As (buck_idx sp) ⊕ contrib sp.
Proof.
  induction pts as [|s0 pts IH]; intros As sp ND Hin; [destruct Hin|]. cbn [map] in ND. inversion ND as [|? ? NI ND']; subst.
  change (vapply As (s0 :: pts)) with (vapply (vadd g As (buck_idx s0) (contrib s0)) pts). destruct Hin as [->|Hin].
  - rewrite vapply_out by exact NI. unfold vadd. rewrite Nat.eqb_refl. reflexivity.
  - rewrite IH by assumption. unfold vadd. destruct (Nat.eqb_spec (buck_idx sp) (buck_idx s0)) as [E|_]; [|reflexivity].
    destruct NI. rewrite <- E. apply in_map. exact Hin.
Qed.
Definition pend_sum (pts : list sched_point) : pt := gsum g (map (fun sp => Z.of_nat (S (buck_idx sp)) ⋅ contrib sp) pts).
Lemma vapply_wsum N pts : forall As, Forall (fun sp => (buck_idx sp < N)%nat) pts -> wsum g N (vapply As pts) = wsum g N As ⊕ pend_sum pts.
Proof.
  induction pts as [|sp pts IH]; intros As HF.
  - unfold pend_sum. cbn [map gsum fold_right]. rewrite (g_0_r g HG). reflexivity.
  - inversion HF as [|? ? L HF']; subst. change (vapply As (sp :: pts)) with (vapply (vadd g As (buck_idx sp) (contrib sp)) pts).
    rewrite IH, (wsum_vadd g HG) by assumption. rewrite (gl_assoc _ HG). reflexivity.
Qed.
Theorem batch_add_spec pts rest bk As : rbs o c rab bk As -> NoDup (map buck_idx pts) ->
  Forall (fun sp => (exists q, nth_error bk (buck_idx sp) = Some (Some q)) /\ (base_idx sp < length bases)%nat) pts ->
  exists bk', batch_add o (length pts) bk (pts ++ rest) bases = Some bk' /\ length bk' = length bk /\ rbs o c rab bk' (vapply As pts).
Proof.
  intros HA ND HF. unfold batch_add. rewrite firstn_app, firstn_all, Nat.sub_diag. cbn [firstn]. rewrite app_nil_r.
  destruct (batch_spec pts bk As (f1 o) HA (fl_1_0 _ H) ND HF) as (bk1 & accf & tz & -> & T1 & T2 & T3 & T4 & T5). cbn [bindo].
  destruct (fl_inv _ H accf T2) as (inv & -> & Ei). cbn [bindo].
  destruct (T5 inv [] bk1) as (bk2 & inv2 & E & U1 & U2 & U3 & U4); [rewrite <- Ei; ring|auto|].
  rewrite app_nil_r in E. rewrite E. exists bk2. split; [reflexivity|]. split; [congruence|].
  intros i x Hx. destruct (in_dec Nat.eq_dec i (map buck_idx pts)) as [I|I].
  - apply in_map_iff in I. destruct I as (sp & <- & Hsp). destruct (proj1 (Forall_forall _ _) U4 sp Hsp) as (b & E1 & E2).
    rewrite vapply_in by assumption. rewrite E1 in Hx. injection Hx as <-. exact E2.
  - rewrite vapply_out by exact I. apply HA. rewrite <- T4, <- U3 by exact I. exact Hx.
Qed.

(** ** The schedule *)
Definition rjb (b : option (proj F)) (Q : pt) : Prop := match b with None => Q = g0 g | Some p => rp p Q end.
Record sinv (N : nat) (jb : list (option (proj F))) (s : schedule) (tot : pt) : Prop := {
  si_jl : length jb = N; si_bl : length (s_buckets s) = N;
  si_ex : exists pend Js As, s_set s = pend ++ repeat sp_default (BATCH_SIZE - length pend)%nat /\ s_ptr s = length pend /\
    (length pend < BATCH_SIZE)%nat /\ NoDup (map buck_idx pend) /\
    Forall (fun sp => (exists q, nth_error (s_buckets s) (buck_idx sp) = Some (Some q)) /\ (base_idx sp < length bases)%nat) pend /\
    rbs o c rjb jb Js /\ rbs o c rab (s_buckets s) As /\ wsum g N Js ⊕ wsum g N As ⊕ pend_sum pend = tot }.
Lemma pend_in N bk pts : length bk = N -> Forall (fun sp => (exists q : aff F, nth_error bk (buck_idx sp) = Some (Some q)) /\ (base_idx sp < length bases)%nat) pts ->
  Forall (fun sp => (buck_idx sp < N)%nat) pts.
Proof.
  intros L. apply Forall_impl. intros sp ((q & E) & _). rewrite <- L. apply nth_error_Some. congruence.
Qed.
Lemma exec_spec N jb s tot pend Js As : length jb = N -> length (s_buckets s) = N -> s_set s = pend ++ repeat sp_default (BATCH_SIZE - length pend)%nat ->
  s_ptr s = length pend -> (length pend <= BATCH_SIZE)%nat -> NoDup (map buck_idx pend) ->
  Forall (fun sp => (exists q, nth_error (s_buckets s) (buck_idx sp) = Some (Some q)) /\ (base_idx sp < length bases)%nat) pend ->
  rbs o c rjb jb Js -> rbs o c rab (s_buckets s) As -> wsum g N Js ⊕ wsum g N As ⊕ pend_sum pend = tot ->
  exists s', sched_execute o bases s = Some s' /\ length (s_buckets s') = N /\ s_set s' = repeat sp_default BATCH_SIZE /\ s_ptr s' = 0%nat /\
    exists As', rbs o c rab (s_buckets s') As' /\ wsum g N Js ⊕ wsum g N As' = tot.
Proof.
  intros LJ LB ES EP LP ND HF RJ RA ET. unfold sched_execute. rewrite EP. destruct (Nat.eqb_spec (length pend) 0) as [E0|_].
  - destruct pend; [|discriminate]. exists s. rewrite ES. repeat (split; auto). exists As. split; [exact RA|].
    rewrite <- ET. unfold pend_sum. cbn [map gsum fold_right]. rewrite (g_0_r g HG). reflexivity.
  - rewrite ES. destruct (batch_add_spec pend (repeat sp_default (BATCH_SIZE - length pend)%nat) (s_buckets s) As RA ND HF) as (bk & -> & L & R). cbn [bindo].
    eexists. split; [reflexivity|]. cbn [s_buckets s_set s_ptr]. split; [congruence|]. split.
    { f_equal. rewrite app_length, repeat_length. lia. }
    split; [reflexivity|]. exists (vapply As pend). split; [exact R|]. rewrite (vapply_wsum N pend As (pend_in _ _ _ LB HF)), <- (gl_assoc _ HG). exact ET.
Qed.
Lemma contains_false (s : schedule (F := F)) i pend : s_set s = pend ++ repeat sp_default (BATCH_SIZE - length pend)%nat -> sched_contains s i = false -> ~ In i (map buck_idx pend).
Proof.
  intros E C Hin. unfold sched_contains in C. apply in_map_iff in Hin. destruct Hin as (sp & <- & Hin).
  assert (existsb (fun sp' => Nat.eqb (buck_idx sp') (buck_idx sp)) (s_set s) = true); [|congruence].
  apply existsb_exists. exists sp. split; [rewrite E; apply in_or_app; auto|apply Nat.eqb_refl].
Qed.
Lemma set_nth_pend (pend : list sched_point) x : (length pend < BATCH_SIZE)%nat ->
  set_nth (pend ++ repeat sp_default (BATCH_SIZE - length pend)%nat) (length pend) x = (pend ++ [x]) ++ repeat sp_default (BATCH_SIZE - length (pend ++ [x]))%nat.
Proof.
  intros L. rewrite app_length. cbn [length]. destruct (BATCH_SIZE - length pend)%nat as [|m] eqn:E; [lia|].
  replace (BATCH_SIZE - (length pend + 1))%nat with m by lia. clear. cbn [repeat]. rewrite <- app_assoc. cbn [app].
  induction pend as [|y pend IH]; [reflexivity|]. cbn [length app]. unfold set_nth in *. cbn. f_equal. exact IH.
Qed.
Lemma jb_add_assign jb J p P s : rjb jb J -> rfin p P -> rjb (jbucket_add_assign o c jb p s) (J ⊕ sgn s P).
Proof.
  intros EJ EP. assert (RA : ra p P) by (split; [apply (cpt_on o c HC)|rewrite EP; auto]).
  destruct jb as [q|]; cbn [rjb jbucket_add_assign] in *.
  - destruct s; [exact (madd_repr o c HC _ _ _ _ EJ RA)|exact (msub_repr o c HC _ _ _ _ EJ RA)].
  - rewrite EJ, (gl_0 _ HG). pose proof (to_curve_repr o c HC p _ RA) as RT. destruct s; [exact RT|exact (neg_repr o c HC _ _ RT)].
Qed.

Lemma best_step_spec N w ws jb s tot i el : 1 <= ws <= 24 -> 0 <= w -> Z.of_nat N = 2 ^ (ws - 1) -> sinv N jb s tot -> (i < length bases)%nat -> is_bytes el ->
  exists jb' s', best_step o c w ws bases bases (Some (jb, s)) (i, el) = Some (jb', s') /\ sinv N jb' s' (tot ⊕ (get_booth_index w ws el ⋅ Qv i)).
Proof.
  intros Hw Hi HN HI Li By. unfold best_step. cbn [bindo fst snd]. pose proof (booth_bound ws w el Hw Hi By) as Bd.
  set (d := get_booth_index w ws el) in *. destruct (Z.eqb_spec d 0) as [D0|D0].
  { exists jb, s. split; [reflexivity|]. rewrite D0, gmul_0, (g_0_r g HG). exact HI. }
  destruct HI as [LJ LB (pend & Js & As & ES & EP & LP & ND & HF & RJ & RA & ET)].
  set (idx := Z.to_nat (Z.abs d - 1)). assert (LI : (idx < N)%nat) by (unfold idx; lia).
  assert (ED : d ⋅ Qv i = Z.of_nat (S idx) ⋅ sgn (0 <? d) (Qv i)).
  { unfold sgn. destruct (Z.ltb_spec 0 d) as [P|P].
    - f_equal. unfold idx. lia.
    - rewrite (gmul_gneg g HG), <- (gmul_opp g HG). f_equal. unfold idx. lia. }
  rewrite ED. set (sg := 0 <? d). destruct (nth_error bases i) as [b|] eqn:Eb; [|apply nth_error_None in Eb; lia]. pose proof (HB _ _ Eb) as RB.
  destruct (sched_contains s idx) eqn:EC.
  - destruct (upd_nth_spec jb idx (fun jb0 => Some (jbucket_add_assign o c jb0 b sg))) as (x & y & E1 & E2 & ->); [lia|eauto|]. injection E2 as <-.
    cbn [bindo]. eexists _, _. split; [reflexivity|]. constructor; [rewrite set_nth_length; exact LJ|exact LB|].
    exists pend, (vadd g Js idx (sgn sg (Qv i))), As. repeat (split; auto).
    + intros j z Hz. pose proof (rbs_set o c rjb jb Js idx _ (Js idx ⊕ sgn sg (Qv i)) RJ (jb_add_assign _ _ _ _ sg (RJ _ _ E1) RB) j z Hz) as X.
      unfold vadd. cbv beta in X. destruct (Nat.eqb_spec j idx) as [->|_]; exact X.
    + rewrite (wsum_vadd g HG) by exact LI. rewrite <- ET. rewrite !(gl_assoc _ HG). f_equal. rewrite (gl_comm _ HG). rewrite !(gl_assoc _ HG). reflexivity.
  - pose proof (contains_false s idx pend ES EC) as NI. unfold sched_add.
    destruct (nth_error (s_buckets s) idx) as [bk|] eqn:Ek; [|apply nth_error_None in Ek; lia]. rewrite Eb.
    assert (LS : length (s_set s) = BATCH_SIZE) by (rewrite ES, app_length, repeat_length; lia).
    destruct bk as [q|].
    + rewrite EP, LS. destruct (Nat.ltb_spec (length pend) BATCH_SIZE) as [_|X]; [|lia]. cbn [bindo s_ptr s_set].
      set (s1 := mk_sched (s_buckets s) (set_nth (s_set s) (length pend) (mk_sp i idx sg)) (S (length pend))).
      set (pend' := pend ++ [mk_sp i idx sg]).
      assert (ES' : s_set s1 = pend' ++ repeat sp_default (BATCH_SIZE - length pend')%nat) by (unfold s1, pend'; cbn [s_set]; rewrite ES; apply set_nth_pend; exact LP).
      assert (LP' : length pend' = S (length pend)) by (unfold pend'; rewrite app_length; cbn; lia).
      assert (ND' : NoDup (map buck_idx pend')).
      { unfold pend'. rewrite map_app. cbn [map buck_idx]. apply NoDup_Add with (a := idx) (l := map buck_idx pend); [|split; assumption].
        rewrite <- (app_nil_r (map buck_idx pend)) at 1. apply Add_app. }
      assert (HF' : Forall (fun sp => (exists q, nth_error (s_buckets s1) (buck_idx sp) = Some (Some q)) /\ (base_idx sp < length bases)%nat) pend').
      { unfold pend'. apply Forall_app. split; [exact HF|]. constructor; [|constructor]. cbn [s_buckets s1 buck_idx base_idx]. eauto. }
      assert (ET' : wsum g N Js ⊕ wsum g N As ⊕ pend_sum pend' = tot ⊕ (Z.of_nat (S idx) ⋅ sgn sg (Qv i))).
      { rewrite <- ET, !(gl_assoc _ HG). f_equal. f_equal. unfold pend_sum, pend'. rewrite map_app, (gsum_app g HG). f_equal.
        cbn [map gsum fold_right buck_idx sp_sign base_idx]. apply (g_0_r g HG). }
      rewrite set_nth_length, LS. destruct (Nat.eqb_spec (S (length pend)) BATCH_SIZE) as [EQ|NE].
      * destruct (exec_spec N jb s1 _ pend' Js As LJ LB ES' (eq_sym LP') ltac:(lia) ND' HF' RJ RA ET') as (s' & -> & L1 & L2 & L3 & As' & R1 & R2).
        cbn [bindo]. eexists _, _. split; [reflexivity|]. constructor; [exact LJ|exact L1|]. exists [], Js, As'. rewrite L2, L3.
        repeat (split; auto); [cbn; unfold BATCH_SIZE; lia|constructor|]. unfold pend_sum. cbn [map gsum fold_right]. rewrite (g_0_r g HG). exact R2.
      * cbn [bindo]. eexists _, _. split; [reflexivity|]. constructor; [exact LJ|exact LB|]. exists pend', Js, As. 
        repeat (split; auto); lia.
    + cbn [bindo s_ptr s_set]. rewrite EP, LS. destruct (Nat.eqb_spec (length pend) BATCH_SIZE) as [X|_]; [lia|]. cbn [bindo].
      eexists _, _. split; [reflexivity|]. constructor; [exact LJ|cbn [s_buckets]; rewrite set_nth_length; exact LB|]. cbn [s_set s_ptr s_buckets].
      assert (A0 : As idx = g0 g) by (apply cpt_ext; exact (RA _ _ Ek)).
      exists pend, Js, (vadd g As idx (sgn sg (Qv i))). split; [exact ES|]. split; [reflexivity|]. split; [exact LP|]. split; [exact ND|]. split; [|split; [exact RJ|split]].
      * apply Forall_forall. intros sp Hsp. destruct (proj1 (Forall_forall _ _) HF sp Hsp) as ((q & E') & L'). split; [|exact L'].
        exists q. rewrite set_nth_nth. destruct (Nat.eqb_spec idx (buck_idx sp)) as [E|_]; [|exact E']. destruct NI. rewrite E. apply in_map. exact Hsp.
      * intros j z Hz. pose proof (rbs_set o c rab (s_buckets s) As idx (Some (if sg then b else mk_aff (ax b) (fneg o (ay b)))) (As idx ⊕ sgn sg (Qv i)) RA) as X.
        specialize (X ltac:(unfold rab; rewrite A0, (gl_0 _ HG), (sgn_pt sg b _ RB); destruct sg; reflexivity) j z Hz).
        unfold vadd. cbv beta in X. destruct (Nat.eqb_spec j idx) as [->|_]; exact X.
      * rewrite (wsum_vadd g HG) by exact LI. rewrite <- ET. rewrite !(gl_assoc _ HG). f_equal. f_equal. apply (gl_comm _ HG).
Qed.
Definition dsum (f : list Z -> Z) (l : list (nat * list Z)) : pt := gsum g (map (fun x => f (snd x) ⋅ Qv (fst x)) l).
Lemma best_fold_spec N w ws l : 1 <= ws <= 24 -> 0 <= w -> Z.of_nat N = 2 ^ (ws - 1) -> Forall (fun x => (fst x < length bases)%nat /\ is_bytes (snd x)) l ->
  forall jb s tot, sinv N jb s tot ->
  exists jb' s', fold_left (best_step o c w ws bases bases) l (Some (jb, s)) = Some (jb', s') /\ sinv N jb' s' (tot ⊕ dsum (get_booth_index w ws) l).
Proof.
  intros Hw Hi HN. induction l as [|[i el] l IH]; intros HF jb s tot HI.
  - exists jb, s. split; [reflexivity|]. unfold dsum. cbn [map gsum fold_right]. rewrite (g_0_r g HG). exact HI.
  - inversion HF as [|? ? (Li & By) HF']; subst. cbn [fold_left]. destruct (best_step_spec N w ws jb s tot i el Hw Hi HN HI Li By) as (jb1 & s1 & -> & I1).
    destruct (IH HF' jb1 s1 _ I1) as (jb2 & s2 & -> & I2). exists jb2, s2. split; [reflexivity|]. rewrite (gl_assoc _ HG) in I2. exact I2.
Qed.
Lemma jbucket_add_spec j J a A : rjb j J -> rab a A -> exists p, jbucket_add o c j a = Some p /\ rp p (J ⊕ A).
Proof.
  intros EJ EA. assert (FX : forall q, a = Some q -> from_xy o c (ax q) (ay q) = Some q /\ ra q A).
  { intros q ->. unfold rab in EA. cbn [option_map] in EA. pose proof (cpt_on o c HC A) as O. 
    assert (R : ra q A) by (split; [exact O|rewrite EA; auto]). split; [|exact R]. unfold from_xy. destruct q as [x y]. cbn [ax ay] in *.
    replace (aff_is_on_curve o c (mk_aff x y)) with true; [reflexivity|]. symmetry. apply (aff_on_curve_iff o c HC). exists (proj1_sig A). exact R. }
  destruct j as [p|], a as [q|]; cbn [jbucket_add rjb] in *.
  - destruct (FX q eq_refl) as (-> & R). cbn [bindo]. eexists. split; [reflexivity|]. exact (madd_repr o c HC _ _ _ _ EJ R).
  - exists p. split; [reflexivity|]. assert (A = g0 g) as -> by (apply cpt_ext; exact EA). rewrite (g_0_r g HG). exact EJ.
  - destruct (FX q eq_refl) as (-> & R). cbn [bindo]. eexists. split; [reflexivity|]. rewrite EJ, (gl_0 _ HG). exact (to_curve_repr o c HC _ _ R).
  - eexists. split; [reflexivity|]. assert (A = g0 g) as -> by (apply cpt_ext; exact EA). rewrite EJ, (gl_0 _ HG). exact (rp_id o c HC).
Qed.
Lemma best_sum_parts l : forall ps rs acc, Forall2 (fun ja p => jbucket_add o c (fst ja) (snd ja) = Some p) l ps ->
  best_sum o c l rs acc = Some (sum_by_parts o c (fun p r => proj_add o c r p) ps rs acc).
Proof.
  induction l as [|[j a] l IH]; intros ps rs acc HF; inversion HF as [|? p ? ps' E HF']; subst; [reflexivity|]. cbn [best_sum sum_by_parts].
  cbn [fst snd] in E. rewrite E. cbn [bindo]. apply IH. exact HF'.
Qed.
Lemma rbs_tail {B} (R : B -> pt -> Prop) b bs V : rbs o c R (b :: bs) V -> R b (V O) /\ rbs o c R bs (fun i => V (S i)).
Proof. intros E. split; [apply (E O); reflexivity|]. intros i x Hx. apply (E (S i)). exact Hx. Qed.
Lemma best_buckets jb : forall bk Js As, length jb = length bk -> rbs o c rjb jb Js -> rbs o c rab bk As ->
  exists ps, Forall2 (fun ja p => jbucket_add o c (fst ja) (snd ja) = Some p) (combine jb bk) ps /\ rbs o c rp ps (fun i => Js i ⊕ As i) /\ length ps = length jb.
Proof.
  induction jb as [|j jb IH]; intros [|a bk] Js As L RJ RA; try discriminate.
  - exists []. split; [constructor|]. split; [|reflexivity]. intros [|i] b E; discriminate.
  - apply rbs_tail in RJ. apply rbs_tail in RA. destruct RJ as (J0 & RJ), RA as (A0 & RA). destruct (IH bk _ _ ltac:(cbn in L; lia) RJ RA) as (ps & P1 & P2 & P3).
    destruct (jbucket_add_spec _ _ _ _ J0 A0) as (p & E & R). exists (p :: ps). split; [constructor; [exact E|exact P1]|]. split; [|cbn; lia].
    intros [|i] x Hx; cbn in Hx; [injection Hx as <-; exact R|]. exact (P2 i x Hx).
Qed.
Lemma f2_rev {A B} (R : A -> B -> Prop) l l' : Forall2 R l l' -> Forall2 R (rev l) (rev l').
Proof. induction 1; cbn [rev]; [constructor|]. apply Forall2_app; [assumption|]. constructor; [assumption|constructor]. Qed.
Lemma best_window_spec ws w coeffs : 1 <= ws <= 24 -> 0 <= w -> (length coeffs <= length bases)%nat -> Forall is_bytes coeffs ->
  exists p, best_window o c ws coeffs bases bases w = Some p /\
    rp p (2 ^ (ws * w) ⋅ dsum (get_booth_index w ws) (combine (seq 0 (length coeffs)) coeffs)).
Proof.
  intros Hw Hi LC By. unfold best_window. pose proof (n_buckets ws) as NB. set (N := Z.to_nat (Z.shiftl 1 (ws - 1))) in *.
  assert (I0 : sinv N (repeat None N) (sched_new ws) (g0 g)).
  { constructor; [apply repeat_length|cbn [sched_new s_buckets]; fold N; apply repeat_length|]. exists [], (fun _ => g0 g), (fun _ => g0 g).
    split; [reflexivity|]. split; [reflexivity|]. split; [cbn; unfold BATCH_SIZE; lia|]. split; [constructor|]. split; [constructor|]. split; [|split].
    - intros i b E. apply nth_error_repeat in E. subst. reflexivity.
    - intros i b E. cbn [sched_new s_buckets] in E. apply nth_error_repeat in E. subst. reflexivity.
    - rewrite (wsum_zero g HG). unfold pend_sum. cbn [map gsum fold_right]. rewrite !(gl_0 _ HG). reflexivity. }
  destruct (best_fold_spec N w ws (combine (seq 0 (length coeffs)) coeffs) Hw Hi NB) with (jb := repeat (@None (proj F)) N) (s := sched_new (F := F) ws) (tot := g0 g)
    as (jb & s & -> & I1); [|exact I0|].
  { apply Forall_forall. intros [i el] Hin. pose proof (in_combine_l _ _ _ _ Hin) as X. pose proof (in_combine_r _ _ _ _ Hin) as Y. apply in_seq in X. cbn [fst snd].
    split; [lia|]. exact (proj1 (Forall_forall _ _) By el Y). }
  rewrite (gl_0 _ HG) in I1. set (D := dsum _ _) in *. cbn [bindo].
  destruct I1 as [LJ LB (pend & Js & As & ES & EP & LP & ND & HF & RJ & RA & ET)].
  destruct (exec_spec N jb s _ pend Js As LJ LB ES EP ltac:(lia) ND HF RJ RA ET) as (s' & -> & L1 & L2 & L3 & As' & R1 & R2). cbn [bindo].
  destruct (best_buckets jb (s_buckets s') Js As' ltac:(congruence) RJ R1) as (ps & P1 & P2 & P3).
  rewrite (best_sum_parts _ (rev ps)) by (apply f2_rev; exact P1). cbn [bindo]. eexists. split; [reflexivity|].
  replace (ws * w) with (Z.of_nat (Z.to_nat (ws * w))) at 2 by lia. apply (rp_dbl_n o c HC).
  pose proof (sum_parts_spec o c HC rp (fun p r => proj_add o c r p)) as X.
  specialize (X (fun b Bv p P Hb Hp => rp_add o c HC _ _ _ _ Hp Hb) (rev ps) (fun i => Js i ⊕ As' i) (proj_identity o) (g0 g) (proj_identity o) (g0 g)).
  rewrite rev_involutive, rev_length, P3, LJ, (gmul_g0 g HG), (wsum_add g HG), R2, !(gl_0 _ HG) in X. apply X; [exact P2|apply rp_id|apply rp_id].
Qed.
Lemma dsum_comb a f h l : (a ⋅ dsum f l) ⊕ dsum h l = dsum (fun k => a * f k + h k) l.
Proof.
  unfold dsum, gsum. induction l as [|[k P] l IH]; cbn [map fold_right fst snd].
  - rewrite (gmul_g0 g HG). apply (gl_0 _ HG).
  - rewrite <- IH, (gmul_gadd g HG), (g_swap g HG), (gmul_add g HG), (gmul_mul g HG). reflexivity.
Qed.
Lemma best_windows_spec ws coeffs : 1 <= ws <= 24 -> (length coeffs <= length bases)%nat -> Forall is_bytes coeffs -> forall n,
  exists ps Ws, sequence (map (best_window o c ws coeffs bases bases) (map Z.of_nat (seq 0 n))) = Some ps /\ Forall2 rp ps Ws /\
    gsum g Ws = dsum (booth_sum n ws) (combine (seq 0 (length coeffs)) coeffs).
Proof.
  intros Hw LC By n. set (l := combine (seq 0 (length coeffs)) coeffs).
  assert (SQ : forall A (x y : list (option A)) xs ys, sequence x = Some xs -> sequence y = Some ys -> sequence (x ++ y) = Some (xs ++ ys)).
  { clear. induction x as [|a x IH]; intros y xs ys EX EY; cbn in *; [injection EX as <-; exact EY|].
    destruct a as [a|]; cbn in *; [|discriminate]. change (fold_right _ _ x) with (sequence x) in EX. destruct (sequence x) as [xs'|] eqn:E; cbn in EX; [|discriminate].
    injection EX as <-. change (fold_right _ _ (x ++ y)) with (sequence (x ++ y)). rewrite (IH y xs' ys eq_refl EY). reflexivity. }
  induction n as [|n (ps & Ws & E & RF & ET)].
  - exists [], []. split; [reflexivity|]. split; [constructor|]. cbn [booth_sum gsum fold_right]. unfold dsum. clear. induction l as [|x l IH]; [reflexivity|].
    cbn [map gsum fold_right]. rewrite gmul_0, (gl_0 _ HG). exact IH.
  - destruct (best_window_spec ws (Z.of_nat n) coeffs Hw ltac:(lia) LC By) as (p & EW & RW). fold l in RW.
    exists (ps ++ [p]), (Ws ++ [2 ^ (ws * Z.of_nat n) ⋅ dsum (get_booth_index (Z.of_nat n) ws) l]). split; [|split].
    + rewrite seq_S, !map_app. apply SQ; [exact E|]. cbn [map Nat.add sequence fold_right]. rewrite EW. reflexivity.
    + apply Forall2_app; [exact RF|]. constructor; [exact RW|constructor].
    + rewrite (gsum_app g HG), ET. cbn [gsum fold_right]. rewrite (g_0_r g HG), (gl_comm _ HG), dsum_comb. unfold dsum. f_equal. apply map_ext. intros x.
      cbn [booth_sum]. f_equal. ring.
Qed.
End Batch.

Variables (sc : fconf) (Hs : odd_conf sc) (ln_ceil : nat -> Z).
Hypothesis Hln : forall n, (32 <= n)%nat -> 1 <= ln_ceil n <= 24.
Theorem msm_best_spec threads ks vs bases Qs : (0 < threads)%nat -> Forall2 (rscalar sc) ks vs -> Forall2 rfin bases Qs -> length ks = length bases ->
  exists r, msm_best o c sc ln_ceil threads ks bases = Some r /\ rp r (msum o c HC vs Qs).
Proof.
  intros Ht HK HB L. unfold msm_best. rewrite L, Nat.eqb_refl. cbn [negb].
  assert (HA : Forall2 ra bases Qs) by (clear - HB HC; induction HB as [|p Q bases Qs E HB IH]; constructor; [split; [apply (cpt_on o c HC)|rewrite E; auto]|exact IH]).
  pose proof (window_range ln_ceil Hln (length bases)) as Hw. set (ws := window_size ln_ceil (length bases)) in *.
  destruct (Z.ltb_spec ws 10) as [_|_]; [apply (msm_parallel_spec o c HC sc Hs ln_ceil Hln threads ks vs bases Qs); assumption|].
  assert (SB : sequence (map (msm_affine o c) bases) = Some bases).
  { clear - HB HC. induction HB as [|p Q bases Qs E HB IH]; [reflexivity|]. cbn [map sequence fold_right].
    destruct (jbucket_add_spec None (g0 g) (Some p) Q eq_refl E) as (r & X & _). cbn [jbucket_add] in X. unfold msm_affine at 1. 
    unfold from_xy in *. destruct p as [x y]. cbn [ax ay] in *. destruct (aff_is_on_curve o c (mk_aff x y)); [|discriminate]. cbn [bindo].
    unfold sequence in IH. rewrite IH. reflexivity. }
  rewrite SB. cbn [bindo]. pose proof (bytes_of_scalars sc Hs ks vs HK) as HY. set (bs := map (to_repr sc) ks) in *.
  assert (By : Forall is_bytes bs) by (clear - HY; induction HY as [|? ? ? ? (X & _)]; constructor; auto).
  assert (HQ : forall i p, nth_error bases i = Some p -> rfin p (nth i Qs (g0 g))).
  { clear - HB. induction HB as [|p Q bases Qs E HB IH]; intros [|i] x Hx; cbn in *; try discriminate; [injection Hx as <-; exact E|]. apply IH. exact Hx. }
  assert (LB : length bs = length bases) by (unfold bs; rewrite map_length; exact L).
  destruct (best_windows_spec bases (fun i => nth i Qs (g0 g)) HQ ws bs Hw ltac:(lia) By (Z.to_nat (num_bits sc / ws + 1))) as (ps & Ws & -> & RF & ET). cbn [bindo].
  eexists. split; [reflexivity|]. unfold MsmFacts.rp.
  assert (EQ : msum o c HC vs Qs = gsum g Ws).
  { rewrite ET. unfold msum, dsum. rewrite LB. pose proof (f2_len _ _ _ HA) as LQ. rewrite LQ. clear - HY L LQ LB Hw Hs. rewrite LQ in LB. clear LQ L. 
    f_equal. 
    assert (G : forall off bs vs Qs, Forall2 (fun b v => is_bytes b /\ le_int b = v /\ 0 <= v < modulus sc) bs vs -> length bs = length Qs -> forall Qf,
      (forall i, (i < length Qs)%nat -> Qf (off + i)%nat = nth i Qs (g0 g)) ->
      map (fun x => fst x ⋅ snd x) (combine vs Qs) = map (fun x => booth_sum (Z.to_nat (num_bits sc / ws + 1)) ws (snd x) ⋅ Qf (fst x)) (combine (seq off (length Qs)) bs)).
    { clear - Hw Hs. intros off bs vs Qs HY. revert off Qs. induction HY as [|b v bs vs (B & E & R) HY IH]; intros off [|Q Qs] L Qf HQ; try discriminate; [reflexivity|].
      cbn [combine length seq map fst snd]. f_equal.
      - specialize (HQ O ltac:(cbn; lia)). rewrite Nat.add_0_r in HQ. rewrite HQ. cbn [nth]. f_equal. rewrite booth_sum_spec by (auto; lia). rewrite round_top; [lia|..].
        all: pose proof (Z.log2_nonneg (modulus sc)); assert (0 <= num_bits sc / ws) by (apply Z.div_pos; unfold num_bits; lia); rewrite ?Z2Nat.id by lia.
        + lia.
        + apply Z.mul_nonneg_nonneg; lia.
        + destruct Hs as (Hm & _). assert (X : modulus sc < 2 ^ num_bits sc) by (unfold num_bits; rewrite Z.add_1_r; apply Z.log2_spec; lia).
          assert (Y : 2 ^ (num_bits sc + 1) <= 2 ^ (ws * (num_bits sc / ws + 1))).
          { apply Z.pow_le_mono_r; [lia|]. pose proof (Z.div_mod (num_bits sc) ws ltac:(lia)). pose proof (Z.mod_pos_bound (num_bits sc) ws ltac:(lia)). lia. }
          rewrite Z.pow_add_r in Y by (unfold num_bits; lia). change (2 ^ 1) with 2 in Y. lia.
      - apply IH; [cbn in L; lia|]. intros i Hi. specialize (HQ (S i) ltac:(cbn; lia)). rewrite Nat.add_succ_r in HQ. exact HQ. }
    apply (G 0%nat bs vs Qs HY LB (fun i => nth i Qs (g0 g))). reflexivity. }
  rewrite EQ, gsum_pt. apply (proj_sum_repr o c HC). clear - RF. induction RF; cbn [map]; constructor; auto.
Qed.
End Best.

(** ** Inputs on which the batched buckets leave the curve *)
Section Off.
Context {F : Type} (o : fops F) (c : cconf F) (sc : fconf) (Hs : odd_conf sc) (ln_ceil : nat -> Z).
Lemma best_sum_none l : forall rs acc j q, In (j, Some q) l -> from_xy o c (ax q) (ay q) = None -> best_sum o c l rs acc = None.
Proof.
  induction l as [|[j' a] l IH]; intros rs acc j q Hin E; [destruct Hin|]. cbn [best_sum]. destruct Hin as [X|Hin].
  - injection X as -> ->. unfold jbucket_add. rewrite E. destruct j; reflexivity.
  - destruct (jbucket_add o c j' a) as [p|]; [|reflexivity]. cbn [bindo]. apply (IH _ _ j q); assumption.
Qed.
Lemma best_zeros w ws bases bl st zb : 1 <= ws <= 24 -> 0 <= w -> is_bytes zb -> le_int zb = 0 -> forall l, Forall (fun x => snd x = zb) l ->
  fold_left (best_step o c w ws bases bl) l (Some st) = Some st.
Proof.
  intros Hw Hi B E. induction l as [|[i el] l IH]; intros HF; [reflexivity|]. pose proof (Forall_inv HF) as E1. pose proof (Forall_inv_tail HF) as HF'. cbn [snd] in E1. rewrite E1. cbn [fold_left].
  replace (best_step o c w ws bases bl (Some st) (i, zb)) with (Some st) by
    (destruct st; unfold best_step; cbn [bindo snd]; rewrite booth_spec, E by auto; unfold round_at; change (2 * 0) with 0; rewrite !Zdiv_0_l; change ((0 + 1) / 2) with 0; rewrite Z.mul_0_r; reflexivity).
  apply IH. exact HF'.
Qed.
Theorem two_panics threads n kl zl p0 p1 inv q : 10 <= window_size ln_ceil (2 + n) <= 24 -> rscalar sc kl 2 -> rscalar sc zl 0 ->
  aff_is_on_curve o c p0 = true -> aff_is_on_curve o c p1 = true ->
  (let dbl := (feqb o (ax p0) (ax p1) && feqb o (ay p0) (ay p1))%bool in
   feqb o (ax p0) (ax p1) = dbl /\
   let z := if dbl then fadd o (ay p0) (ay p0) else fsub o (ax p0) (ax p1) in
   let t := fmul o (f1 o) (if dbl then fadd o (fadd o (fsqr o (ax p1)) (fsqr o (ax p1))) (fsqr o (ax p1)) else fsub o (ay p0) (ay p1)) in
   finv o (fmul o (f1 o) z) = Some inv /\
   let l := fmul o inv t in let x := fsub o (fsqr o l) (fadd o (ax p0) (ax p1)) in
   q = mk_aff x (fsub o (fmul o l (fsub o (ax p1) x)) (ay p1))) ->
  aff_is_on_curve o c q = false ->
  msm_best o c sc ln_ceil threads (kl :: kl :: repeat zl n) (p0 :: p1 :: repeat p1 n) = None.
Proof.
  intros Hw Hk Hz O0 O1 HQ OQ. unfold msm_best. cbn [length]. rewrite !repeat_length, Nat.eqb_refl. cbn [negb].
  change (2 + n)%nat with (S (S n)) in Hw. set (ws := window_size ln_ceil (S (S n))) in *. destruct (Z.ltb_spec ws 10) as [X|_]; [lia|].
  set (bases := p0 :: p1 :: repeat p1 n).
  assert (ID : forall p, aff_is_on_curve o c p = true -> msm_affine o c p = Some p).
  { intros [x y] E. unfold msm_affine, from_xy. cbn [ax ay]. rewrite E. reflexivity. }
  assert (SB : sequence (map (msm_affine o c) bases) = Some bases).
  { unfold bases. cbn [map sequence fold_right]. rewrite (ID _ O0), (ID _ O1). cbn [bindo].
    assert (SR : forall m, fold_right (fun x acc => bindo x (fun x => bindo acc (fun acc => Some (x :: acc)))) (Some []) (map (msm_affine o c) (repeat p1 m)) = Some (repeat p1 m)).
    { clear - ID O1. induction m as [|m IH]; [reflexivity|]. cbn [repeat map fold_right]. rewrite (ID _ O1). cbn [bindo]. rewrite IH. reflexivity. }
    rewrite SR. reflexivity. }
  rewrite SB. cbn [bindo map]. replace (map (to_repr sc) (repeat zl n)) with (repeat (to_repr sc zl) n) by (clear; induction n as [|n IH]; [reflexivity|]; cbn [repeat map]; rewrite IH; reflexivity).
  destruct (to_repr_spec sc Hs kl 2 Hk) as (_ & KB & KE). destruct (to_repr_spec sc Hs zl 0 Hz) as (_ & ZB & ZE).
  set (kb := to_repr sc kl) in *. set (zb := to_repr sc zl) in *.
  assert (HW : best_window o c ws (kb :: kb :: repeat zb n) bases bases 0 = None).
  { unfold best_window. cbn [length seq combine fold_left].
    assert (DG : get_booth_index 0 ws kb = 2).
    { rewrite booth_spec by (auto; lia). rewrite KE, round_0, round_top; [lia|lia|lia|].
      assert (2 ^ 10 <= 2 ^ (ws * (0 + 1))) by (apply Z.pow_le_mono_r; lia). change (2 ^ 10) with 1024 in *. lia. }
    pose proof (n_buckets ws) as NB. set (N := Z.to_nat (Z.shiftl 1 (ws - 1))) in *.
    assert (2 ^ 9 <= Z.of_nat N) by (rewrite NB; apply Z.pow_le_mono_r; lia). change (2 ^ 9) with 512 in *.
    destruct N as [|[|N']] eqn:EN; [lia|lia|].
    unfold best_step at 3. cbn [bindo snd fst]. rewrite DG. change (2 =? 0) with false. change (0 <? 2) with true. cbv zeta iota.
    change (Z.to_nat (Z.abs 2 - 1)) with 1%nat. 
    assert (SN : sched_new (F := F) ws = mk_sched (repeat None (S (S N'))) (repeat sp_default BATCH_SIZE) 0) by (unfold sched_new; fold N; rewrite <- EN; reflexivity).
    rewrite SN. change (sched_contains (mk_sched (repeat (@None (aff F)) (S (S N'))) (repeat sp_default BATCH_SIZE) 0) 1) with false.
    cbv iota.
    change (sched_add o bases (mk_sched (repeat None (S (S N'))) (repeat sp_default BATCH_SIZE) 0) 0 1 true) with
      (Some (mk_sched (None :: Some p0 :: repeat None N') (repeat sp_default BATCH_SIZE) 0)). cbn [bindo].
    unfold best_step at 2. cbn [bindo snd fst]. rewrite DG. change (2 =? 0) with false. change (0 <? 2) with true. cbv zeta iota.
    change (Z.to_nat (Z.abs 2 - 1)) with 1%nat.
    change (sched_contains (mk_sched (None :: Some p0 :: repeat None N') (repeat sp_default BATCH_SIZE) 0) 1) with false. cbv iota.
    change (sched_add o bases (mk_sched (None :: Some p0 :: repeat None N') (repeat sp_default BATCH_SIZE) 0) 1 1 true) with
      (Some (mk_sched (None :: Some p0 :: repeat None N') (mk_sp 1 1 true :: repeat sp_default 63) 1)). cbn [bindo].
    rewrite (best_zeros 0 ws bases bases _ zb) by (auto; try lia; apply Forall_forall; intros [i el] Hin; apply in_combine_r in Hin; apply repeat_spec in Hin; exact Hin).
    cbn [bindo]. unfold sched_execute. cbn [s_ptr s_buckets s_set Nat.eqb]. unfold batch_add. cbn [firstn].
    destruct HQ as (E1 & E2 & E3). cbv zeta in E2, E3.
    assert (FW : batch_fwd o bases [mk_sp 1 1 true] (None :: Some p0 :: repeat None N') (f1 o) =
      Some (None :: Some p0 :: repeat None N', fmul o (f1 o) (if (feqb o (ax p0) (ax p1) && feqb o (ay p0) (ay p1))%bool then fadd o (ay p0) (ay p0) else fsub o (ax p0) (ax p1)),
        [(fmul o (f1 o) (if (feqb o (ax p0) (ax p1) && feqb o (ay p0) (ay p1))%bool then fadd o (fadd o (fsqr o (ax p1)) (fsqr o (ax p1))) (fsqr o (ax p1)) else fsub o (ay p0) (ay p1)),
          if (feqb o (ax p0) (ax p1) && feqb o (ay p0) (ay p1))%bool then fadd o (ay p0) (ay p0) else fsub o (ax p0) (ax p1))])).
    { cbn [batch_fwd buck_idx base_idx nth_error bases sp_sign negb]. destruct (feqb o (ax p0) (ax p1)); [|reflexivity].
      destruct (feqb o (ay p0) (ay p1)); [reflexivity|discriminate]. }
    rewrite FW. cbn [bindo]. rewrite E2. cbn [bindo combine rev app batch_bwd buck_idx base_idx nth_error bases sp_sign set_nth].
    rewrite <- E3. cbn [s_buckets]. cbn [repeat combine rev].
    match goal with |- bindo (best_sum o c ?l ?rs ?ac) _ = _ => rewrite (best_sum_none l rs ac None q) end; [reflexivity| |].
    - apply in_or_app. left. apply in_or_app. right. left. reflexivity.
    - unfold from_xy. destruct q as [x y]. cbn [ax ay]. rewrite OQ. reflexivity. }
  assert (NW : exists m, Z.to_nat (num_bits sc / ws + 1) = S m).
  { exists (Z.to_nat (num_bits sc / ws)). rewrite Z2Nat.inj_add; [lia| |lia]. apply Z.div_pos; [|lia]. unfold num_bits. pose proof (Z.log2_nonneg (modulus sc)). lia. }
  destruct NW as (m & ->). cbn [seq map sequence fold_right]. change (Z.of_nat 0) with 0. rewrite HW. reflexivity.
Qed.
End Off.
