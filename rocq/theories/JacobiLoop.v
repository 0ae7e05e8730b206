(** The two loops of [jacobi] end, and end with the Jacobi symbol. *)
From Verif Require Import Base Word Limbs SpecField LimbsFacts Field Inverse InverseFacts
  SpecJacobi JacSymFacts Jacobi JacobiLint JacobiInner JacobiProg JacobiFacts.

(** ** Loops with a measure *)
Section measure.
Context {S R : Type} (step : S -> S + R) (Inv : S -> Prop) (Good : R -> Prop) (mu : S -> Z).
Context (H : forall s, Inv s ->
  (exists r, step s = inr r /\ Good r) \/ (exists s', step s = inl s' /\ Inv s' /\ 0 <= mu s' < mu s)).

Lemma run_until_measure_aux : forall n s, Inv s ->
  (exists r, run_until n step s = inr r /\ Good r) \/
  (exists s', run_until n step s = inl s' /\ Inv s' /\ 0 <= mu s' <= mu s - 2 ^ Z.of_nat n).
Proof.
  induction n as [|n IH]; intros s I; cbn [run_until].
  - destruct (H s I) as [G|(s' & E & I' & M)]; [now left|]. right. exists s'. split; [exact E|]. split; [exact I'|].
    change (2 ^ Z.of_nat 0) with 1. lia.
  - destruct (IH s I) as [(r & E & G)|(s' & E & I' & M)]; rewrite E; [left; eauto|].
    destruct (IH s' I') as [(r & E' & G)|(s2 & E' & I2 & M2)]; [left; eauto|]. right. exists s2.
    split; [exact E'|]. split; [exact I2|]. rewrite Nat2Z.inj_succ, Z.pow_succ_r by lia. lia.
Qed.
Lemma run_until_measure n s : Inv s -> mu s < 2 ^ Z.of_nat n -> exists r, run_until n step s = inr r /\ Good r.
Proof.
  intros I M. destruct (run_until_measure_aux n s I) as [G|(s' & E & I' & M')]; [exact G|]. lia.
Qed.
End measure.

Lemma log2_half x y : 0 < x -> 2 * x <= y -> Z.log2 x < Z.log2 y.
Proof.
  intros Hx H. pose proof (Z.log2_le_mono _ _ H) as M. rewrite Z.log2_double in M by exact Hx. lia.
Qed.
Lemma log2_lt_pow n x : 0 <= x -> x < 2 ^ Z.of_nat n -> (1 <= n)%nat -> Z.log2 x < Z.of_nat n.
Proof.
  intros Hx Hl Hn. destruct (Z.eq_dec x 0) as [-> |]; [cbn; lia|]. apply Z.log2_lt_pow2; lia.
Qed.

(** ** [jacobinary] *)
Definition jb_inv (sigma : Z) (s : Z * Z * Z) : Prop :=
  let '(n, d, t) := s in
  0 <= n < W /\ 0 < d < W /\ Z.odd d = true /\ sgn_of (Z.testbit t 1) * jm n d = sigma.
Definition jb_mu (s : Z * Z * Z) : Z := let '(n, d, _) := s in if n =? 0 then 0 else Z.log2 (n * d) + 1.

Lemma odd_diff x y : Z.odd x = true -> Z.odd y = true -> exists w, x = 2 * w + y.
Proof.
  intros Hx Hy. apply Z.odd_spec in Hx, Hy. destruct Hx as [p ->], Hy as [q ->]. exists (p - q). ring.
Qed.
Lemma shiftr_diff x y w : 0 <= y <= x -> x < W -> x = 2 * w + y -> Z.shiftr ((x - y) mod W) 1 = w.
Proof.
  intros H1 H2 E. rewrite Z.mod_small by lia. rewrite Z.shiftr_div_pow2 by lia. change (2 ^ 1) with 2.
  replace (x - y) with (w * 2) by lia. apply Z.div_mul. lia.
Qed.
Lemma jb_mu_drop n d t n' d' t' : 0 < n -> 0 < d -> 0 <= n' -> 0 < d' -> 2 * (n' * d') <= n * d ->
  0 <= jb_mu (n', d', t') < jb_mu (n, d, t).
Proof.
  intros Hn Hd Hn' Hd' H. unfold jb_mu. rewrite (proj2 (Z.eqb_neq n 0)) by lia.
  pose proof (Z.log2_nonneg (n * d)). pose proof (Z.log2_nonneg (n' * d')).
  destruct (Z.eqb_spec n' 0) as [|NZ]; [lia|].
  pose proof (log2_half (n' * d') (n * d) ltac:(nia) H). lia.
Qed.

Lemma jacobinary_step_spec sigma s : jb_inv sigma s ->
  (exists r, jacobinary_step s = inr r /\ r = sigma) \/
  (exists s', jacobinary_step s = inl s' /\ jb_inv sigma s' /\ 0 <= jb_mu s' < jb_mu s).
Proof.
  destruct s as [[n d] t]. intros (Hn & Hd & Od & Sy). unfold jacobinary_step.
  destruct (Z.eqb_spec n 0) as [-> |NZ].
  - left. eexists. split; [reflexivity|]. rewrite jac_result_spec, <- Sy, jm_0.
    rewrite Z.abs_eq by lia. destruct (d =? 1); ring.
  - right. rewrite land_one_odd. destruct (Z.odd n) eqn:On.
    + destruct (Z.ltb_spec n d) as [C|C].
      * destruct (odd_diff d n Od On) as [w E]. rewrite (shiftr_diff d n w) by lia.
        eexists. split; [reflexivity|]. split.
        -- split; [lia|]. split; [lia|]. split; [exact On|].
           rewrite !Z.lxor_spec, Z.land_spec. rewrite Z.shiftr_spec by easy. change (1 + 1) with 2. rewrite !sgn_xor, <- Sy.
           assert (P0 : 0 < n) by lia. rewrite (jm_swap n d (or_introl P0) On Od).
           rewrite <- (jm_sub d n On). replace (d - n) with (2 * w) by (rewrite E; ring). rewrite jm_double by exact On.
           rewrite sgn_xor, (andb_comm (Z.testbit n 1)). ring.
        -- apply jb_mu_drop; try lia. clear - E Hn Hd NZ C. nia.
      * destruct (odd_diff n d On Od) as [w E]. rewrite (shiftr_diff n d w) by lia.
        eexists. split; [reflexivity|]. split.
        -- split; [lia|]. split; [lia|]. split; [exact Od|].
           rewrite !Z.lxor_spec. rewrite Z.shiftr_spec by easy. change (1 + 1) with 2. rewrite !sgn_xor, <- Sy.
           rewrite <- (jm_sub n d Od). replace (n - d) with (2 * w) by (rewrite E; ring). rewrite jm_double by exact Od.
           rewrite sgn_xor. ring.
        -- apply jb_mu_drop; try lia. clear - E Hn Hd NZ C. nia.
    + destruct (ctz64_spec n Hn) as (Z0 & [w E] & Z1). specialize (Z1 On). set (z := ctz64 n) in *.
      assert (P : 2 <= 2 ^ z) by (apply (Z.pow_le_mono_r 2 1 z); lia).
      assert (EA : Z.shiftr n z = w) by (rewrite Z.shiftr_div_pow2, E, Z.div_mul; [reflexivity|lia|lia]).
      rewrite EA. eexists. split; [reflexivity|]. assert (Hw : 0 <= w) by (clear - E Hn P; nia).
      clearbody z.
      assert (2 * w <= n) by (clear - E Hw P; nia). split.
      * split; [clear - H Hw Hn; lia|]. split; [exact Hd|]. split; [exact Od|].
        rewrite Z.lxor_spec, batch_bits, sgn_xor, <- Sy, E, (Z.mul_comm w), jm_pow2 by assumption. ring.
      * apply jb_mu_drop; try (clear - Hw Hd Hn NZ; lia). clear - H Hw Hd. nia.
Qed.

Theorem jacobinary_spec n d t : 0 <= n < W -> 0 < d < W -> Z.odd d = true ->
  run_until 8 jacobinary_step (n, d, t) = inr (sgn_of (Z.testbit t 1) * jm n d).
Proof.
  intros Hn Hd Od.
  destruct (run_until_measure jacobinary_step (jb_inv (sgn_of (Z.testbit t 1) * jm n d))
              (fun r => r = sgn_of (Z.testbit t 1) * jm n d) jb_mu (jacobinary_step_spec _) 8 (n, d, t)) as (r & E & ->).
  - repeat split; try lia; assumption.
  - unfold jb_mu. change (2 ^ Z.of_nat 8) with 256. destruct (n =? 0); [lia|].
    assert (Z.log2 (n * d) < Z.of_nat 128); [|lia]. apply log2_lt_pow; [nia| |lia].
    replace (2 ^ Z.of_nat 128) with (W * W) by reflexivity. nia.
  - exact E.
Qed.

(** ** One round of the outer loop *)
Lemma appr_bounds z h low : 0 <= z <= 63 -> 0 <= h < 2 ^ (64 - z) ->
  0 <= appr z h low < 2 * H63 /\ (2 ^ (63 - z) <= h <-> H63 <= appr z h low) /\ (B32 | appr z h low - low).
Proof.
  intros Hz Hh. unfold appr. pose proof B32_pos as BP. pose proof (Z.mod_pos_bound low B32 BP) as ML.
  pose proof (Z.div_mod (h * 2 ^ z) B32 ltac:(lia)) as DM. pose proof (Z.mod_pos_bound (h * 2 ^ z) B32 BP) as MM.
  set (q := h * 2 ^ z / B32) in *. set (r := (h * 2 ^ z) mod B32) in *.
  assert (P : 0 < 2 ^ z) by (apply Z.pow_pos_nonneg; lia).
  assert (E1 : 2 ^ (64 - z) = 2 * 2 ^ (63 - z)) by (replace (64 - z) with (Z.succ (63 - z)) by lia; apply Z.pow_succ_r; lia).
  assert (E2 : 2 ^ (63 - z) * 2 ^ z = H63) by (rewrite <- Z.pow_add_r by lia; replace (63 - z + z) with 63 by ring; reflexivity).
  pose proof H63_B32 as HB. pose proof B32_even as BE.
  set (p := 2 ^ (63 - z)) in *. set (k := 2 ^ z) in *. set (l := low mod B32) in *.
  assert (HH : h * k < 2 * H63) by (clear - E1 E2 Hh P; nia). assert (H0 : 0 <= h * k) by (clear - Hh P; nia).
  clearbody q r. set (m := B32 / 2) in *. clearbody m. set (B := B32) in *.
  assert (DL : (B | q * B + l - low)).
  { exists (q - low / B). pose proof (Z.div_mod low B ltac:(lia)). unfold l. nia. }
  clearbody l B.
  assert (q < 2 * m) by (clear - DM MM HB BP HH; nia). assert (0 <= q) by (clear - DM MM BP H0; nia).
  split; [split; [clear - H1 BP ML; nia|clear - H ML HB BP; nia]|]. split; [|exact DL].
  split; intros G.
  - assert (H63 <= h * k) by (clear - G E2 P; nia). assert (m <= q) by (clear - H2 DM MM HB BP; nia). clear - H3 HB BP ML; nia.
  - assert (m <= q) by (clear - G HB BP ML; nia). assert (H63 <= h * k) by (clear - H2 DM MM HB BP; nia). clear - H3 E2 P; nia.
Qed.
Lemma appr_mono z h h' low low' : 0 <= z -> h <= h' -> appr z h low < appr z h' low' + B32.
Proof.
  intros Hz H. unfold appr. pose proof B32_pos as BP.
  assert (P : 0 < 2 ^ z) by (apply Z.pow_pos_nonneg; lia).
  assert (h * 2 ^ z / B32 <= h' * 2 ^ z / B32) by (apply Z.div_le_mono; nia).
  pose proof (Z.mod_pos_bound low B32 BP). pose proof (Z.mod_pos_bound low' B32 BP). nia.
Qed.

Lemma eval_low x : words x -> (B32 | nth 0 x 0 - eval x).
Proof.
  intros Wx. destruct x as [|h x]; cbn [nth eval]; [exists 0; ring|].
  exists (- (B32 * eval x)). rewrite W_B32. ring.
Qed.
Lemma firstn_bound x i : words x -> (i < length x)%nat -> 0 <= eval (firstn i x) < Wn i.
Proof.
  intros Hw Hi. pose proof (eval_bound (firstn i x)) as B. rewrite firstn_length_le in B by lia.
  apply B. apply (Forall_forall _ _). intros v Hv. apply (proj1 (Forall_forall _ _) Hw).
  rewrite <- (firstn_skipn i x). apply in_or_app. now left.
Qed.

(** What [approximate] guarantees when more than one limb is in use. *)
Lemma approximate_progress L x y a b : (1 <= L)%nat -> length x = L -> length y = L -> words x -> words y ->
  approximate L x y = Some (a, b, false) ->
  exists e, let Q := 2 ^ e in 0 <= e /\ 0 <= eval x < 2 * Q /\ 0 <= eval y < 2 * Q /\
    0 <= a < 2 * H63 /\ 0 <= b < 2 * H63 /\ (Q <= eval x <-> H63 <= a) /\ (Q <= eval y <-> H63 <= b) /\
    (Q <= eval x \/ Q <= eval y) /\ (eval x < eval y -> a < b + B32) /\ (eval y < eval x -> b < a + B32) /\
    (B32 | a - eval x) /\ (B32 | b - eval y).
Proof.
  intros HL Lx Ly Wx Wy EA. pose proof (approximate_spec L x y HL Lx Ly Wx Wy) as A. rewrite EA in A.
  destruct A as (i & z & Hi & Hz & Ex & Ey & Ux & Uy & T & -> & ->).
  exists (63 - z + 64 * Z.of_nat i). cbv zeta.
  assert (EQ : 2 ^ (63 - z + 64 * Z.of_nat i) = Wn i * 2 ^ (63 - z)).
  { rewrite Z.pow_add_r, (Z.pow_mul_r 2 64) by lia. change (2 ^ 64) with W. unfold Wn. ring. }
  rewrite EQ.
  pose proof (firstn_bound x i Wx ltac:(lia)) as Fx. pose proof (firstn_bound y i Wy ltac:(lia)) as Fy.
  pose proof (nth_word x i Wx) as Nx. pose proof (nth_word y i Wy) as Ny.
  destruct (appr_bounds z (nth i x 0) (nth 0 x 0) Hz ltac:(lia)) as (A1 & A2 & A3).
  destruct (appr_bounds z (nth i y 0) (nth 0 y 0) Hz ltac:(lia)) as (B1 & B2' & B3).
  assert (E1 : 2 ^ (64 - z) = 2 * 2 ^ (63 - z)) by (replace (64 - z) with (Z.succ (63 - z)) by lia; apply Z.pow_succ_r; lia).
  pose proof (Wn_pos i) as WP. pose proof (eval_low x Wx) as LX. pose proof (eval_low y Wy) as LY.
  assert (M1 : nth i x 0 <= nth i y 0 -> appr z (nth i x 0) (nth 0 x 0) < appr z (nth i y 0) (nth 0 y 0) + B32)
    by (apply appr_mono; lia).
  assert (M2 : nth i y 0 <= nth i x 0 -> appr z (nth i y 0) (nth 0 y 0) < appr z (nth i x 0) (nth 0 x 0) + B32)
    by (apply appr_mono; lia).
  set (a := appr z (nth i x 0) (nth 0 x 0)) in *. set (b := appr z (nth i y 0) (nth 0 y 0)) in *.
  assert (DA : (B32 | a - eval x)) by (replace (a - eval x) with ((a - nth 0 x 0) + (nth 0 x 0 - eval x)) by ring; now apply Z.divide_add_r).
  assert (DB : (B32 | b - eval y)) by (replace (b - eval y) with ((b - nth 0 y 0) + (nth 0 y 0 - eval y)) by ring; now apply Z.divide_add_r).
  set (xi := nth i x 0) in *. set (yi := nth i y 0) in *. set (T0 := Wn i) in *. set (P := 2 ^ (63 - z)) in *.
  rewrite E1 in Ux, Uy.
  assert (TX : T0 * P <= eval x <-> P <= xi) by (rewrite Ex; clear - Fx WP; split; nia).
  assert (TY : T0 * P <= eval y <-> P <= yi) by (rewrite Ey; clear - Fy WP; split; nia).
  split; [lia|]. split; [rewrite Ex; clear - Fx WP Nx Ux; nia|]. split; [rewrite Ey; clear - Fy WP Ny Uy; nia|].
  split; [exact A1|]. split; [exact B1|]. split; [rewrite TX; exact A2|]. split; [rewrite TY; exact B2'|].
  split; [rewrite TX, TY; exact T|]. split.
  - intros C. apply M1. rewrite Ex, Ey in C. clear - C Fx Fy WP. nia.
  - split; [|split; assumption]. intros C. apply M2. rewrite Ex, Ey in C. clear - C Fx Fy WP. nia.
Qed.

Lemma Wn_pow2 n : Wn n = 2 ^ (64 * Z.of_nat n).
Proof. rewrite Z.pow_mul_r by lia. reflexivity. Qed.

(** How far the approximations, scaled by [s], are from the values; and if it is far for one of the two, its
    approximation has no high bits. *)
Lemma appr_err z h low : 0 <= z -> Z.abs (h * 2 ^ z - appr z h low) <= B32.
Proof.
  intros Hz. unfold appr. pose proof B32_pos as BP. pose proof (Z.mod_pos_bound low B32 BP) as ML.
  pose proof (Z.div_mod (h * 2 ^ z) B32 ltac:(lia)) as DM. pose proof (Z.mod_pos_bound (h * 2 ^ z) B32 BP) as MM.
  clear - ML DM MM. lia.
Qed.
Lemma appr_none z h low : 0 <= h * 2 ^ z < B32 -> appr z h low < B32.
Proof.
  intros H. unfold appr. rewrite Z.div_small by exact H. pose proof (Z.mod_pos_bound low B32 B32_pos). lia.
Qed.
Lemma approximate_size L x y a b : (1 <= L)%nat -> length x = L -> length y = L -> words x -> words y ->
  approximate L x y = Some (a, b, false) ->
  exists s E, 0 < s /\ 0 <= E /\ Z.abs (eval x - s * a) <= E /\ Z.abs (eval y - s * b) <= E /\
    W <= Z.max (eval x) (eval y) /\
    ((E <= 2 * eval x /\ E <= 2 * eval y) \/ (a < B32 /\ H63 <= b /\ eval x <= eval y) \/ (b < B32 /\ H63 <= a /\ eval y <= eval x)).
Proof.
  intros HL Lx Ly Wx Wy EA. pose proof (approximate_spec L x y HL Lx Ly Wx Wy) as A. rewrite EA in A.
  destruct A as (i & z & Hi & Hz & Ex & Ey & Ux & Uy & T & -> & ->).
  pose proof (firstn_bound x i Wx ltac:(lia)) as Fx. pose proof (firstn_bound y i Wy ltac:(lia)) as Fy.
  pose proof (nth_word x i Wx) as Nx. pose proof (nth_word y i Wy) as Ny.
  destruct (appr_bounds z (nth i x 0) (nth 0 x 0) Hz ltac:(lia)) as (_ & A2 & _).
  destruct (appr_bounds z (nth i y 0) (nth 0 y 0) Hz ltac:(lia)) as (_ & B2' & _).
  pose proof (appr_err z (nth i x 0) (nth 0 x 0) (proj1 Hz)) as AE. pose proof (appr_err z (nth i y 0) (nth 0 y 0) (proj1 Hz)) as BE.
  pose proof (appr_none z (nth i x 0) (nth 0 x 0)) as AN. pose proof (appr_none z (nth i y 0) (nth 0 y 0)) as BN.
  set (a := appr z (nth i x 0) (nth 0 x 0)) in *. set (b := appr z (nth i y 0) (nth 0 y 0)) in *.
  assert (PZ : 0 < 2 ^ z) by (apply Z.pow_pos_nonneg; lia).
  assert (S0 : exists s, 0 < s /\ Wn i = s * 2 ^ z).
  { exists (2 ^ (64 * Z.of_nat i - z)). split; [apply Z.pow_pos_nonneg; lia|].
    rewrite <- Z.pow_add_r by lia. rewrite Wn_pow2. f_equal. ring. }
  assert (EH : 2 ^ (63 - z) * 2 ^ z = H63) by (rewrite <- Z.pow_add_r by lia; replace (63 - z + z) with 63 by ring; reflexivity).
  assert (WW : W <= Wn i).
  { unfold Wn. replace W with (W ^ 1) at 1 by apply Z.pow_1_r. apply Z.pow_le_mono_r; [reflexivity|lia]. }
  assert (HB : B32 <= H63) by (vm_compute; discriminate).
  assert (P63 : 1 <= 2 ^ (63 - z)) by (apply (Z.pow_le_mono_r 2 0); lia).
  pose proof B32_pos as BP. pose proof (Wn_pos i) as WP.
  destruct S0 as (s & Ps & ES).
  set (xi := nth i x 0) in *. set (yi := nth i y 0) in *. set (T0 := Wn i) in *. set (P := 2 ^ (63 - z)) in *.
  set (q := 2 ^ z) in *. set (fx := eval (firstn i x)) in *. set (fy := eval (firstn i y)) in *.
  set (B := B32) in *. set (H := H63) in *. set (ex := eval x) in *. set (ey := eval y) in *.
  clearbody a b xi yi T0 P q fx fy ex ey. clearbody B H.
  exists s, (s * B + T0). split; [exact Ps|]. split; [clear - Ps BP WP; nia|].
  assert (ERR : forall e f h c, e = f + T0 * h -> 0 <= f < T0 -> Z.abs (h * q - c) <= B -> Z.abs (e - s * c) <= s * B + T0).
  { intros e f h c -> Hf Hc. replace (f + T0 * h - s * c) with (f + s * (h * q - c)) by (rewrite ES; ring).
    clear - Hf Hc Ps. assert (- (s * B) <= s * (h * q - c) <= s * B) by nia. lia. }
  split; [exact (ERR ex fx xi a Ex Fx AE)|]. split; [exact (ERR ey fy yi b Ey Fy BE)|].
  assert (BIG : forall e f h, e = f + T0 * h -> 0 <= f < T0 -> P <= h -> W <= e).
  { intros e f h -> Hf Hh. assert (T0 <= T0 * h) by (clear - Hh P63 WP; nia). clear - Hf WW H0. lia. }
  split.
  { destruct T as [T|T]; [pose proof (BIG ex fx xi Ex Fx T)|pose proof (BIG ey fy yi Ey Fy T)]; lia. }
  assert (TWO : forall e f h, e = f + T0 * h -> 0 <= f < T0 -> 0 <= h -> B <= h * q -> s * B + T0 <= 2 * e).
  { intros e f h -> Hf Hh Hq. assert (1 <= h) by (destruct (Z.eq_dec h 0) as [-> |]; [clear - Hq BP; lia|clear - n Hh; lia]).
    assert (s * B <= T0 * h) by (rewrite ES; replace (s * q * h) with (s * (h * q)) by ring; apply Z.mul_le_mono_nonneg_l; [clear - Ps; lia|exact Hq]). assert (T0 <= T0 * h) by (clear - H0 WP; nia). lia. }
  assert (CMP : forall e f h e' f' h', e = f + T0 * h -> 0 <= f < T0 -> e' = f' + T0 * h' -> 0 <= f' < T0 ->
    h * q < B -> P <= h' -> e <= e').
  { intros e f h e' f' h' -> Hf -> Hf' Hh Hh'. assert (h < h') by (clear - Hh Hh' EH HB PZ; nia). clear - Hf Hf' H0 WP. nia. }
  destruct (Z_lt_ge_dec (xi * q) B) as [Cx|Cx]; [|destruct (Z_lt_ge_dec (yi * q) B) as [Cy|Cy]].
  - right. left. split; [apply AN; split; [clear - Nx PZ; nia|exact Cx]|].
    assert (P <= yi) by (destruct T as [T|T]; [exfalso; clear - T Cx EH HB PZ; nia|exact T]).
    split; [now apply B2'|]. exact (CMP ex fx xi ey fy yi Ex Fx Ey Fy Cx H0).
  - right. right. split; [apply BN; split; [clear - Ny PZ; nia|exact Cy]|].
    assert (P <= xi) by (destruct T as [T|T]; [exact T|exfalso; clear - T Cy EH HB PZ; nia]).
    split; [now apply A2|]. exact (CMP ey fy yi ex fx xi Ey Fy Ex Fx Cy H0).
  - left. split; [apply (TWO ex fx xi)|apply (TWO ey fy yi)]; try assumption; clear - Cx Cy Nx Ny; lia.
Qed.

Definition jo_lim (L : nat) : Z := Wn L / 2 ^ 31.
Lemma jo_lim_spec L : (1 <= L)%nat -> Wn L = 2 ^ 31 * jo_lim L /\ 0 < jo_lim L.
Proof.
  intros HL. destruct L as [|L]; [lia|]. unfold jo_lim. rewrite Wn_S.
  replace (W * Wn L) with (2 ^ 33 * Wn L * 2 ^ 31).
  - rewrite Z.div_mul by (intros A; discriminate A). pose proof (Wn_pos L). split; [ring|]. nia.
  - change W with (2 ^ 33 * 2 ^ 31). ring.
Qed.

Definition jo_inv (L : nat) (sigma : Z) (s : list Z * list Z * Z) : Prop :=
  let '(nl, dl, t) := s in exists n d, lin L nl n /\ lin L dl d /\ 0 <= n < jo_lim L /\ 0 < d < jo_lim L /\
    Z.odd d = true /\ sgn_of (Z.testbit t 1) * jm n d = sigma.
Definition jo_mu (s : list Z * list Z * Z) : Z :=
  let '(nl, dl, t) := s in 34 * Z.log2 (Z.max (eval nl) (eval dl)) + Z.log2 (eval nl * eval dl).

Lemma lin_value L a v : lin L a v -> 0 <= v < Wn L -> eval a = v.
Proof. intros (_ & _ & E) H. rewrite E. now apply Z.mod_small. Qed.

Lemma log2_grow k x y : 0 <= k -> 0 < x -> x <= 2 ^ k * y -> Z.log2 x <= k + Z.log2 y.
Proof.
  intros Hk Hx H. pose proof (Z.pow_pos_nonneg 2 k ltac:(lia) Hk) as P. assert (0 < y) by nia.
  rewrite <- Z.log2_mul_pow2 by lia. apply Z.log2_le_mono. lia.
Qed.
Lemma log2_shrink k x y : 0 <= k -> 0 < x -> 2 ^ k * x <= y -> k + Z.log2 x <= Z.log2 y.
Proof. intros Hk Hx H. rewrite <- Z.log2_mul_pow2 by lia. apply Z.log2_le_mono. lia. Qed.
(** Either the larger number loses a bit, then the product gains at most five, or the product loses 29. *)
Lemma jo_mu_drop n d n' d' : 0 <= n -> 0 < d -> 0 < n' -> 0 < d' ->
  Z.max n' d' <= Z.max n d -> n' * d' <= 32 * (n * d) ->
  (exists e, 0 <= e /\ Z.max n' d' < 2 ^ e /\ 2 ^ e <= Z.max n d) \/ 2 ^ 29 * (n' * d') <= n * d ->
  0 <= 34 * Z.log2 (Z.max n' d') + Z.log2 (n' * d') /\
  34 * Z.log2 (Z.max n' d') + Z.log2 (n' * d') + 29 <= 34 * Z.log2 (Z.max n d) + Z.log2 (n * d).
Proof.
  intros Hn Hd Hn' Hd' HM HP C.
  pose proof (Z.log2_nonneg (Z.max n' d')) as L1. pose proof (Z.log2_nonneg (n' * d')) as L2.
  pose proof (Z.log2_le_mono _ _ HM) as L4.
  pose proof (log2_grow 5 (n' * d') (n * d) ltac:(lia) ltac:(nia) HP) as L5.
  split; [lia|]. destruct C as [(e & He & C1 & C2)|C].
  - assert (Z.log2 (Z.max n' d') < e) by (apply Z.log2_lt_pow2; lia).
    assert (e <= Z.log2 (Z.max n d)) by (apply Z.log2_le_pow2; lia). lia.
  - pose proof (log2_shrink 29 (n' * d') (n * d) ltac:(lia) ltac:(nia) C). lia.
Qed.

Lemma comb_bound M n d u v N : 0 <= n <= M -> 0 <= d <= M -> Z.abs u + Z.abs v <= 2 ^ 30 ->
  2 ^ 30 * N = n * u + d * v -> Z.abs N <= M.
Proof.
  intros Hn Hd Hu E. assert (K : 2 ^ 30 * Z.abs N <= 2 ^ 30 * M).
  { replace (2 ^ 30 * Z.abs N) with (Z.abs (n * u + d * v)) by (rewrite <- E, Z.abs_mul; reflexivity).
    pose proof (Z.abs_triangle (n * u) (d * v)) as T. rewrite !Z.abs_mul, (Z.abs_eq n), (Z.abs_eq d) in T by lia.
    pose proof (Z.abs_nonneg u). pose proof (Z.abs_nonneg v). nia. }
  change (2 ^ 30) with 1073741824 in K. lia.
Qed.

Lemma jac_step_spec L sigma s : (1 <= L)%nat -> jo_inv L sigma s ->
  (exists r, jac_step L s = inr r /\ r = JVal sigma) \/
  (exists s', jac_step L s = inl s' /\ jo_inv L sigma s' /\ 0 <= jo_mu s' /\ jo_mu s' + 29 <= jo_mu s /\ 2176 <= jo_mu s).
Proof.
  intros HL. destruct s as [[nl dl] t]. intros (n & d & Ln & Ld & Hn & Hd & Od & Sy).
  destruct (jo_lim_spec L HL) as [EL PL].
  assert (Vn : eval nl = n) by (apply (lin_value L); [exact Ln|lia]).
  assert (Vd : eval dl = d) by (apply (lin_value L); [exact Ld|lia]).
  pose proof Ln as (Cn & Wn' & _). pose proof Ld as (Cd & Wd' & _).
  pose proof (approximate_spec L nl dl HL Cn Cd Wn' Wd') as A. unfold jac_step.
  destruct (approximate L nl dl) as [[[a b] [|]]|] eqn:EA.
  - destruct A as (-> & -> & A1 & A2). left. rewrite Vn, Vd in *. rewrite jacobinary_spec by (try lia; assumption).
    rewrite Sy. eauto.
  - clear A. destruct (approximate_progress L nl dl a b HL Cn Cd Wn' Wd' EA)
      as (e & He & Bx & By & Ba & Bb & T1 & T2 & TT & O1 & O2 & Da & Db).
    rewrite Vn, Vd in *. assert (QP : 0 < 2 ^ e) by (apply Z.pow_pos_nonneg; [reflexivity|exact He]).
    pose proof W_double as WD.
    assert (V : jinv n d sigma (mk_jin a b 1 0 0 1 t 30) n d).
    { constructor; cbn [ja jb ju0 ju1 jv0 jv1 jt ji].
      - split; discriminate.
      - rewrite WD; exact Ba.
      - rewrite WD; exact Bb.
      - change (2 ^ (30 - 30)) with 1. ring.
      - change (2 ^ (30 - 30)) with 1. ring.
      - discriminate.
      - discriminate.
      - exact Da.
      - exact Db.
      - exact Od.
      - left. exact (proj1 Hd).
      - exact Sy. }
    destruct (approximate_size L nl dl a b HL Cn Cd Wn' Wd' EA) as (sc & E & Psc & PE & En & Ed & WM & SZ).
    rewrite Vn, Vd in *.
    set (m := Z.min n d).
    pose (keep := fun a' b' N D i => prog (2 ^ e) n d a b a' b' N D i /\ size a b sc E a' b' N D i /\
      ((E <= 2 * n /\ E <= 2 * d) \/ lopsided n d a b m a' b' N D i)).
    assert (KEEP : forall a1 b1 N1 D1 i1 a2 b2 N2 D2 i2, 0 < i1 <= 30 -> 0 <= a1 -> 0 <= b1 ->
      keep a1 b1 N1 D1 i1 -> jmove a1 b1 N1 D1 i1 a2 b2 N2 D2 i2 -> keep a2 b2 N2 D2 i2).
    { intros a1 b1 N1 D1 i1 a2 b2 N2 D2 i2 Hi Pa Pb (K1 & K2 & K3) MV.
      split; [exact (prog_step _ _ _ _ _ Bx By Ba Bb T1 T2 TT O1 O2 _ _ _ _ _ _ _ _ _ _ Hi Pa Pb K1 MV)|].
      split; [exact (size_step n d a b sc E Psc PE (proj1 Hn) (Z.lt_le_incl _ _ (proj1 Hd)) (proj1 Ba) (proj1 Bb) En Ed _ _ _ _ _ _ _ _ _ _ Hi Pa Pb K2 MV)|].
      destruct K3 as [K3|K3]; [left; exact K3|right; exact (lopsided_step n d a b sc E Psc PE (proj1 Hn) (Z.lt_le_incl _ _ (proj1 Hd)) (proj1 Ba) (proj1 Bb) En Ed _ _ _ _ _ _ _ _ _ _ _ Hi Pa Pb K3 MV)]. }
    assert (INIT : keep a b n d 30).
    { split; [apply prog_init|]. split; [apply size_init; assumption || (clear - Hn Hd Ba Bb; lia)|].
      destruct SZ as [SZ|[(Z1 & Z2 & Z3)|(Z1 & Z2 & Z3)]]; [left; exact SZ|right..].
      - apply LO1; try assumption; try reflexivity; try (rewrite Z.sub_diag, Z.pow_0_r; ring). unfold m; clear - Z3; lia.
      - apply LO2; [unfold m; clear - Z3 Hd; lia|clear - Z1 Bb; lia|]. rewrite Z.sub_diag, Z.pow_0_r. clear - Z2 Bb. lia. }
    destruct (jac_inner_spec n d sigma keep KEEP 30 (mk_jin a b 1 0 0 1 t 30) n d)
      as (s' & N & D & -> & Ei & V' & PR & SZ1 & SZ2).
    { cbn [ji]. discriminate. }
    { exact V. }
    { exact INIT. }
    clear keep KEEP INIT.
    apply (prog_final _ _ _ _ _ QP Bx By T1 T2 TT) in PR.
    clear V. destruct V' as [_ _ _ VN VD Vu Vv _ _ VO VP VS].
    rewrite Ei in VN, VD, Vu, Vv. change (30 - 0) with 30 in VN, VD, Vu, Vv.
    set (M := Z.max n d).
    assert (M1 : 0 <= n <= M) by (unfold M; clear - Hn; lia). assert (M2 : 0 <= d <= M) by (unfold M; clear - Hd; lia).
    pose proof (comb_bound M n d (ju0 s') (ju1 s') N M1 M2 Vu VN) as BN.
    pose proof (comb_bound M n d (jv0 s') (jv1 s') D M1 M2 Vv VD) as BD.
    assert (PB : Z.abs N * Z.abs D <= 32 * (n * d)).
    { destruct SZ2 as [[Z1 Z2]|Z].
      - exact (size_final _ _ _ _ _ _ Psc PE (proj1 Hn) (Z.lt_le_incl _ _ (proj1 Hd)) (proj1 Ba) (proj1 Bb) En Ed _ _ _ _ SZ1 Z1 Z2 BN BD).
      - apply (lopsided_final _ _ _ _ _ _ Psc PE (proj1 Hn) (Z.lt_le_incl _ _ (proj1 Hd)) (proj1 Ba) (proj1 Bb) En Ed) in Z. assert (m * M = n * d) by (unfold m, M; clear; destruct (Z.le_ge_cases n d); [rewrite Z.min_l, Z.max_r by assumption|rewrite Z.min_r, Z.max_l by assumption]; ring).
        pose proof (Z.abs_nonneg N). pose proof (Z.abs_nonneg D). clear - Z H H0 H1 BN BD M1. nia. }
    assert (BM : M < jo_lim L) by (unfold M; clear - Hn Hd; lia).
    assert (K30 : 2 ^ 30 < H63) by reflexivity.
    assert (K31 : 2 ^ 31 = 2 * 2 ^ 30) by reflexivity.
    assert (LC : forall u v X, Z.abs u + Z.abs v <= 2 ^ 30 -> 2 ^ 30 * X = n * u + d * v -> Z.abs X <= M ->
      lin L (lint_shr (lint_add (lint_mul_i64 nl u) (lint_mul_i64 dl v)) 30) X).
    { intros u v X Huv EX BX.
      assert (U1 : - H63 < u < H63) by (clear - Huv K30; lia). assert (U2 : - H63 < v < H63) by (clear - Huv K30; lia).
      pose proof (lin_add L _ _ _ _ (lin_mul_i64 L nl n u Ln U1) (lin_mul_i64 L dl d v Ld U2)) as LA.
      rewrite <- EX in LA.
      assert (LR : lrange L (2 ^ 30 * X)).
      { unfold lrange. rewrite EL, K31. clear - BX BM PL. change (2 ^ 30) with 1073741824. lia. }
      pose proof (lin_shr L _ _ 30 HL (conj eq_refl eq_refl) LA LR) as LS.
      replace (2 ^ 30 * X / 2 ^ 30) with X in LS; [exact LS|]. rewrite Z.mul_comm, Z.div_mul; [reflexivity|discriminate]. }
    pose proof (LC _ _ N Vu VN BN) as LN. pose proof (LC _ _ D Vv VD BD) as LD. clear LC.
    set (n' := lint_shr (lint_add (lint_mul_i64 nl (ju0 s')) (lint_mul_i64 dl (ju1 s'))) 30) in *.
    set (d' := lint_shr (lint_add (lint_mul_i64 nl (jv0 s')) (lint_mul_i64 dl (jv1 s'))) 30) in *.
    cbv zeta. clearbody n' d'.
    assert (LR : forall X, Z.abs X <= M -> lrange L X).
    { intros X HX. unfold lrange. rewrite EL. clear - HX BM PL. change (2 ^ 31) with 2147483648. lia. }
    assert (LR0 : lrange L 0) by (apply LR; clear - M1; lia).
    assert (LR1 : lrange L 1) by (apply LR; clear - M2 Hd; lia).
    rewrite (lin_eqb L n' _ N 0 LN (lin_zero L) (LR _ BN) LR0).
    rewrite (lin_eqb L d' _ D 1 LD (lin_one L HL) (LR _ BD) LR1).
    rewrite (lin_is_negative L n' N HL LN (LR _ BN)), (lin_is_negative L d' D HL LD (LR _ BD)).
    assert (ND : D <> 0) by (intros ->; discriminate).
    assert (FIN : forall x y xl yl t', lin L xl x -> lin L yl y -> 0 < x -> 0 < y -> x = Z.abs N -> y = Z.abs D ->
      sgn_of (Z.testbit t' 1) * jm x y = sigma ->
      jo_inv L sigma (xl, yl, t') /\ 0 <= jo_mu (xl, yl, t') /\ jo_mu (xl, yl, t') + 29 <= jo_mu (nl, dl, t) /\ 2176 <= jo_mu (nl, dl, t)).
    { intros x y xl yl t' Lx Ly Px Py Ex Ey St.
      assert (Bx' : 0 <= x < Wn L).
      { rewrite EL, Ex. clear - BN BM PL. change (2 ^ 31) with 2147483648. lia. }
      assert (By' : 0 <= y < Wn L).
      { rewrite EL, Ey. clear - BD BM PL. change (2 ^ 31) with 2147483648. lia. }
      split.
      - exists x, y. split; [exact Lx|]. split; [exact Ly|]. split; [clear - Px Ex BN BM; lia|].
        split; [clear - Py Ey BD BM; lia|]. split; [|exact St]. rewrite Ey. clear - VO. destruct D; exact VO.
      - unfold jo_mu. rewrite (lin_value L xl x Lx Bx'), (lin_value L yl y Ly By'), Vn, Vd.
        rewrite <- and_assoc. split; [|fold M in WM |- *; clear - WM].
        2:{ pose proof (Z.log2_nonneg (n * d)). rewrite W_pow in WM. assert (64 <= Z.log2 M) by (apply Z.log2_le_pow2; [clear - WM; lia|exact WM]). lia. }
        apply jo_mu_drop.
        + apply Hn.
        + apply Hd.
        + exact Px.
        + exact Py.
        + fold M. clear - Ex Ey BN BD; lia.
        + rewrite Ex, Ey. exact PB.
        + destruct PR as [PR|PR]; [left; exists e|right; rewrite Ex, Ey; exact PR].
          split; [exact He|]. split; [rewrite Ex, Ey; clear - PR; lia|clear - TT; lia]. }
    destruct (Z.eqb_spec N 0) as [EN|NN].
    + left. eexists. split; [reflexivity|]. f_equal. rewrite jac_result_spec, <- VS, EN, jm_0.
      assert (0 < D) by (clear - VP EN; lia). rewrite Z.abs_eq by (clear - H; lia). destruct (D =? 1); ring.
    + right. destruct (Z.ltb_spec N 0) as [CN|CN].
      * assert (PD : 0 < D) by (clear - VP CN; lia).
        eexists. split; [reflexivity|]. apply (FIN (- N) D).
        -- now apply lin_neg.
        -- exact LD.
        -- clear - CN; lia.
        -- exact PD.
        -- clear - CN; lia.
        -- clear - PD; lia.
        -- rewrite Z.lxor_spec, (lin_lowest L d' D HL LD).
           rewrite W_pow. rewrite Z.mod_pow2_bits_low by easy.
           rewrite sgn_xor, jm_neg by assumption. rewrite <- VS. pose proof (sgn_sq (Z.testbit D 1)) as SQ.
           set (u := sgn_of (Z.testbit D 1)) in *. set (w := sgn_of (Z.testbit (jt s') 1)).
           replace (w * u * (u * jm N D)) with (w * (u * u) * jm N D) by ring. rewrite SQ. ring.
      * destruct (Z.ltb_spec D 0) as [CD|CD]; eexists; (split; [reflexivity|]).
        -- apply (FIN N (- D)); [exact LN|now apply lin_neg|clear - CN NN; lia|clear - CD; lia|clear - CN; lia|clear - CD; lia|].
           rewrite jm_abs. exact VS.
        -- apply (FIN N D); [exact LN|exact LD|clear - CN NN; lia|clear - CD ND; lia|clear - CN; lia|clear - CD; lia|exact VS].
  - exfalso. destruct A as [_ A]. rewrite Vd in A. clear - A Hd. lia.
Qed.

Lemma jac_step_drop L sigma s : (1 <= L)%nat -> jo_inv L sigma s ->
  (exists r, jac_step L s = inr r /\ r = JVal sigma) \/
  (exists s', jac_step L s = inl s' /\ jo_inv L sigma s' /\ 0 <= jo_mu s' < jo_mu s).
Proof.
  intros HL I. destruct (jac_step_spec L sigma s HL I) as [H|(s' & E & I' & P1 & P2 & _)]; [left; exact H|right].
  exists s'. split; [exact E|]. split; [exact I'|]. lia.
Qed.
Lemma jo_mu_bits b nl dl t : (1 <= b)%nat -> 0 <= eval nl < 2 ^ Z.of_nat b -> 0 <= eval dl < 2 ^ Z.of_nat b ->
  jo_mu (nl, dl, t) <= 36 * Z.of_nat b - 35.
Proof.
  intros Hb Hn Hd. unfold jo_mu. set (n := eval nl) in *. set (d := eval dl) in *. clearbody n d.
  assert (A : Z.log2 (Z.max n d) < Z.of_nat b) by (apply log2_lt_pow; lia).
  assert (B : Z.log2 (n * d) < Z.of_nat (b + b)).
  { apply log2_lt_pow; [nia| |lia]. rewrite Nat2Z.inj_add, Z.pow_add_r by lia. nia. }
  lia.
Qed.
Lemma jo_mu_start L nl dl t : (1 <= L)%nat -> 0 <= eval nl < Wn L -> 0 <= eval dl < Wn L ->
  jo_mu (nl, dl, t) < 2 ^ Z.of_nat (2 * L + 16).
Proof.
  intros HL Hn Hd. pose proof (jo_mu_bits (64 * L) nl dl t ltac:(lia)) as B.
  replace (2 ^ Z.of_nat (64 * L)) with (Wn L) in B by (rewrite Wn_pow2; f_equal; lia).
  specialize (B Hn Hd). replace (Z.of_nat (2 * L + 16)) with (2 * Z.of_nat L + 16) by lia.
  rewrite Z.pow_add_r by lia. change (2 ^ 16) with 65536.
  assert (G : 2 * Z.of_nat L < 2 ^ (2 * Z.of_nat L)) by (apply Z.pow_gt_lin_r; lia).
  clear - B G HL. lia.
Qed.

(** The function: the Jacobi symbol of any two numbers that leave the top 31 bits of
    the [L] limbs free, the second odd. *)
Theorem jacobi_spec L nl dl : (1 <= L)%nat -> words nl -> words dl -> (length nl <= L)%nat -> (length dl <= L)%nat ->
  eval nl < jo_lim L -> eval dl < jo_lim L -> Z.odd (eval dl) = true ->
  jacobi L nl dl = JVal (jacobi_symbol (eval nl) (eval dl)).
Proof.
  intros HL Wn' Wd' Ln Ld Bn Bd Od. unfold jacobi.
  pose proof (lint_new_spec L nl Wn') as X. pose proof (lint_new_spec L dl Wd') as Y.
  destruct (lint_new L nl) as [x|]; [destruct X as (_ & Lx & Ex)|lia].
  destruct (lint_new L dl) as [y|]; [destruct Y as (_ & Ly & Ey)|lia].
  destruct (jo_lim_spec L HL) as [EL PL].
  pose proof (eval_bound nl Wn') as [N0 _]. pose proof (eval_bound dl Wd') as [D0 _].
  assert (ND : eval dl <> 0) by (intros E; rewrite E in Od; discriminate).
  assert (KW : jo_lim L < Wn L) by (rewrite EL; clear - PL; change (2 ^ 31) with 2147483648; lia).
  destruct (run_until_measure (jac_step L) (jo_inv L (jacobi_symbol (eval nl) (eval dl)))
     (fun r => r = JVal (jacobi_symbol (eval nl) (eval dl))) jo_mu
     (fun s => jac_step_drop L _ s HL) (2 * L + 16) (x, y, 0)) as (r & -> & ->).
  - exists (eval nl), (eval dl). split; [exact Lx|]. split; [exact Ly|].
    split; [lia|]. split; [lia|]. split; [exact Od|]. unfold jm. rewrite Z.abs_eq by exact D0.
    change (sgn_of (Z.testbit 0 1)) with 1. ring.
  - apply jo_mu_start; [exact HL| |]; lia.
  - reflexivity.
Qed.
