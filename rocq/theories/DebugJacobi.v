(** The overflow-checked build of [jacobi] and of [get_booth_index] does not panic. *)
From Verif Require Import Msm Base Word Limbs Bytes SpecField BytesFacts MsmFacts LimbsFacts Field Inverse InverseFacts
  SpecJacobi JacSymFacts Jacobi JacobiLint JacobiInner JacobiProg JacobiFacts JacobiLoop Debug DebugFacts.

Lemma prodsum_d_ok x y s c : 0 <= x < W -> 0 <= y < W -> 0 <= s < W -> 0 <= c < W ->
  lint_prodsum_d x y s c = Some (lint_prodsum x y s c).
Proof.
  intros Hx Hy Hs Hc. unfold lint_prodsum_d, lint_prodsum.
  assert (B : 0 <= x * y + c + s < W * W) by nia.
  rewrite u128c_ok by nia. cbn [obind]. rewrite u128c_ok by nia. cbn [obind].
  rewrite u128c_ok by exact B. cbn [obind]. now rewrite (Z.mod_small _ (W * W)) by exact B.
Qed.
Lemma lint_mul_loop_d_ok (neg : bool) a : forall k c, words a -> 0 <= k < W -> 0 <= c < W ->
  lint_mul_i64_loop_d a k (if neg then W - 1 else 0) c = Some (lint_mul_i64_loop a k (if neg then W - 1 else 0) c).
Proof.
  induction a as [|x a IH]; intros k c Ha Hk Hc; [reflexivity|]. cbn [lint_mul_i64_loop_d lint_mul_i64_loop].
  apply words_cons in Ha as [Hx Ha]. set (mask := if neg then W - 1 else 0) in *. set (y := Z.lxor x mask).
  assert (Hy : 0 <= y < W).
  { unfold y, mask. destruct neg; [rewrite lxor_mask64 by exact Hx; lia|rewrite Z.lxor_0_r; exact Hx]. }
  rewrite prodsum_d_ok by (try assumption; lia). cbn [obind].
  destruct (lint_prodsum_spec y k 0 c Hy Hk ltac:(lia) Hc) as [-> Hq]. cbn [fst snd].
  rewrite IH by assumption. reflexivity.
Qed.
Lemma lint_mul_i64_d_ok a k : words a -> - H63 < k < H63 -> lint_mul_i64_d a k = Some (lint_mul_i64 a k).
Proof.
  intros Ha Hk. unfold lint_mul_i64_d, lint_mul_i64. pose proof W_double as HW. destruct (Z.ltb_spec k 0).
  - rewrite i64c_ok by lia. cbn [obind]. rewrite i64w_id by lia.
    apply (lint_mul_loop_d_ok true); [exact Ha| |]; apply Z.mod_pos_bound; lia.
  - apply (lint_mul_loop_d_ok false); [exact Ha| |lia]. apply Z.mod_pos_bound; lia.
Qed.
Lemma lint_shr_d_ok a : lint_shr_d a 30 = Some (lint_shr a 30).
Proof. reflexivity. Qed.
Lemma lint_comb_d_ok n d u v : words n -> words d -> - H63 < u < H63 -> - H63 < v < H63 ->
  lint_comb_d n d u v = Some (lint_shr (lint_add (lint_mul_i64 n u) (lint_mul_i64 d v)) 30).
Proof.
  intros Hn Hd Hu Hv. unfold lint_comb_d. rewrite lint_mul_i64_d_ok by assumption. cbn [obind].
  rewrite lint_mul_i64_d_ok by assumption. cbn [obind]. apply lint_shr_d_ok.
Qed.

Lemma jac_result_d_ok u t : jac_result_d u t = Some (jac_result u t).
Proof.
  unfold jac_result_d, jac_result. rewrite land_two.
  destruct (Z.testbit t 1); destruct u; reflexivity.
Qed.

Lemma approximate_d_ok L x y n d : (1 <= L)%nat -> lin L x n -> lin L y d -> 0 <= n < jo_lim L -> 0 < d < jo_lim L ->
  approximate_d L x y = approximate L x y.
Proof.
  intros HL Lx Ly Hn Hd. destruct (jo_lim_spec L HL) as [EL PL].
  assert (K : 2 ^ 31 = 2147483648) by reflexivity. rewrite K in EL.
  assert (Rn : lrange L n) by (unfold lrange; lia). assert (Rd : lrange L d) by (unfold lrange; lia).
  assert (R0 : lrange L 0) by (unfold lrange; lia).
  unfold approximate_d. rewrite (lin_is_negative L x n HL Lx Rn), (lin_is_negative L y d HL Ly Rd).
  rewrite (lin_eqb L y _ d 0 Ly (lin_zero L) Rd R0).
  rewrite (proj2 (Z.ltb_ge n 0)) by lia. rewrite (proj2 (Z.ltb_ge d 0)) by lia. rewrite (proj2 (Z.eqb_neq d 0)) by lia.
  cbn [orb negb assertd obind]. rewrite Bool.orb_true_r. cbn [assertd obind].
  unfold approximate. pose proof (approx_top_spec x y (L - 1)) as T.
  destruct (approx_top x y (L - 1)) as [[|i]|]; [reflexivity| |reflexivity]. cbn [obind].
  destruct T as (_ & T & _).
  destruct Lx as (_ & Wx & _), Ly as (_ & Wy & _).
  destruct (clz64_spec _ (nth_word x (S i) Wx)) as (X0 & _ & X2). destruct (clz64_spec _ (nth_word y (S i) Wy)) as (Y0 & _ & Y2).
  rewrite shc_ok; [reflexivity|].
  destruct T as [T|T]; [destruct (X2 T)|destruct (Y2 T)]; lia.
Qed.

(** ** [jacobinary] *)
Lemma ctz64_lt n : 0 < n < W -> ctz64 n < 64.
Proof.
  intros Hn. destruct (ctz64_spec n ltac:(lia)) as (Z0 & [q E] & _).
  destruct (Z.lt_ge_cases (ctz64 n) 64) as [|C]; [assumption|]. exfalso.
  assert (2 ^ 64 <= 2 ^ ctz64 n) by (apply Z.pow_le_mono_r; lia). rewrite <- W_pow in H.
  assert (0 < q) by nia. nia.
Qed.
Lemma jacobinary_step_d_ok sigma s : jb_inv sigma s ->
  jacobinary_step_d s = match jacobinary_step s with inl s2 => inl s2 | inr r => inr (Some r) end.
Proof.
  destruct s as [[n d] t]. intros (Hn & Hd & Od & Sy). unfold jacobinary_step_d, jacobinary_step.
  destruct (Z.eqb_spec n 0) as [E0|NZ]; [now rewrite jac_result_d_ok|].
  destruct (0 <? Z.land n 1).
  - destruct (Z.ltb_spec n d) as [C|C].
    + rewrite u64c_ok by lia. now rewrite Z.mod_small by lia.
    + rewrite u64c_ok by lia. now rewrite Z.mod_small by lia.
  - rewrite shc_ok; [reflexivity|]. split; [apply ctz64_spec; lia|apply ctz64_lt; lia].
Qed.
Lemma jacobinary_d_ok n d t : 0 <= n < W -> 0 < d < W -> Z.odd d = true ->
  run_until 8 jacobinary_step_d (n, d, t) =
  match run_until 8 jacobinary_step (n, d, t) with inl s2 => inl s2 | inr r => inr (Some r) end.
Proof.
  intros Hn Hd Od. set (sigma := sgn_of (Z.testbit t 1) * jm n d).
  refine (proj1 (run_until_sim jacobinary_step jacobinary_step_d (@Some Z) (jb_inv sigma) (jacobinary_step_d_ok sigma) _ 8 (n, d, t) _)).
  - intros s s2 Hs E. destruct (jacobinary_step_spec sigma s Hs) as [(r & E' & _)|(s' & E' & I & _)];
      rewrite E' in E; [discriminate|]. injection E as <-. exact I.
  - unfold jb_inv, sigma. auto.
Qed.

(** ** The inner loop *)
Lemma jac_inner_step_d_ok n d sigma s N D : 0 < ji s -> jinv n d sigma s N D ->
  jac_inner_step_d s = Some (jac_inner_step s).
Proof.
  intros Hi V. destruct V as [Vi Va Vb _ _ Vu Vv _ _ _ _ _].
  destruct s as [a b u0 u1 v0 v1 t i]. cbn [ja jb ju0 ju1 jv0 jv1 jt ji] in *.
  pose proof (p30 (30 - i) ltac:(lia)) as HP. pose proof H63_30 as H30.
  unfold jac_inner_step_d, jac_inner_step. cbn [ja jb ju0 ju1 jv0 jv1 jt ji].
  assert (RU : forall x y, Z.abs x <= 2 ^ (30 - i) -> Z.abs y <= 2 ^ (30 - i) -> - H63 <= x - y < H63).
  { clear - HP H30. intros x y Hx Hy. lia. }
  assert (A0 : Z.abs u0 <= 2 ^ (30 - i)) by (clear - Vu; lia). assert (A1 : Z.abs u1 <= 2 ^ (30 - i)) by (clear - Vu; lia).
  assert (A2 : Z.abs v0 <= 2 ^ (30 - i)) by (clear - Vv; lia). assert (A3 : Z.abs v1 <= 2 ^ (30 - i)) by (clear - Vv; lia).
  assert (RI : forall x, 0 <= x <= 30 -> u32c x = Some x) by (intros x Hx; apply ck_ok; lia).
  destruct (0 <? Z.land a 1).
  - destruct (Z.ltb_spec a b) as [C|C]; cbn [ja jb ju0 ju1 jv0 jv1 jt ji].
    + rewrite u64c_ok by (clear - C Va Vb; lia). cbn [obind].
      rewrite !i64c_ok by (apply RU; assumption). cbn [obind]. rewrite RI by (clear - Hi Vi; lia). cbn [obind].
      rewrite !i64w_id with (x := _ - _) by (apply RU; assumption). rewrite Z.mod_small by (clear - C Va Vb; lia). reflexivity.
    + rewrite u64c_ok by (clear - C Va Vb; lia). cbn [obind].
      rewrite !i64c_ok by (apply RU; assumption). cbn [obind]. rewrite RI by (clear - Hi Vi; lia). cbn [obind].
      rewrite !i64w_id with (x := _ - _) by (apply RU; assumption). rewrite Z.mod_small by (clear - C Va Vb; lia). reflexivity.
  - destruct (ctz64_spec a Va) as (Z0 & _). rewrite shc_ok by (clear - Z0 Vi; lia). cbn [obind].
    rewrite RI by (clear - Z0 Vi; lia). reflexivity.
Qed.
Lemma jac_inner_d_ok n d sigma : forall fuel s N D, jinv n d sigma s N D ->
  jac_inner_d fuel s = Some (jac_inner fuel s) /\
  (forall s', jac_inner fuel s = Some s' -> ji s' <= 0 /\ exists N' D', jinv n d sigma s' N' D').
Proof.
  induction fuel as [|fuel IH]; intros s N D V; cbn [jac_inner_d jac_inner];
    (destruct (Z.ltb_spec 0 (ji s)) as [Hi|Hi]; [|split; [reflexivity|]; intros s' E; injection E as <-; eauto]).
  - split; [reflexivity|]. discriminate.
  - rewrite (jac_inner_step_d_ok n d sigma s N D Hi V). cbn [obind].
    destruct (jac_inner_step_spec n d sigma s N D Hi V) as (N' & D' & V' & _). exact (IH _ N' D' V').
Qed.

(** ** The outer loop *)
Lemma land_odd b : Z.odd b = true -> (0 <? Z.land b 1) = true.
Proof. intros H. now rewrite land_one_odd. Qed.
Lemma jac_step_d_ok L sigma s : (1 <= L)%nat -> jo_inv L sigma s -> jac_step_d L s = jac_step L s.
Proof.
  intros HL. destruct s as [[nl dl] t]. intros (n & d & Ln & Ld & Hn & Hd & Od & Sy).
  destruct (jo_lim_spec L HL) as [EL PL].
  assert (K : 2 ^ 31 = 2147483648) by reflexivity. rewrite K in EL. clear K.
  assert (Vn : eval nl = n) by (apply (lin_value L); [exact Ln|lia]).
  assert (Vd : eval dl = d) by (apply (lin_value L); [exact Ld|lia]).
  pose proof Ln as (Cn & Wn' & _). pose proof Ld as (Cd & Wd' & _).
  unfold jac_step_d, jac_step. rewrite (approximate_d_ok L nl dl n d HL Ln Ld Hn Hd).
  pose proof (approximate_spec L nl dl HL Cn Cd Wn' Wd') as A.
  destruct (approximate L nl dl) as [[[a b] [|]]|] eqn:EA; [| |reflexivity].
  - destruct A as (-> & -> & A1 & A2). rewrite Vn, Vd in *.
    rewrite land_odd by exact Od. cbn [assertd]. rewrite jacobinary_d_ok by (try lia; assumption).
    destruct (run_until 8 jacobinary_step (n, d, t)); reflexivity.
  - clear A. destruct (approximate_progress L nl dl a b HL Cn Cd Wn' Wd' EA)
      as (e & He & Bx & By & Ba & Bb & T1 & T2 & TT & O1 & O2 & Da & Db).
    rewrite Vn, Vd in *. pose proof W_double as WD.
    assert (V : jinv n d sigma (mk_jin a b 1 0 0 1 t 30) n d).
    { constructor; cbn [ja jb ju0 ju1 jv0 jv1 jt ji].
      - split; discriminate.
      - rewrite WD; exact Ba.
      - rewrite WD; exact Bb.
      - change (2 ^ (30 - 30)) with 1. ring.
      - change (2 ^ (30 - 30)) with 1. ring.
      - discriminate.
      - discriminate.
      - exact Da.
      - exact Db.
      - exact Od.
      - left. exact (proj1 Hd).
      - exact Sy. }
    destruct (jac_inner_d_ok n d sigma 30 (mk_jin a b 1 0 0 1 t 30) n d V) as [-> HF].
    destruct (jac_inner 30 (mk_jin a b 1 0 0 1 t 30)) as [s'|]; [|reflexivity].
    destruct (HF s' eq_refl) as (_ & N & D & V'). clear V HF.
    destruct V' as [Vi _ _ _ _ Vu Vv _ _ _ _ _].
    pose proof (p30 (30 - ji s') ltac:(clear - Vi; lia)) as HP. pose proof H63_30 as H30.
    rewrite (lint_comb_d_ok nl dl (ju0 s') (ju1 s')) by (assumption || (clear - Vu HP H30; lia)). cbn [obind].
    rewrite (lint_comb_d_ok nl dl (jv0 s') (jv1 s')) by (assumption || (clear - Vv HP H30; lia)). cbn [obind].
    cbv zeta. rewrite jac_result_d_ok. reflexivity.
Qed.

Lemma top_clz L a v : (1 <= L)%nat -> lin L a v -> 0 <= v < jo_lim L -> 31 <= clz64 (last a 0).
Proof.
  intros HL La Hv. destruct (jo_lim_spec L HL) as [EL PL].
  assert (K : 2 ^ 31 = 2147483648) by reflexivity. rewrite K in EL. clear K.
  pose proof (lin_value L a v La ltac:(lia)) as E. destruct La as (Ll & Wa & _).
  assert (NE : a <> []) by (intros ->; cbn in Ll; lia).
  pose proof (last_eval a NE Wa) as LE. rewrite Ll, E in LE.
  assert (HW : Wn L = W * Wn (L - 1)) by (destruct L as [|n]; [lia|]; rewrite Wn_S; f_equal; f_equal; lia).
  pose proof (Wn_pos (L - 1)) as WP.
  assert (Bl : 0 <= last a 0 < W).
  { destruct (exists_last NE) as (l & x & ->). rewrite last_last. apply Forall_app in Wa as [_ Wx]. now inversion Wx. }
  assert (Lt : last a 0 < 2 ^ 33).
  { assert (HW2 : W = 2 ^ 33 * 2147483648) by reflexivity.
    assert (EJ : jo_lim L = 2 ^ 33 * Wn (L - 1)) by (clear - EL HW HW2 PL; nia).
    rewrite EJ in Hv. clear - LE Hv WP. nia. }
  unfold clz64. destruct (Z.eqb_spec (last a 0) 0); [lia|].
  assert (Z.log2 (last a 0) < 33) by (apply Z.log2_lt_pow2; [lia|exact Lt]). lia.
Qed.

Theorem jacobi_d_ok L nl dl : (1 <= L)%nat -> words nl -> words dl -> (length nl <= L)%nat -> (length dl <= L)%nat ->
  eval nl < jo_lim L -> eval dl < jo_lim L -> Z.odd (eval dl) = true ->
  jacobi_d L nl dl = jacobi L nl dl.
Proof.
  intros HL Wn' Wd' Ln Ld Bn Bd Od. unfold jacobi_d, jacobi.
  pose proof (lint_new_spec L nl Wn') as X. pose proof (lint_new_spec L dl Wd') as Y.
  destruct (lint_new L nl) as [x|]; [destruct X as (_ & Lx & Ex)|reflexivity].
  destruct (lint_new L dl) as [y|]; [destruct Y as (_ & Ly & Ey)|reflexivity].
  destruct (jo_lim_spec L HL) as [EL PL].
  pose proof (eval_bound nl Wn') as [N0 _]. pose proof (eval_bound dl Wd') as [D0 _].
  assert (ND : eval dl <> 0) by (intros E; rewrite E in Od; discriminate).
  rewrite (lin_lowest L y _ HL Ly).
  assert (O1 : Z.odd (eval dl mod W) = true).
  { rewrite <- Od. pose proof W_pos. pose proof (Z.div_mod (eval dl) W ltac:(lia)) as DM. rewrite DM at 2.
    assert (HW : W = 2 * H63) by reflexivity. rewrite HW at 2.
    rewrite <- Z.mul_assoc, Z.add_comm, Z.odd_add_mul_2. reflexivity. }
  rewrite land_odd by exact O1. cbn [assertd].
  pose proof (top_clz L x _ HL Lx (conj N0 Bn)) as C1. pose proof (top_clz L y _ HL Ly (conj D0 Bd)) as C2.
  rewrite (proj2 (Z.leb_le 31 _)) by (apply Z.min_glb; assumption). cbn [assertd].
  set (sigma := jacobi_symbol (eval nl) (eval dl)).
  pose proof (run_until_sim (jac_step L) (jac_step_d L) (fun r => r) (jo_inv L sigma)) as SIM.
  destruct (SIM) with (n := (2 * L + 16)%nat) (s := (x, y, 0)) as [E _].
  - intros s Hs. rewrite (jac_step_d_ok L sigma s HL Hs). destruct (jac_step L s); reflexivity.
  - intros s s2 Hs E. destruct (jac_step_spec L sigma s HL Hs) as [(r & E' & _)|(s' & E' & I & _)];
      rewrite E' in E; [discriminate|]. injection E as <-. exact I.
  - exists (eval nl), (eval dl). split; [exact Lx|]. split; [exact Ly|].
    split; [lia|]. split; [lia|]. split; [exact Od|]. unfold jm. rewrite Z.abs_eq by exact D0.
    change (sgn_of (Z.testbit 0 1)) with 1. unfold sigma. ring.
  - rewrite E. destruct (run_until (2 * L + 16) (jac_step L) (x, y, 0)); reflexivity.
Qed.

(** ** [get_booth_index] *)
Theorem booth_d_ok i ws el : 0 <= i -> 1 <= ws <= 30 -> is_bytes el -> get_booth_index_d i ws el = Some (get_booth_index i ws el).
Proof.
  intros Hi Hw B. unfold get_booth_index_d, get_booth_index.
  set (skip := Z.max 0 (i * ws - 1)). assert (Hs : 0 <= skip) by (unfold skip; lia). clearbody skip.
  assert (Hb : 0 <= from_le_bytes (booth_bytes (skip / 8) el) < 2 ^ 32).
  { rewrite booth_bytes_spec by (auto; apply Z.div_pos; lia). apply Z.mod_pos_bound. lia. }
  set (t0 := from_le_bytes _) in *. clearbody t0.
  set (t1 := if i =? 0 then _ else _).
  assert (H1 : 0 <= t1 < 2 ^ 32) by (unfold t1; destruct (i =? 0); [apply Z.mod_pos_bound; lia|exact Hb]). clearbody t1.
  pose proof (Z.div_mod skip 8 ltac:(lia)) as D8. pose proof (Z.mod_pos_bound skip 8 ltac:(lia)) as B8.
  assert (Hsh : 0 <= skip - skip / 8 * 8 < 8) by lia. set (sh := skip - skip / 8 * 8) in *. clearbody sh.
  rewrite u64c_ok by (pose proof W_pos; rewrite W_pow; lia). cbn [obind]. rewrite shc_ok by lia. cbn [obind].
  rewrite shc_ok by lia. cbn [obind]. rewrite !Z.shiftl_1_l.
  assert (P : 2 ^ (ws + 1) = 2 * 2 ^ ws) by (rewrite Z.add_1_r, Z.pow_succ_r by lia; reflexivity).
  assert (P30 : 2 ^ ws <= 2 ^ 30) by (apply Z.pow_le_mono_r; lia).
  assert (P0 : 2 ^ 1 <= 2 ^ ws) by (apply Z.pow_le_mono_r; lia).
  change (2 ^ 30) with 1073741824 in P30. change (2 ^ 1) with 2 in P0.
  change (2 ^ 32) with 4294967296 in *.
  rewrite (Z.mod_small (2 ^ (ws + 1))) by lia.
  assert (UC : forall x, 0 <= x < 4294967296 -> u32c x = Some x) by (intros x Hx; apply ck_ok; lia).
  rewrite UC by lia. cbn [obind]. rewrite shc_ok by lia. cbn [obind]. rewrite !Z.shiftl_1_l, !(Z.mod_small (2 ^ ws)) by lia.
  assert (ON : forall k, 0 <= k -> forall x, Z.land x (2 ^ k - 1) = x mod 2 ^ k).
  { intros k Hk x. replace (2 ^ k - 1) with (Z.ones k) by (rewrite Z.ones_equiv; lia). now apply Z.land_ones. }
  rewrite !ON by lia.
  set (v := Z.shiftr t1 sh mod 2 ^ (ws + 1)). assert (Hv : 0 <= v < 2 ^ (ws + 1)) by (apply Z.mod_pos_bound; lia). clearbody v.
  rewrite UC by lia. cbn [obind]. rewrite land_pow2 by lia. rewrite Z.shiftr_div_pow2 by lia. change (2 ^ 1) with 2.
  destruct (Z.ltb_spec v (2 ^ ws)) as [C|C]; [reflexivity|].
  set (t := (v + 1) / 2).
  assert (Ht : 1 <= t < 4294967296).
  { unfold t. pose proof (Z.div_mod (v + 1) 2 ltac:(lia)). pose proof (Z.mod_pos_bound (v + 1) 2 ltac:(lia)). lia. }
  clearbody t. rewrite (UC (t - 1)) by lia. cbn [obind]. rewrite UC by lia. cbn [obind]. rewrite ON by lia.
  pose proof (Z.mod_pos_bound (4294967296 - 1 - (t - 1)) (2 ^ ws) ltac:(lia)) as Hm.
  unfold i32c. rewrite ck_ok; [reflexivity|]. lia.
Qed.
