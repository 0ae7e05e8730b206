(** Progress of the inner loop of [jacobi]: after 30 iterations both exact values are
    below the leading power of two, or their product has lost 29 bits.  Only the
    top bit of the approximations and their order matter. *)
From Verif Require Import Base Word Limbs SpecField LimbsFacts Field Inverse InverseFacts
  SpecJacobi JacSymFacts Jacobi JacobiLint JacobiInner.

Definition B32 : Z := 4294967296.
Lemma H63_B32 : H63 = B32 * (B32 / 2). Proof. reflexivity. Qed.
Lemma B32_even : B32 = 2 * (B32 / 2). Proof. reflexivity. Qed.
Lemma B32_half : 4 < B32 / 2. Proof. reflexivity. Qed.

Lemma pow_ge1 k : 0 <= k -> 1 <= 2 ^ k.
Proof. intros Hk. apply (Z.pow_le_mono_r 2 0 k); lia. Qed.
Lemma pow_ge2 k : 1 <= k -> 2 <= 2 ^ k.
Proof. intros Hk. apply (Z.pow_le_mono_r 2 1 k); lia. Qed.

Lemma abs_shrink q x N : 1 <= q -> q * N = x -> Z.abs N <= Z.abs x.
Proof. intros Hq <-. rewrite Z.abs_mul. pose proof (Z.abs_nonneg N). nia. Qed.
Lemma abs_halve q x N : 2 <= q -> q * N = x -> 2 * Z.abs N <= Z.abs x.
Proof. intros Hq <-. rewrite Z.abs_mul. pose proof (Z.abs_nonneg N). nia. Qed.

Section prog.
Context (Q n d a0 b0 : Z).
Context (HQ : 0 < Q) (Hn : 0 <= n < 2 * Q) (Hd : 0 <= d < 2 * Q) (Ha : 0 <= a0 < 2 * H63) (Hb : 0 <= b0 < 2 * H63).
Context (Tn : Q <= n <-> H63 <= a0) (Td : Q <= d <-> H63 <= b0) (TT : Q <= n \/ Q <= d).
Context (Lnd : n < d -> a0 < b0 + B32) (Ldn : d < n -> b0 < a0 + B32).

Inductive prog (a b N D i : Z) : Prop :=
| PP0 : 2 ^ (30 - i) * a = a0 -> 2 ^ (30 - i) * N = n -> b = b0 -> D = d -> prog a b N D i
| PPsmall : Z.abs N < Q -> Z.abs D < Q -> prog a b N D i
| PP1 x y ax ay : x * y = n * d -> Q <= x < 2 * Q -> Q <= y < 2 * Q -> H63 <= ax -> ax <= ay < 2 * H63 ->
    (y < x -> ay < ax + B32) -> i < 30 -> 2 ^ (30 - i) * N = y - x -> D = x ->
    2 ^ (30 - i) * a = ay - ax -> b = ax -> prog a b N D i
| PP2 x y ax k : x * y = n * d -> Q <= x < 2 * Q -> Q <= y < 2 * Q -> H63 <= ax -> k = 29 - i -> 1 <= k ->
    y < x -> 2 ^ k * D = y - x -> x = 2 * N + D -> 0 <= b -> 2 * b < B32 -> ax = 2 * a + b -> prog a b N D i.

Lemma prog_init : prog a0 b0 n d 30.
Proof. apply PP0; try reflexivity; rewrite Z.sub_diag; ring. Qed.

Lemma prog_step a b N D i a' b' N' D' i' : 0 < i <= 30 -> 0 <= a -> 0 <= b ->
  prog a b N D i -> jmove a b N D i a' b' N' D' i' -> prog a' b' N' D' i'.
Proof.
  intros Hi Pa Pb P M. pose proof (pow_ge1 (30 - i) ltac:(lia)) as PG.
  destruct P as [Ea EN Eb ED|SN SD|x y ax ay XY Hx Hy Hax Hay Lxy Hk EN ED Ea Eb
                |x y ax k XY Hx Hy Hax Ek Hk Lxy ED EN B0 B1 Ea].
  - (* halvings only so far *)
    destruct M as [a' N' C E E'|a' N' C E E'|a' N' z Hz E E'].
    + destruct (Z_lt_ge_dec d Q) as [Sd|Sd].
      * assert (Sb : b0 < H63) by (clear - Td Sd; lia). assert (Sn : Q <= n) by (clear - TT Sd; lia).
        assert (0 <= N < 2 * Q) by (clear - EN PG Hn; nia).
        apply PPsmall; subst D; clear - H E' Sd Hd; lia.
      * assert (Bb : H63 <= b0) by (clear - Td Sd; lia).
        assert (i = 30).
        { destruct (Z.eq_dec i 30) as [|Ni]; [assumption|exfalso].
          pose proof (pow_ge2 (30 - i) ltac:(clear - Ni Hi; lia)) as G2. clear - G2 Ea C Eb Bb Ha. nia. }
        subst i. rewrite Z.sub_diag, Z.pow_0_r, Z.mul_1_l in Ea, EN. subst a N b D.
        assert (Bn : Q <= n) by (clear - Tn Bb C; lia).
        apply (PP1 _ _ _ _ _ d n b0 a0).
        -- ring.
        -- clear - Sd Hd; lia.
        -- clear - Bn Hn; lia.
        -- exact Bb.
        -- clear - C Ha; lia.
        -- exact Lnd.
        -- easy.
        -- change (2 ^ (30 - (30 - 1))) with 2. clear - E'; lia.
        -- reflexivity.
        -- change (2 ^ (30 - (30 - 1))) with 2. clear - E; lia.
        -- reflexivity.
    + assert (HN : 0 <= N < 2 * Q) by (clear - EN PG Hn; nia).
      destruct (Z_lt_ge_dec N Q) as [SN|SN].
      * apply PPsmall; subst D; clear - HN E' SN Hd; lia.
      * assert (i = 30).
        { destruct (Z.eq_dec i 30) as [|Ni]; [assumption|exfalso].
          pose proof (pow_ge2 (30 - i) ltac:(clear - Ni Hi; lia)) as G2. clear - G2 EN SN Hn. nia. }
        subst i. rewrite Z.sub_diag, Z.pow_0_r, Z.mul_1_l in Ea, EN. subst a N b D.
        assert (Bn : H63 <= a0) by (clear - Tn SN; lia).
        assert (Bd : Q <= d) by (clear - Td Bn C; lia).
        apply (PP1 _ _ _ _ _ n d a0 b0).
        -- ring.
        -- clear - SN Hn; lia.
        -- clear - Bd Hd; lia.
        -- exact Bn.
        -- clear - C Hb; lia.
        -- exact Ldn.
        -- easy.
        -- change (2 ^ (30 - (30 - 1))) with 2. clear - E'; lia.
        -- reflexivity.
        -- change (2 ^ (30 - (30 - 1))) with 2. clear - E; lia.
        -- reflexivity.
    + assert (EP : 2 ^ (30 - (i - z)) = 2 ^ (30 - i) * 2 ^ z).
      { rewrite <- Z.pow_add_r by (clear - Hz Hi; lia). f_equal. ring. }
      apply PP0; rewrite ?EP, <- ?Z.mul_assoc, <- ?E, <- ?E'; assumption.
  - (* both small *)
    destruct M as [a' N' C E E'|a' N' C E E'|a' N' z Hz E E'].
    + apply PPsmall; [clear - SN SD E'; lia|exact SD].
    + apply PPsmall; [clear - SN SD E'; lia|exact SN].
    + apply PPsmall; [|exact SD].
      pose proof (abs_shrink (2 ^ z) N N' (pow_ge1 z ltac:(clear - Hz; lia)) ltac:(symmetry; exact E')).
      clear - H SN; lia.
  - (* after the first subtraction *)
    pose proof (pow_ge2 (30 - i) ltac:(clear - Hk; lia)) as G2.
    pose proof (abs_halve (2 ^ (30 - i)) (y - x) N G2 EN) as AN.
    assert (Sa : 2 * a <= ay - ax) by (clear - G2 Ea Pa; nia).
    destruct M as [a' N' C E E'|a' N' C E E'|a' N' z Hz E E'].
    + exfalso. clear - C Eb Sa Hax Hay. lia.
    + subst D b. destruct (Z_lt_ge_dec y x) as [L|L].
      * apply (PP2 _ _ _ _ _ x y ax (30 - i)).
        -- exact XY.
        -- exact Hx.
        -- exact Hy.
        -- exact Hax.
        -- ring.
        -- clear - Hk; lia.
        -- exact L.
        -- exact EN.
        -- exact E'.
        -- exact Pa.
        -- clear - Sa Lxy L; lia.
        -- exact E.
      * assert (0 <= N) by (clear - G2 EN L; nia).
        apply PPsmall; clear - H AN E' Hx Hy L; lia.
    + assert (EP : 2 ^ (30 - (i - z)) = 2 ^ (30 - i) * 2 ^ z).
      { rewrite <- Z.pow_add_r by (clear - Hz Hi; lia). f_equal. ring. }
      apply (PP1 _ _ _ _ _ x y ax ay); rewrite ?EP, <- ?Z.mul_assoc, <- ?E, <- ?E'; try assumption.
      clear - Hz Hk; lia.
  - (* one more round makes both small *)
    pose proof (pow_ge2 k Hk) as G2.
    pose proof (abs_halve (2 ^ k) (y - x) D G2 ED) as AD.
    assert (D < 0) by (clear - G2 ED Lxy; nia).
    destruct M as [a' N' C E E'|a' N' C E E'|a' N' z Hz E E'].
    + apply PPsmall; clear - H AD E' EN Hx Hy; lia.
    + exfalso. pose proof H63_B32. pose proof B32_even. pose proof B32_half. clear - C Ea Hax B1 H0 H1 H2. nia.
    + pose proof (abs_halve (2 ^ z) N N' (pow_ge2 z ltac:(clear - Hz; lia)) ltac:(symmetry; exact E')).
      apply PPsmall; clear - H AD H0 EN Hx Hy; lia.
Qed.

Lemma prog_final a b N D : prog a b N D 0 ->
  (Z.abs N < Q /\ Z.abs D < Q) \/ 2 ^ 29 * (Z.abs N * Z.abs D) <= n * d.
Proof.
  intros P. change (2 ^ 29) with 536870912.
  destruct P as [Ea EN Eb ED|SN SD|x y ax ay XY Hx Hy Hax Hay Lxy Hk EN ED Ea Eb
                |x y ax k XY Hx Hy Hax Ek Hk Lxy ED EN B0 B1 Ea].
  - right. change (2 ^ (30 - 0)) with 1073741824 in EN. subst D. rewrite (Z.abs_eq d) by lia.
    rewrite Z.abs_eq by lia. clear - EN Hd Hn. nia.
  - left. now split.
  - right. change (2 ^ (30 - 0)) with 1073741824 in EN. subst D. rewrite (Z.abs_eq x) by lia. rewrite <- XY.
    assert (1073741824 * Z.abs N <= y) by (clear - EN Hx Hy HQ; lia).
    pose proof (Z.abs_nonneg N). clear - H Hx HQ. nia.
  - right. subst k. change (2 ^ (29 - 0)) with 536870912 in ED. rewrite <- XY.
    assert (536870912 * Z.abs D <= y) by (clear - ED Hx Hy HQ; lia).
    assert (Z.abs N <= x) by (clear - EN ED Hx Hy HQ; lia).
    pose proof (Z.abs_nonneg N). pose proof (Z.abs_nonneg D). clear - H H0 H1 H2 Hx HQ Hy. nia.
Qed.
End prog.

(** ** The product of the exact values
    It may grow while the approximations are wrong, but by a bounded factor only.  [s * a] and [s * b] stay
    within [E] of [N] and [D], and the approximations themselves are halved exactly. *)
Section size.
Context (n d a0 b0 s E : Z) (Hs : 0 < s) (HE : 0 <= E) (Hn : 0 <= n) (Hd : 0 <= d) (Ha : 0 <= a0) (Hb : 0 <= b0)
  (En : Z.abs (n - s * a0) <= E) (Ed : Z.abs (d - s * b0) <= E).

Definition size (a b N D i : Z) : Prop :=
  Z.abs (N - s * a) <= E /\ Z.abs (D - s * b) <= E /\ 2 ^ (30 - i) * (a * b) <= a0 * b0 /\ 0 <= a /\ 0 <= b.
Lemma size_init : size a0 b0 n d 30.
Proof using All. repeat split; try assumption. rewrite Z.sub_diag. lia. Qed.
Lemma size_step a b N D i a' b' N' D' i' : 0 < i <= 30 -> 0 <= a -> 0 <= b ->
  size a b N D i -> jmove a b N D i a' b' N' D' i' -> size a' b' N' D' i'.
Proof using All.
  intros Hi Pa Pb (S1 & S2 & S3 & _) M. pose proof (pow_ge1 (30 - i) ltac:(clear - Hi; lia)) as PG.
  assert (EP : forall z, 0 <= z -> 2 ^ (30 - (i - z)) = 2 ^ (30 - i) * 2 ^ z).
  { intros z Hz. rewrite <- Z.pow_add_r by lia. f_equal. ring. }
  destruct M as [a' N' C Ea EN|a' N' C Ea EN|a' N' z Hz Ea EN].
  - pose proof (EP 1 ltac:(lia)) as EQ. change (2 ^ 1) with 2 in EQ. unfold size. rewrite EQ.
    set (q := 2 ^ (30 - i)) in *. clearbody q.
    split; [|split; [exact S2|split; [|lia]]].
    + assert (2 * (N' - s * a') = (N - s * a) - (D - s * b)) by (rewrite EN, Ea; ring).
      clear - H S1 S2. lia.
    + apply Z.le_trans with (2 := S3). replace (q * 2 * (a' * b)) with (q * (2 * a' * b)) by ring.
      apply Z.mul_le_mono_nonneg_l; [lia|]. clear - Ea C Pb. nia.
  - pose proof (EP 1 ltac:(lia)) as EQ. change (2 ^ 1) with 2 in EQ. unfold size. rewrite EQ.
    set (q := 2 ^ (30 - i)) in *. clearbody q.
    split; [|split; [exact S1|split; [|lia]]].
    + assert (2 * (N' - s * a') = (D - s * b) - (N - s * a)) by (rewrite EN, Ea; ring).
      clear - H S1 S2. lia.
    + apply Z.le_trans with (2 := S3). replace (q * 2 * (a' * a)) with (q * (2 * a' * a)) by ring.
      apply Z.mul_le_mono_nonneg_l; [lia|]. subst b. pose proof (Z.mul_nonneg_nonneg a a Pa Pa). clear - H. lia.
  - pose proof (pow_ge1 z ltac:(lia)) as GZ. unfold size. rewrite (EP z) by lia.
    split; [|split; [exact S2|split; [|split; [|exact Pb]]]].
    + apply Z.le_trans with (2 := S1). apply (abs_shrink (2 ^ z)); [exact GZ|]. rewrite EN, Ea. ring.
    + apply Z.le_trans with (2 := S3). rewrite Ea. apply Z.eq_le_incl. ring.
    + clear - Ea Pa GZ. nia.
Qed.
Lemma size_final a b N D : size a b N D 0 -> E <= 2 * n -> E <= 2 * d ->
  Z.abs N <= Z.max n d -> Z.abs D <= Z.max n d -> Z.abs N * Z.abs D <= 32 * (n * d).
Proof using All.
  intros (S1 & S2 & S3 & Pa & Pb) E1 E2 BN BD. change (2 ^ (30 - 0)) with 1073741824 in S3.
  assert (A0 : 0 <= s * a) by (clear - Hs Pa; nia). assert (B0 : 0 <= s * b) by (clear - Hs Pb; nia).
  assert (A1 : Z.abs N <= s * a + E) by lia. assert (B1 : Z.abs D <= s * b + E) by lia.
  assert (A2 : s * a <= Z.max n d + E) by lia. assert (B2 : s * b <= Z.max n d + E) by lia.
  assert (P1 : 1073741824 * ((s * a) * (s * b)) <= (n + E) * (d + E)).
  { apply Z.le_trans with ((s * a0) * (s * b0)).
    - replace (1073741824 * (s * a * (s * b))) with (s * s * (1073741824 * (a * b))) by ring.
      replace (s * a0 * (s * b0)) with (s * s * (a0 * b0)) by ring. apply Z.mul_le_mono_nonneg_l; [clear - Hs; nia|exact S3].
    - assert (0 <= s * a0) by (clear - Hs Ha; nia). assert (0 <= s * b0) by (clear - Hs Hb; nia).
      apply Z.mul_le_mono_nonneg; lia. }
  set (A := s * a) in *. set (B := s * b) in *. clearbody A B.
  assert (P2 : (n + E) * (d + E) <= 9 * (n * d)) by (clear - E1 E2 HE Hn Hd; nia).
  assert (P3 : Z.abs N * Z.abs D <= (A + E) * (B + E)) by (apply Z.mul_le_mono_nonneg; clear - A1 B1; lia).
  assert (P4 : E * (A + B) <= 12 * (n * d)).
  { apply Z.le_trans with (E * (2 * Z.max n d + 2 * E)); [clear - HE A2 B2; nia|].
    destruct (Z.max_spec n d) as [[L ->]|[L ->]]; clear - L E1 E2 HE Hn Hd; nia. }
  assert (P5 : E * E <= 4 * (n * d)) by (clear - E1 E2 HE Hn Hd; nia).
  replace ((A + E) * (B + E)) with (A * B + E * (A + B) + E * E) in P3 by ring. lia.
Qed.

(** If one of the two is so small that only its low bits are in its approximation, it is never exceeded. *)
Inductive lopsided (m a b N D i : Z) : Prop :=
| LO1 : a0 < B32 -> H63 <= b0 -> n <= m -> 2 ^ (30 - i) * N = n -> 2 ^ (30 - i) * a = a0 -> D = d -> b = b0 -> lopsided m a b N D i
| LO2 : Z.abs D <= m -> 0 <= b < B32 -> H63 <= 2 ^ (30 - i) * (a + b) -> lopsided m a b N D i.
Lemma lopsided_step m a b N D i a' b' N' D' i' : 0 < i <= 30 -> 0 <= a -> 0 <= b ->
  lopsided m a b N D i -> jmove a b N D i a' b' N' D' i' -> lopsided m a' b' N' D' i'.
Proof using All.
  intros Hi Pa Pb P M. pose proof (pow_ge1 (30 - i) ltac:(lia)) as PG.
  assert (EP : forall z, 0 <= z -> 2 ^ (30 - (i - z)) = 2 ^ (30 - i) * 2 ^ z).
  { intros z Hz. rewrite <- Z.pow_add_r by lia. f_equal. ring. }
  pose proof (EP 1 ltac:(lia)) as EQ. change (2 ^ 1) with 2 in EQ.
  assert (HB : B32 <= H63) by (vm_compute; discriminate).
  destruct P as [A0 B0 NM EN Ea ED Eb|DM BB AB].
  - assert (Aa : a <= a0) by (clear - PG Ea Pa; nia).
    destruct M as [a' N' C Ea' EN'|a' N' C Ea' EN'|a' N' z Hz Ea' EN'].
    + exfalso. clear - C Aa A0 B0 Eb HB. lia.
    + apply LO2; [|lia|].
      * apply Z.le_trans with (Z.abs n); [|lia]. apply (abs_shrink (2 ^ (30 - i))); [exact PG|exact EN].
      * rewrite EQ. set (q := 2 ^ (30 - i)) in *. clearbody q. replace (q * 2 * (a' + a)) with (q * (b + a)) by (rewrite Ea'; ring). pose proof H63_big as HG. clear - PG B0 Eb Pa HG. nia.
    + apply LO1; rewrite ?EP by lia; try assumption.
      * rewrite <- EN, EN'. ring.
      * rewrite <- Ea, Ea'. ring.
  - assert (G : a > b).
    { assert (2 ^ (30 - i) <= 2 ^ 29) by (apply Z.pow_le_mono_r; lia). change (2 ^ 29) with 536870912 in H.
      assert (H63 <= 536870912 * (a + b)) by (clear - AB H Pa Pb; nia). unfold B32 in BB.
      assert (9223372036854775808 <= 536870912 * (a + b)) by exact H0. clear - H1 BB. lia. }
    destruct M as [a' N' C Ea' EN'|a' N' C Ea' EN'|a' N' z Hz Ea' EN'].
    + apply LO2; [exact DM|exact BB|]. rewrite EQ. set (q := 2 ^ (30 - i)) in *. clearbody q.
      replace (q * 2 * (a' + b)) with (q * (a + b)) by (rewrite Ea'; ring). exact AB.
    + exfalso. clear - C G. lia.
    + apply LO2; [exact DM|exact BB|]. rewrite EP by lia. pose proof (pow_ge1 z ltac:(lia)) as GZ.
      apply Z.le_trans with (1 := AB). rewrite <- Z.mul_assoc. apply Z.mul_le_mono_nonneg_l; [lia|].
      rewrite Ea'. set (t := 2 ^ z) in *. clearbody t. clear - GZ Pb. nia.
Qed.
Lemma lopsided_final m a b N D : lopsided m a b N D 0 -> Z.abs N <= m \/ Z.abs D <= m.
Proof using All.
  intros [A0 B0 NM EN Ea ED Eb|DM BB AB]; [left|right; exact DM].
  change (2 ^ (30 - 0)) with 1073741824 in EN. lia.
Qed.
End size.

(** The whole inner loop, with any property that its rounds keep. *)
Lemma jac_inner_spec n d sigma (P : Z -> Z -> Z -> Z -> Z -> Prop) :
  (forall a b N D i a' b' N' D' i', 0 < i <= 30 -> 0 <= a -> 0 <= b -> P a b N D i -> jmove a b N D i a' b' N' D' i' -> P a' b' N' D' i') ->
  forall fuel s N D, ji s <= Z.of_nat fuel -> jinv n d sigma s N D -> P (ja s) (jb s) N D (ji s) ->
  exists s' N' D', jac_inner fuel s = Some s' /\ ji s' = 0 /\ jinv n d sigma s' N' D' /\ P (ja s') (jb s') N' D' 0.
Proof.
  intros HP. induction fuel as [|fuel IH]; intros s N D Hf V Q; cbn [jac_inner].
  - pose proof (jv_i _ _ _ _ _ _ V). destruct (Z.ltb_spec 0 (ji s)); [lia|].
    assert (E0 : ji s = 0) by lia. exists s, N, D. repeat (split; [assumption || reflexivity|]). now rewrite E0 in Q.
  - destruct (Z.ltb_spec 0 (ji s)) as [Hi|Hi].
    + destruct (jac_inner_step_spec n d sigma s N D Hi V) as (N' & D' & V' & Hi' & M).
      apply (IH _ N' D'); [lia|exact V'|].
      pose proof (jv_i _ _ _ _ _ _ V). pose proof (jv_a _ _ _ _ _ _ V). pose proof (jv_b _ _ _ _ _ _ V).
      eapply HP; [| | |exact Q|exact M]; lia.
    + pose proof (jv_i _ _ _ _ _ _ V). assert (E0 : ji s = 0) by lia. exists s, N, D.
      repeat (split; [assumption || reflexivity|]). now rewrite E0 in Q.
Qed.
