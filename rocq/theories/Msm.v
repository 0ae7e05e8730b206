(** Model of src/msm.rs.

    [None] is a panic (index out of range, failed [assert_eq!], [unwrap] or
    [expect]).  Scalars are given by their Montgomery limbs.  The thread pool is
    represented by its size; the closures handed to it write to separate
    accumulators, so each is modelled as a function of its inputs (MsmSched.v
    covers the interleavings).
    [ln_ceil n] stands for [(f64::from(n as u32)).ln().ceil() as usize]
    (msm.rs:344, 467): floating point is not modelled, the theorems hold for any
    function with values in [1,24]. *)
From Verif Require Import Base Algebra Word Limbs Bytes Field Curve Fft.

(** ** msm.rs:13-55 [get_booth_index] *)
Definition booth_bytes (skip_bytes : Z) (el : list Z) : list Z :=
  firstn 4 (firstn 4 (skipn (Z.to_nat skip_bytes) el) ++ [0; 0; 0; 0]).
Definition get_booth_index (window_index window_size : Z) (el : list Z) : Z :=
  let skip_bits := Z.max 0 (window_index * window_size - 1) in
  let skip_bytes := skip_bits / 8 in
  let tmp := from_le_bytes (booth_bytes skip_bytes el) in
  let tmp := if window_index =? 0 then Z.shiftl tmp 1 mod 2 ^ 32 else tmp in
  let tmp := Z.shiftr tmp (skip_bits - skip_bytes * 8) in
  let tmp := Z.land tmp (Z.shiftl 1 (window_size + 1) - 1) in
  let sign := Z.land tmp (Z.shiftl 1 window_size) =? 0 in
  let tmp := Z.shiftr (tmp + 1) 1 in
  if sign then tmp
  else - Z.land (2 ^ 32 - 1 - (tmp - 1)) (Z.shiftl 1 window_size - 1).

(** [NUM_BITS] (derive/field/mod.rs via ff): bit length of the modulus *)
Definition num_bits (sc : fconf) : Z := Z.log2 (modulus sc) + 1.

Section Msm.
Context {F : Type} (o : fops F) (c : cconf F) (sc : fconf).

Definition upd_nth {A} (l : list A) (i : nat) (f : A -> option A) : option (list A) :=
  match nth_error l i with
  | None => None
  | Some x => match f x with None => None | Some y => Some (set_nth l i y) end
  end.

(** ** msm.rs:335-421 [msm_serial] *)
Inductive sbucket := SNone | SAffine (p : aff F) | SProj (p : proj F).
Definition sbucket_add_assign (b : sbucket) (other : aff F) : sbucket :=
  match b with
  | SNone => SAffine other
  | SAffine a => SProj (aff_add o c a other)
  | SProj a => SProj (proj_madd o c a other)
  end.
Definition sbucket_add (b : sbucket) (other : proj F) : proj F :=
  match b with
  | SNone => other
  | SAffine a => proj_madd o c other a
  | SProj a => proj_add o c other a
  end.
(** msm.rs:397-405 *)
Definition serial_step (w ws : Z) (buckets : option (list sbucket)) (cb : list Z * aff F) : option (list sbucket) :=
  bindo buckets (fun buckets =>
    let coeff := get_booth_index w ws (fst cb) in
    if 0 <? coeff then
      upd_nth buckets (Z.to_nat (coeff - 1)) (fun b => Some (sbucket_add_assign b (snd cb)))
    else if coeff <? 0 then
      upd_nth buckets (Z.to_nat (- coeff - 1)) (fun b => Some (sbucket_add_assign b (aff_neg o (snd cb))))
    else Some buckets).
(** msm.rs:411-415 *)
Fixpoint sum_by_parts {B} (add : B -> proj F -> proj F) (rev_buckets : list B) (running_sum acc : proj F) : proj F :=
  match rev_buckets with
  | [] => acc
  | b :: bs =>
      let running_sum := add b running_sum in
      sum_by_parts add bs running_sum (proj_add o c acc running_sum)
  end.
Fixpoint double_n (n : nat) (p : proj F) : proj F :=
  match n with O => p | S n' => double_n n' (proj_double o c p) end.
(** msm.rs:368-420, one window *)
Definition serial_window (ws : Z) (cbs : list (list Z * aff F)) (acc : option (proj F)) (w : Z) : option (proj F) :=
  bindo acc (fun acc =>
    let acc := double_n (Z.to_nat ws) acc in
    let buckets := repeat SNone (Z.to_nat (Z.shiftl 1 (ws - 1))) in
    bindo (fold_left (serial_step w ws) cbs (Some buckets)) (fun buckets =>
    Some (sum_by_parts sbucket_add (rev buckets) (proj_identity o) acc))).

(** msm.rs:352-364 *)
Definition or_bytes (acc_or : list Z) (coeff : list Z) : list Z :=
  map (fun p => Z.lor (fst p) (snd p)) (combine acc_or coeff) ++ skipn (length coeff) acc_or.
Fixpoint position_nonzero (l : list Z) : option nat :=
  match l with
  | [] => None
  | v :: l' => if v =? 0 then option_map S (position_nonzero l') else Some O
  end.
Definition max_byte_size (coeffs : list (list Z)) : nat :=
  let field_byte_size := Z.to_nat ((num_bits sc + 7) / 8) in
  let acc_or := fold_left or_bytes coeffs (repeat 0 field_byte_size) in
  field_byte_size - match position_nonzero (rev acc_or) with Some n => n | None => field_byte_size end.

Variable ln_ceil : nat -> Z.
(** msm.rs:338-344 *)
Definition window_size (n : nat) : Z :=
  if Nat.ltb n 4 then 1 else if Nat.ltb n 32 then 3 else ln_ceil n.

Definition msm_serial (coeffs : list (list Z)) (bases : list (aff F)) (acc : proj F) : option (proj F) :=
  let coeffs := map (to_repr sc) coeffs in
  let ws := window_size (length bases) in
  let max_byte_size := max_byte_size coeffs in
  if Nat.eqb max_byte_size 0 then Some acc
  else if ws <=? 0 then None
  else
    let number_of_windows := Z.of_nat max_byte_size * 8 / ws + 1 in
    fold_left (serial_window ws (combine coeffs bases))
      (rev (map Z.of_nat (seq 0 (Z.to_nat number_of_windows)))) (Some acc).

(** ** msm.rs:428-456 [msm_parallel]; [threads] is [rayon::current_num_threads()] *)
Fixpoint chunks {A} (fuel chunk : nat) (l : list A) : list (list A) :=
  match fuel with
  | O => []
  | S fuel' => match l with [] => [] | _ => firstn chunk l :: chunks fuel' chunk (skipn chunk l) end
  end.
Definition sequence {A} (l : list (option A)) : option (list A) :=
  fold_right (fun x acc => bindo x (fun x => bindo acc (fun acc => Some (x :: acc)))) (Some []) l.
Definition msm_parallel (threads : nat) (coeffs : list (list Z)) (bases : list (aff F)) : option (proj F) :=
  if negb (Nat.eqb (length coeffs) (length bases)) then None
  else if Nat.ltb threads (length coeffs) then
    let chunk := Nat.div (length coeffs) threads in
    if Nat.eqb chunk 0 then None
    else
    bindo (sequence (map (fun cb => msm_serial (fst cb) (snd cb) (proj_identity o))
        (combine (chunks (length coeffs) chunk coeffs) (chunks (length bases) chunk bases))))
      (fun results => Some (fold_left (proj_add o c) results (proj_identity o)))
  else msm_serial coeffs bases (proj_identity o).

(** ** msm.rs:57-329: the batched affine buckets *)
(** [Affine::from] (msm.rs:152-160).  [coordinates] (derive/curve.rs:825-827) is
    pasta_curves' [Coordinates::from_xy], which validates with [C::from_xy]. *)
Definition msm_affine (p : aff F) : option (aff F) := from_xy o c (ax p) (ay p).

(** [BucketAffine] is [option (aff F)]; [Bucket] is [option (proj F)]. *)
(** msm.rs:193-212 *)
Definition jbucket_add_assign (b : option (proj F)) (point : aff F) (sign : bool) : option (proj F) :=
  match b with
  | None => Some (if sign then to_curve o point else proj_neg o (to_curve o point))
  | Some a => Some (if sign then proj_madd o c a point else proj_msub o c a point)
  end.
(** msm.rs:214-221; the inner option is the [unwrap] of [eval] *)
Definition jbucket_add (b : option (proj F)) (other : option (aff F)) : option (proj F) :=
  match b, other with
  | Some this, Some a => bindo (from_xy o c (ax a) (ay a)) (fun a => Some (proj_madd o c this a))
  | Some this, None => Some this
  | None, Some a => bindo (from_xy o c (ax a) (ay a)) (fun a => Some (to_curve o a))
  | None, None => Some (proj_identity o)
  end.

(** msm.rs:287-292 *)
Record sched_point := mk_sp { base_idx : nat; buck_idx : nat; sp_sign : bool }.
Definition sp_default := mk_sp 0 0 false.
Definition BATCH_SIZE : nat := 64.

(** msm.rs:58-145 [batch_add].  First pass over [points]: threads the buckets
    and the running product, and yields the pairs [(t,z)]. *)
Fixpoint batch_fwd (bases : list (aff F)) (pts : list sched_point) (buckets : list (option (aff F))) (acc : F)
  : option (list (option (aff F)) * F * list (F * F)) :=
  match pts with
  | [] => Some (buckets, acc, [])
  | sp :: pts' =>
      match nth_error buckets (buck_idx sp), nth_error bases (base_idx sp) with
      | Some bk, Some b =>
          match bk with
          | None => (* is_inf: continue, t = z = 0 *)
              bindo (batch_fwd bases pts' buckets acc) (fun r =>
              let '(bs, a, tz) := r in Some (bs, a, (f0 o, f0 o) :: tz))
          | Some q =>
              if feqb o (ax q) (ax b) then
                if xorb (feqb o (ay q) (ay b)) (negb (sp_sign sp)) then
                  let x_squared := fsqr o (ax b) in
                  let z := fadd o (ay q) (ay q) in
                  let t := fmul o acc (fadd o (fadd o x_squared x_squared) x_squared) in
                  bindo (batch_fwd bases pts' buckets (fmul o acc z)) (fun r =>
                  let '(bs, a, tz) := r in Some (bs, a, (t, z) :: tz))
                else
                  bindo (batch_fwd bases pts' (set_nth buckets (buck_idx sp) None) acc) (fun r =>
                  let '(bs, a, tz) := r in Some (bs, a, (f0 o, f0 o) :: tz))
              else
                let z := fsub o (ax q) (ax b) in
                let t := if sp_sign sp then fmul o acc (fsub o (ay q) (ay b))
                         else fmul o acc (fadd o (ay q) (ay b)) in
                bindo (batch_fwd bases pts' buckets (fmul o acc z)) (fun r =>
                let '(bs, a, tz) := r in Some (bs, a, (t, z) :: tz))
          end
      | _, _ => None
      end
  end.
(** Second pass, over the reversed list *)
Fixpoint batch_bwd (bases : list (aff F)) (pts : list (sched_point * (F * F))) (buckets : list (option (aff F))) (acc : F)
  : option (list (option (aff F))) :=
  match pts with
  | [] => Some buckets
  | (sp, (t, z)) :: pts' =>
      match nth_error buckets (buck_idx sp), nth_error bases (base_idx sp) with
      | Some bk, Some b =>
          match bk with
          | None => batch_bwd bases pts' buckets acc
          | Some q =>
              let lambda := fmul o acc t in
              let acc := fmul o acc z in
              let x := fsub o (fsqr o lambda) (fadd o (ax q) (ax b)) in
              let y := if sp_sign sp then fsub o (fmul o lambda (fsub o (ax b) x)) (ay b)
                       else fadd o (fmul o lambda (fsub o (ax b) x)) (ay b) in
              batch_bwd bases pts' (set_nth buckets (buck_idx sp) (Some (mk_aff x y))) acc
          end
      | _, _ => None
      end
  end.
Definition batch_add (size : nat) (buckets : list (option (aff F))) (points : list sched_point) (bases : list (aff F))
  : option (list (option (aff F))) :=
  let pts := firstn size points in
  bindo (batch_fwd bases pts buckets (f1 o)) (fun r =>
  let '(buckets, acc, tz) := r in
  bindo (finv o acc) (fun acc =>
  batch_bwd bases (rev (combine pts tz)) buckets acc)).

(** msm.rs:281-329 [Schedule] *)
Record schedule := mk_sched { s_buckets : list (option (aff F)); s_set : list sched_point; s_ptr : nat }.
Definition sched_new (ws : Z) : schedule :=
  mk_sched (repeat None (Z.to_nat (Z.shiftl 1 (ws - 1)))) (repeat sp_default BATCH_SIZE) 0.
Definition sched_contains (s : schedule) (i : nat) : bool := existsb (fun sp => Nat.eqb (buck_idx sp) i) (s_set s).
Definition sched_execute (bases : list (aff F)) (s : schedule) : option schedule :=
  if Nat.eqb (s_ptr s) 0 then Some s
  else bindo (batch_add (s_ptr s) (s_buckets s) (s_set s) bases) (fun bks =>
       Some (mk_sched bks (repeat sp_default (length (s_set s))) 0)).
Definition sched_add (bases : list (aff F)) (s : schedule) (base bidx : nat) (sign : bool) : option schedule :=
  match nth_error (s_buckets s) bidx, nth_error bases base with
  | Some bk, Some b =>
      bindo (match bk with
             | None => Some (mk_sched (set_nth (s_buckets s) bidx (Some (if sign then b else mk_aff (ax b) (fneg o (ay b))))) (s_set s) (s_ptr s))
             | Some _ => if Nat.ltb (s_ptr s) (length (s_set s))
                         then Some (mk_sched (s_buckets s) (set_nth (s_set s) (s_ptr s) (mk_sp base bidx sign)) (S (s_ptr s)))
                         else None
             end) (fun s =>
      if Nat.eqb (s_ptr s) (length (s_set s)) then sched_execute bases s else Some s)
  | _, _ => None
  end.

(** ** msm.rs:460-535 [msm_best] *)
(** msm.rs:494-513, one scalar in one window *)
Definition best_step (w ws : Z) (bases bases_local : list (aff F)) (st : option (list (option (proj F)) * schedule)) (ic : nat * list Z)
  : option (list (option (proj F)) * schedule) :=
  bindo st (fun st => let '(j_bucks, sched) := st in
    let bi := get_booth_index w ws (snd ic) in
    if bi =? 0 then Some (j_bucks, sched)
    else
      let sign := 0 <? bi in
      let idx := Z.to_nat (Z.abs bi - 1) in
      if sched_contains sched idx then
        match nth_error bases (fst ic) with
        | None => None
        | Some b => bindo (upd_nth j_bucks idx (fun jb => Some (jbucket_add_assign jb b sign))) (fun j => Some (j, sched))
        end
      else bindo (sched_add bases_local sched (fst ic) idx sign) (fun s => Some (j_bucks, s))).
(** msm.rs:521-526 *)
Fixpoint best_sum (rev_buckets : list (option (proj F) * option (aff F))) (running_sum acc : proj F) : option (proj F) :=
  match rev_buckets with
  | [] => Some acc
  | (j, a) :: bs =>
      bindo (jbucket_add j a) (fun p =>
      let running_sum := proj_add o c running_sum p in
      best_sum bs running_sum (proj_add o c acc running_sum))
  end.
Definition best_window (ws : Z) (coeffs : list (list Z)) (bases bases_local : list (aff F)) (w : Z) : option (proj F) :=
  let j_bucks := repeat (None : option (proj F)) (Z.to_nat (Z.shiftl 1 (ws - 1))) in
  bindo (fold_left (best_step w ws bases bases_local) (combine (seq 0 (length coeffs)) coeffs) (Some (j_bucks, sched_new ws))) (fun st =>
  let '(j_bucks, sched) := st in
  bindo (sched_execute bases_local sched) (fun sched =>
  bindo (best_sum (rev (combine j_bucks (s_buckets sched))) (proj_identity o) (proj_identity o)) (fun acc =>
  Some (double_n (Z.to_nat (ws * w)) acc)))).
Definition msm_best (threads : nat) (coeffs : list (list Z)) (bases : list (aff F)) : option (proj F) :=
  if negb (Nat.eqb (length coeffs) (length bases)) then None
  else
    let ws := window_size (length bases) in
    if ws <? 10 then msm_parallel threads coeffs bases
    else
      let coeffs := map (to_repr sc) coeffs in
      bindo (sequence (map msm_affine bases)) (fun bases_local =>
      let number_of_windows := num_bits sc / ws + 1 in
      bindo (sequence (map (best_window ws coeffs bases bases_local) (map Z.of_nat (seq 0 (Z.to_nat number_of_windows))))) (fun accs =>
      Some (proj_sum o c accs))).
End Msm.
