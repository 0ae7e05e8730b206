(** The tasks that msm.rs hands to the thread pool, statement by statement.

    A task owns a local state and holds a mutable reference to one cell of a shared vector
    ([results.iter_mut()], [acc.par_iter_mut()]); everything else it reads (scalars, bases) is shared and
    immutable.  The pool runs the tasks in any order and interleaved in any way.  If a task panics, the
    others may or may not go on, and [scope] and [for_each] panic (documentation of rayon 1.8).  The output
    of [par_iter().map(f).collect()] (msm.rs:480, 482) is the vector of the values of [f]. *)
From Verif Require Import Base Algebra Word Limbs Bytes Field Curve Fft Msm.

(** ** The pool *)
Section Pool.
Context {L A : Type} (next : L -> A -> option (L * A)).
(** The tasks, each with the number of its cell, and the shared vector. *)
Definition config := (list (nat * L) * list A)%type.
Inductive pool_step : config -> config -> Prop :=
| pool_task i k l a l' a' ts mem : nth_error ts i = Some (k, l) -> nth_error mem k = Some a -> next l a = Some (l', a') ->
    pool_step (ts, mem) (set_nth ts i (k, l'), set_nth mem k a').
Inductive pool_run : config -> config -> Prop :=
| pool_refl c : pool_run c c
| pool_more c c' c'' : pool_step c c' -> pool_run c' c'' -> pool_run c c''.
Definition pool_done (c : config) : Prop := forall c', ~ pool_step c c'.
(** What the caller sees: a panic as soon as a task has panicked, the vector when all are done. *)
Inductive pool_outcome (panics : L -> bool) : config -> option (list A) -> Prop :=
| po_panic ts mem : existsb (fun t => panics (snd t)) ts = true -> pool_outcome panics (ts, mem) None
| po_done ts mem : existsb (fun t => panics (snd t)) ts = false -> pool_done (ts, mem) -> pool_outcome panics (ts, mem) (Some mem).
(** One task alone. *)
Inductive solo : L -> A -> L -> A -> Prop :=
| solo_refl l a : solo l a l a
| solo_more l a l' a' l'' a'' : next l a = Some (l', a') -> solo l' a' l'' a'' -> solo l a l'' a''.
End Pool.

Section Tasks.
Context {F : Type} (o : fops F) (c : cconf F) (sc : fconf) (ln_ceil : nat -> Z).

(** ** msm.rs:335-421 [msm_serial]; the cell is [*acc] *)
Inductive sloc :=
| SStart (coeffs : list (list Z)) (bases : list (aff F))
| SWindows (ws : Z) (cbs : list (list Z * aff F)) (rest : list Z)
| SDouble (n : nat) (ws : Z) (cbs : list (list Z * aff F)) (w : Z) (rest : list Z)
| SFill (todo : list (list Z * aff F)) (buckets : list (@sbucket F)) (ws : Z) (cbs : list (list Z * aff F)) (w : Z) (rest : list Z)
| SSum (todo : list (@sbucket F)) (running_sum : proj F) (ws : Z) (cbs : list (list Z * aff F)) (rest : list Z)
| SReturn | SPanic.
Definition serial_next (s : sloc) (acc : proj F) : option (sloc * proj F) :=
  match s with
  | SStart coeffs bases =>
      let coeffs := map (to_repr sc) coeffs in
      let ws := window_size ln_ceil (length bases) in
      let max_byte_size := max_byte_size sc coeffs in
      if Nat.eqb max_byte_size 0 then Some (SReturn, acc)
      else if ws <=? 0 then Some (SPanic, acc)
      else Some (SWindows ws (combine coeffs bases)
        (rev (map Z.of_nat (seq 0 (Z.to_nat (Z.of_nat max_byte_size * 8 / ws + 1))))), acc)
  | SWindows ws cbs [] => Some (SReturn, acc)
  | SWindows ws cbs (w :: rest) => Some (SDouble (Z.to_nat ws) ws cbs w rest, acc)
  | SDouble (S n) ws cbs w rest => Some (SDouble n ws cbs w rest, proj_double o c acc)
  | SDouble O ws cbs w rest => Some (SFill cbs (repeat SNone (Z.to_nat (Z.shiftl 1 (ws - 1)))) ws cbs w rest, acc)
  | SFill (cb :: todo) buckets ws cbs w rest =>
      match serial_step o c w ws (Some buckets) cb with
      | None => Some (SPanic, acc)
      | Some buckets => Some (SFill todo buckets ws cbs w rest, acc)
      end
  | SFill [] buckets ws cbs w rest => Some (SSum (rev buckets) (proj_identity o) ws cbs rest, acc)
  | SSum (b :: todo) running_sum ws cbs rest =>
      let running_sum := sbucket_add o c b running_sum in
      Some (SSum todo running_sum ws cbs rest, proj_add o c acc running_sum)
  | SSum [] _ ws cbs rest => Some (SWindows ws cbs rest, acc)
  | SReturn | SPanic => None
  end.
Definition serial_panics (s : sloc) : bool := match s with SPanic => true | _ => false end.

(** msm.rs:428-456 [msm_parallel]: the possible outcomes, [None] a panic *)
Inductive msm_parallel_run (threads : nat) (coeffs : list (list Z)) (bases : list (aff F)) : option (proj F) -> Prop :=
| mpr_assert : length coeffs <> length bases -> msm_parallel_run threads coeffs bases None
| mpr_one ts mem : length coeffs = length bases -> (length coeffs <= threads)%nat ->
    pool_run serial_next ([(O, SStart coeffs bases)], [proj_identity o]) (ts, mem) -> pool_done serial_next (ts, mem) ->
    msm_parallel_run threads coeffs bases (if existsb (fun t => serial_panics (snd t)) ts then None else nth_error mem 0)
| mpr_chunk0 : length coeffs = length bases -> (threads < length coeffs)%nat -> Nat.div (length coeffs) threads = O ->
    msm_parallel_run threads coeffs bases None
| mpr_scope ts mem r : length coeffs = length bases -> (threads < length coeffs)%nat -> Nat.div (length coeffs) threads <> O ->
    let chunk := Nat.div (length coeffs) threads in
    let cs := chunks (length coeffs) chunk coeffs in
    let tasks := map (fun cb => SStart (fst cb) (snd cb)) (combine cs (chunks (length bases) chunk bases)) in
    pool_run serial_next (combine (seq 0 (length cs)) tasks, repeat (proj_identity o) (length cs)) (ts, mem) ->
    pool_outcome serial_next serial_panics (ts, mem) r ->
    msm_parallel_run threads coeffs bases (option_map (fun results => fold_left (proj_add o c) results (proj_identity o)) r).

(** ** msm.rs:488-530: one window of [msm_best]; the cell is [*acc] *)
Inductive wloc :=
| WStart (w : Z)
| WFill (todo : list (nat * list Z)) (j_bucks : list (option (proj F))) (sched : @schedule F) (w : Z)
| WSum (todo : list (option (proj F) * option (aff F))) (running_sum : proj F) (w : Z)
| WDouble (n : nat)
| WReturn | WPanic.
Definition window_next (ws : Z) (coeffs : list (list Z)) (bases bases_local : list (aff F)) (s : wloc) (acc : proj F) : option (wloc * proj F) :=
  match s with
  | WStart w => Some (WFill (combine (seq 0 (length coeffs)) coeffs)
      (repeat None (Z.to_nat (Z.shiftl 1 (ws - 1)))) (sched_new ws) w, acc)
  | WFill (ic :: todo) j_bucks sched w =>
      match best_step o c w ws bases bases_local (Some (j_bucks, sched)) ic with
      | None => Some (WPanic, acc)
      | Some (j_bucks, sched) => Some (WFill todo j_bucks sched w, acc)
      end
  | WFill [] j_bucks sched w =>
      match sched_execute o bases_local sched with
      | None => Some (WPanic, acc)
      | Some sched => Some (WSum (rev (combine j_bucks (s_buckets sched))) (proj_identity o) w, acc)
      end
  | WSum ((j, a) :: todo) running_sum w =>
      match jbucket_add o c j a with
      | None => Some (WPanic, acc)
      | Some p =>
          let running_sum := proj_add o c running_sum p in
          Some (WSum todo running_sum w, proj_add o c acc running_sum)
      end
  | WSum [] _ w => Some (WDouble (Z.to_nat (ws * w)), acc)
  | WDouble (S n) => Some (WDouble n, proj_double o c acc)
  | WDouble O => Some (WReturn, acc)
  | WReturn | WPanic => None
  end.
Definition window_panics (s : wloc) : bool := match s with WPanic => true | _ => false end.

(** msm.rs:460-535 [msm_best]: the possible outcomes.  The tasks are listed in the order of [rev()]. *)
Inductive msm_best_run (threads : nat) (coeffs : list (list Z)) (bases : list (aff F)) : option (proj F) -> Prop :=
| mbr_assert : length coeffs <> length bases -> msm_best_run threads coeffs bases None
| mbr_small r : length coeffs = length bases -> window_size ln_ceil (length bases) < 10 ->
    msm_parallel_run threads coeffs bases r -> msm_best_run threads coeffs bases r
| mbr_affine : length coeffs = length bases -> 10 <= window_size ln_ceil (length bases) ->
    sequence (map (msm_affine o c) bases) = None -> msm_best_run threads coeffs bases None
| mbr_windows bases_local ts mem r : length coeffs = length bases -> 10 <= window_size ln_ceil (length bases) ->
    sequence (map (msm_affine o c) bases) = Some bases_local ->
    let ws := window_size ln_ceil (length bases) in
    let n := Z.to_nat (num_bits sc / ws + 1) in
    let step := window_next ws (map (to_repr sc) coeffs) bases bases_local in
    pool_run step (rev (map (fun w => (w, WStart (Z.of_nat w))) (seq 0 n)), repeat (proj_identity o) n) (ts, mem) ->
    pool_outcome step window_panics (ts, mem) r ->
    msm_best_run threads coeffs bases (option_map (proj_sum o c) r).
End Tasks.
