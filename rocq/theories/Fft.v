(** Model of src/fft.rs.

    The vector is a list; the in-place operations on sub-slices return the new
    contents of the slice.  [None] is a panic (index or split out of range, or
    the failed [assert_eq!]).  The two closures of [rayon::join] work on
    disjoint halves of the slice; the model runs each on its half (FftSched.v
    covers the interleavings). *)
From Verif Require Import Base.

(** The trait bounds [GroupOpsOwned + ScalarMulOwned<Scalar>] and the part of
    [Field] used for the scalar: [sone], [smul]. *)
Record fft_ops (G S : Type) := {
  tadd : G -> G -> G; tsub : G -> G -> G; tscale : G -> S -> G;
  sone : S; smul : S -> S -> S }.
Arguments tadd {G S}. Arguments tsub {G S}. Arguments tscale {G S}.
Arguments sone {G S}. Arguments smul {G S}.

Definition bindo {A B} (x : option A) (f : A -> option B) : option B :=
  match x with Some a => f a | None => None end.

(** fft.rs:31-38 [bitreverse] *)
Fixpoint bitrev_loop (l n r : nat) : nat :=
  match l with
  | O => r
  | S l' => bitrev_loop l' (n / 2) (2 * r + n mod 2)
  end.
Definition bitreverse (n l : nat) : nat := bitrev_loop l n 0.

(** [slice::swap] *)
Fixpoint set_nth {A} (l : list A) (i : nat) (x : A) : list A :=
  match l, i with
  | [], _ => []
  | _ :: l', O => x :: l'
  | a :: l', S i' => a :: set_nth l' i' x
  end.
Definition swap {A} (l : list A) (i j : nat) : option (list A) :=
  match nth_error l i, nth_error l j with
  | Some x, Some y => Some (set_nth (set_nth l i y) j x)
  | _, _ => None
  end.
(** fft.rs:45-50 *)
Definition permute {A} (l : list A) (log_n : nat) : option (list A) :=
  fold_left (fun acc k => bindo acc (fun l =>
      let rk := bitreverse k log_n in
      if Nat.ltb k rk then swap l rk k else Some l))
    (seq 0 (length l)) (Some l).

Section Fft.
Context {G S : Type} (o : fft_ops G S).

(** fft.rs:53-59, the [scan] *)
Fixpoint twiddles_from (omega w : S) (n : nat) : list S :=
  match n with
  | O => []
  | Datatypes.S n' => w :: twiddles_from omega (smul o w omega) n'
  end.
Definition twiddles (omega : S) (n : nat) : list S := twiddles_from omega (sone o) (n / 2).

(** fft.rs:74-83 and 121-130: the zipped iteration over the tails, [i] counting
    from 0; elements beyond the shorter slice stay unchanged. *)
Fixpoint zip_butterfly (tw : list S) (tc i : nat) (lo hi : list G) : option (list G * list G) :=
  match lo, hi with
  | a :: lo', b :: hi' =>
      match nth_error tw ((i + 1) * tc) with
      | None => None
      | Some w =>
          let t := tscale o b w in
          match zip_butterfly tw tc (i + 1) lo' hi' with
          | None => None
          | Some (l, r) => Some (tadd o a t :: l, tsub o a t :: r)
          end
      end
  | _, _ => Some (lo, hi)
  end.
(** fft.rs:65-83 and 112-130: one butterfly over a chunk, split at [half]. *)
Definition butterfly (tw : list S) (tc half : nat) (coeffs : list G) : option (list G) :=
  if Nat.ltb (length coeffs) half then None
  else match firstn half coeffs, skipn half coeffs with
  | a :: lo, b :: hi =>
      match zip_butterfly tw tc 0 lo hi with
      | None => None
      | Some (l, r) => Some (tadd o a b :: l ++ tsub o a b :: r)
      end
  | _, _ => None
  end.

(** fft.rs:96-133.  Recursion on [n] with fuel; [None] also when the fuel is
    used up.  With [n = 2^k], [k] units of fuel are enough (FftFacts.v). *)
Fixpoint recursive_butterfly (fuel : nat) (a : list G) (n tc : nat) (tw : list S) : option (list G) :=
  match fuel with
  | O => None
  | Datatypes.S fuel' =>
      if Nat.eqb n 2 then
        match a with
        | a0 :: a1 :: rest => Some (tadd o a0 a1 :: tsub o a0 a1 :: rest)
        | _ => None
        end
      else if Nat.ltb (length a) (n / 2) then None
      else
        bindo (recursive_butterfly fuel' (firstn (n / 2) a) (n / 2) (tc * 2) tw) (fun lo =>
        bindo (recursive_butterfly fuel' (skipn (n / 2) a) (n / 2) (tc * 2) tw) (fun hi =>
        butterfly tw tc (length lo) (lo ++ hi)))
  end.

(** [chunks_mut(chunk)] followed by [for_each] *)
Fixpoint map_chunks (fuel chunk : nat) (f : list G -> option (list G)) (l : list G) : option (list G) :=
  match fuel with
  | O => Some l
  | Datatypes.S fuel' =>
      match l with
      | [] => Some []
      | _ => bindo (f (firstn chunk l)) (fun h =>
             bindo (map_chunks fuel' chunk f (skipn chunk l)) (fun t => Some (h ++ t)))
      end
  end.
(** fft.rs:62-88 *)
Fixpoint iterative (rounds chunk tc : nat) (tw : list S) (a : list G) : option (list G) :=
  match rounds with
  | O => Some a
  | Datatypes.S r =>
      bindo (map_chunks (length a) chunk (butterfly tw tc (chunk / 2)) a)
            (iterative r (chunk * 2) (tc / 2) tw)
  end.

(** fft.rs:30-93 [best_fft]; [threads] is [rayon::current_num_threads()].  The shift [1 << log_n]
    is that of a build with overflow checks: with [log_n >= 64] it panics, like the comparison with
    [2 ^ log_n] here, since no slice has 2^64 elements.  A build without the checks reduces the
    shift amount modulo 64. *)
Definition best_fft (threads : nat) (a : list G) (omega : S) (log_n : nat) : option (list G) :=
  let n := length a in
  if negb (Nat.eqb n (2 ^ log_n)) then None
  else bindo (permute a log_n) (fun a =>
    let tw := twiddles omega n in
    if Nat.leb log_n (Nat.log2 threads) then iterative log_n 2 (n / 2) tw a
    else recursive_butterfly log_n a n 1 tw).
End Fft.
