(** Specification vocabulary for the prime-field level.  Independent of the
    model: only [Z], lists and the word base. *)
From Verif Require Import Base Word.

(** Value of a little-endian limb list in base 2^64. *)
Fixpoint eval (l : list Z) : Z :=
  match l with
  | [] => 0
  | x :: l' => x + W * eval l'
  end.

(** Every limb is a [u64]. *)
Definition words (l : list Z) : Prop := Forall (fun x => 0 <= x < W) l.

(** [n] words whose value is below [p]: the internal form every public
    constructor is supposed to maintain. *)
Definition canonical (n : nat) (p : Z) (l : list Z) : Prop :=
  length l = n /\ words l /\ eval l < p.

(** The limb list [l] is the Montgomery form of the residue [v]:
    [v] is the canonical integer in [0,p) and [l] stores [v * 2^(64n) mod p]. *)
Definition represents (n : nat) (p : Z) (l : list Z) (v : Z) : Prop :=
  canonical n p l /\ 0 <= v < p /\ eval l = (v * W ^ Z.of_nat n) mod p.

(** Byte strings and the integers they denote. *)
Definition is_bytes (l : list Z) : Prop := Forall (fun b => 0 <= b < 256) l.
Fixpoint le_int (l : list Z) : Z :=
  match l with
  | [] => 0
  | b :: l' => b + 256 * le_int l'
  end.
Definition be_int (l : list Z) : Z := le_int (rev l).
(** The integer denoted by [l] in the given byte order. *)
Definition bytes_int (big : bool) (l : list Z) : Z := if big then be_int l else le_int l.
