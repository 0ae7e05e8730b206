(** SHA-256 (FIPS 180-4), the hash function of every hash-to-curve suite (crate sha2, a
    dependency: written from the standard, not from its source).  Words are integers
    below 2^32, messages are lists of bytes. *)
From Verif Require Import Base Hash.

(** reduction modulo 2^32 *)
Definition w32 (x : Z) : Z := Z.land x 0xffffffff.
Definition rotr (n x : Z) : Z := Z.lor (Z.shiftr x n) (w32 (Z.shiftl x (32 - n))).
(** 4.1.2 *)
Definition sha_ch (x y z : Z) : Z := Z.lxor (Z.land x y) (Z.land (0xffffffff - x) z).
Definition sha_maj (x y z : Z) : Z := Z.lxor (Z.lxor (Z.land x y) (Z.land x z)) (Z.land y z).
Definition sha_S0 (x : Z) : Z := Z.lxor (Z.lxor (rotr 2 x) (rotr 13 x)) (rotr 22 x).
Definition sha_S1 (x : Z) : Z := Z.lxor (Z.lxor (rotr 6 x) (rotr 11 x)) (rotr 25 x).
Definition sha_s0 (x : Z) : Z := Z.lxor (Z.lxor (rotr 7 x) (rotr 18 x)) (Z.shiftr x 3).
Definition sha_s1 (x : Z) : Z := Z.lxor (Z.lxor (rotr 17 x) (rotr 19 x)) (Z.shiftr x 10).

(** 4.2.2 and 5.3.3: fractional parts of cube and square roots of the first primes *)
Definition sha_k : list Z :=
  [
   0x428a2f98; 0x71374491; 0xb5c0fbcf; 0xe9b5dba5; 0x3956c25b; 0x59f111f1; 0x923f82a4; 0xab1c5ed5;
   0xd807aa98; 0x12835b01; 0x243185be; 0x550c7dc3; 0x72be5d74; 0x80deb1fe; 0x9bdc06a7; 0xc19bf174;
   0xe49b69c1; 0xefbe4786; 0x0fc19dc6; 0x240ca1cc; 0x2de92c6f; 0x4a7484aa; 0x5cb0a9dc; 0x76f988da;
   0x983e5152; 0xa831c66d; 0xb00327c8; 0xbf597fc7; 0xc6e00bf3; 0xd5a79147; 0x06ca6351; 0x14292967;
   0x27b70a85; 0x2e1b2138; 0x4d2c6dfc; 0x53380d13; 0x650a7354; 0x766a0abb; 0x81c2c92e; 0x92722c85;
   0xa2bfe8a1; 0xa81a664b; 0xc24b8b70; 0xc76c51a3; 0xd192e819; 0xd6990624; 0xf40e3585; 0x106aa070;
   0x19a4c116; 0x1e376c08; 0x2748774c; 0x34b0bcb5; 0x391c0cb3; 0x4ed8aa4a; 0x5b9cca4f; 0x682e6ff3;
   0x748f82ee; 0x78a5636f; 0x84c87814; 0x8cc70208; 0x90befffa; 0xa4506ceb; 0xbef9a3f7; 0xc67178f2
  ].
Record sha_state := mk_sha { ha : Z; hb : Z; hc : Z; hd' : Z; he : Z; hf : Z; hg : Z; hh : Z }.
Definition sha_h0 : sha_state :=
  mk_sha 0x6a09e667 0xbb67ae85 0x3c6ef372 0xa54ff53a 0x510e527f 0x9b05688c 0x1f83d9ab 0x5be0cd19.

(** 6.2.2: one round.  [w] holds the schedule words W_t .. W_(t+15). *)
Definition sha_round (sw : sha_state * list Z) (k : Z) : sha_state * list Z :=
  let '(mk_sha a b c d e f g h, w) := sw in
  let wt := nth 0 w 0 in
  let t1 := h + sha_S1 e + sha_ch e f g + k + wt in
  let t2 := sha_S0 a + sha_maj a b c in
  (mk_sha (w32 (t1 + t2)) a b c (w32 (d + t1)) e f g,
   tl w ++ [w32 (sha_s1 (nth 14 w 0) + nth 9 w 0 + sha_s0 (nth 1 w 0) + wt)]).
Definition sha_compress (s : sha_state) (w : list Z) : sha_state :=
  let r := fst (fold_left sha_round sha_k (s, w)) in
  mk_sha (w32 (ha s + ha r)) (w32 (hb s + hb r)) (w32 (hc s + hc r)) (w32 (hd' s + hd' r))
         (w32 (he s + he r)) (w32 (hf s + hf r)) (w32 (hg s + hg r)) (w32 (hh s + hh r)).

(** 5.1.1: a one bit, zeros, and the length in bits as 8 bytes *)
Definition be_bytes (n : nat) (x : Z) : list Z :=
  map (fun i => Z.shiftr x (8 * Z.of_nat i) mod 256) (rev (seq 0 n)).
Definition sha_pad (m : list Z) : list Z :=
  let n := length m in
  m ++ [128] ++ repeat 0 ((55 + 64 - n mod 64) mod 64) ++ be_bytes 8 (8 * Z.of_nat n).
(** 5.2.1: the 32-bit words, big endian *)
Fixpoint be_words (l : list Z) : list Z :=
  match l with
  | a :: b :: c :: d :: l => (a * 0x1000000 + b * 0x10000 + c * 0x100 + d) :: be_words l
  | _ => []
  end.
Fixpoint sha_blocks (fuel : nat) (s : sha_state) (w : list Z) : sha_state :=
  match fuel with
  | O => s
  | S f => match w with
           | [] => s
           | _ => sha_blocks f (sha_compress s (firstn 16 w)) (skipn 16 w)
           end
  end.
Definition sha256 (m : list Z) : list Z :=
  let w := be_words (sha_pad m) in
  let s := sha_blocks (length w) sha_h0 w in
  flat_map (be_bytes 4) [ha s; hb s; hc s; hd' s; he s; hf s; hg s; hh s].

Definition sha256_digest : digest := {| hash := sha256; block_size := 64; output_size := 32 |}.
