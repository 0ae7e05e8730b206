(** SHA-512 (FIPS 180-4), the second hash function of the crate's test of [expand_message]
    (crate sha2, a dependency: written from the standard, not from its source).  The layout is
    that of Sha256.v with 64-bit words; no function of the crate itself uses it. *)
From Verif Require Import Base Hash Sha256.

Definition w64 (x : Z) : Z := Z.land x 0xffffffffffffffff.
Definition rotr64 (n x : Z) : Z := Z.lor (Z.shiftr x n) (w64 (Z.shiftl x (64 - n))).
(** 4.1.3 *)
Definition sha512_ch (x y z : Z) : Z := Z.lxor (Z.land x y) (Z.land (0xffffffffffffffff - x) z).
Definition sha512_S0 (x : Z) : Z := Z.lxor (Z.lxor (rotr64 28 x) (rotr64 34 x)) (rotr64 39 x).
Definition sha512_S1 (x : Z) : Z := Z.lxor (Z.lxor (rotr64 14 x) (rotr64 18 x)) (rotr64 41 x).
Definition sha512_s0 (x : Z) : Z := Z.lxor (Z.lxor (rotr64 1 x) (rotr64 8 x)) (Z.shiftr x 7).
Definition sha512_s1 (x : Z) : Z := Z.lxor (Z.lxor (rotr64 19 x) (rotr64 61 x)) (Z.shiftr x 6).

(** 4.2.3 and 5.3.5 *)
Definition sha512_k : list Z :=
  [
   0x428a2f98d728ae22; 0x7137449123ef65cd; 0xb5c0fbcfec4d3b2f; 0xe9b5dba58189dbbc;
   0x3956c25bf348b538; 0x59f111f1b605d019; 0x923f82a4af194f9b; 0xab1c5ed5da6d8118;
   0xd807aa98a3030242; 0x12835b0145706fbe; 0x243185be4ee4b28c; 0x550c7dc3d5ffb4e2;
   0x72be5d74f27b896f; 0x80deb1fe3b1696b1; 0x9bdc06a725c71235; 0xc19bf174cf692694;
   0xe49b69c19ef14ad2; 0xefbe4786384f25e3; 0x0fc19dc68b8cd5b5; 0x240ca1cc77ac9c65;
   0x2de92c6f592b0275; 0x4a7484aa6ea6e483; 0x5cb0a9dcbd41fbd4; 0x76f988da831153b5;
   0x983e5152ee66dfab; 0xa831c66d2db43210; 0xb00327c898fb213f; 0xbf597fc7beef0ee4;
   0xc6e00bf33da88fc2; 0xd5a79147930aa725; 0x06ca6351e003826f; 0x142929670a0e6e70;
   0x27b70a8546d22ffc; 0x2e1b21385c26c926; 0x4d2c6dfc5ac42aed; 0x53380d139d95b3df;
   0x650a73548baf63de; 0x766a0abb3c77b2a8; 0x81c2c92e47edaee6; 0x92722c851482353b;
   0xa2bfe8a14cf10364; 0xa81a664bbc423001; 0xc24b8b70d0f89791; 0xc76c51a30654be30;
   0xd192e819d6ef5218; 0xd69906245565a910; 0xf40e35855771202a; 0x106aa07032bbd1b8;
   0x19a4c116b8d2d0c8; 0x1e376c085141ab53; 0x2748774cdf8eeb99; 0x34b0bcb5e19b48a8;
   0x391c0cb3c5c95a63; 0x4ed8aa4ae3418acb; 0x5b9cca4f7763e373; 0x682e6ff3d6b2b8a3;
   0x748f82ee5defb2fc; 0x78a5636f43172f60; 0x84c87814a1f0ab72; 0x8cc702081a6439ec;
   0x90befffa23631e28; 0xa4506cebde82bde9; 0xbef9a3f7b2c67915; 0xc67178f2e372532b;
   0xca273eceea26619c; 0xd186b8c721c0c207; 0xeada7dd6cde0eb1e; 0xf57d4f7fee6ed178;
   0x06f067aa72176fba; 0x0a637dc5a2c898a6; 0x113f9804bef90dae; 0x1b710b35131c471b;
   0x28db77f523047d84; 0x32caab7b40c72493; 0x3c9ebe0a15c9bebc; 0x431d67c49c100d4c;
   0x4cc5d4becb3e42b6; 0x597f299cfc657e2a; 0x5fcb6fab3ad6faec; 0x6c44198c4a475817
  ].
Definition sha512_h0 : sha_state :=
  mk_sha 0x6a09e667f3bcc908 0xbb67ae8584caa73b 0x3c6ef372fe94f82b 0xa54ff53a5f1d36f1
         0x510e527fade682d1 0x9b05688c2b3e6c1f 0x1f83d9abfb41bd6b 0x5be0cd19137e2179.

(** 6.4.2 *)
Definition sha512_round (sw : sha_state * list Z) (k : Z) : sha_state * list Z :=
  let '(mk_sha a b c d e f g h, w) := sw in
  let wt := nth 0 w 0 in
  let t1 := h + sha512_S1 e + sha512_ch e f g + k + wt in
  let t2 := sha512_S0 a + sha_maj a b c in
  (mk_sha (w64 (t1 + t2)) a b c (w64 (d + t1)) e f g,
   tl w ++ [w64 (sha512_s1 (nth 14 w 0) + nth 9 w 0 + sha512_s0 (nth 1 w 0) + wt)]).
Definition sha512_compress (s : sha_state) (w : list Z) : sha_state :=
  let r := fst (fold_left sha512_round sha512_k (s, w)) in
  mk_sha (w64 (ha s + ha r)) (w64 (hb s + hb r)) (w64 (hc s + hc r)) (w64 (hd' s + hd' r))
         (w64 (he s + he r)) (w64 (hf s + hf r)) (w64 (hg s + hg r)) (w64 (hh s + hh r)).

(** 5.1.2: a one bit, zeros, and the length in bits as 16 bytes *)
Definition sha512_pad (m : list Z) : list Z :=
  let n := length m in
  m ++ [128] ++ repeat 0 ((111 + 128 - n mod 128) mod 128) ++ be_bytes 16 (8 * Z.of_nat n).
(** 5.2.2: the 64-bit words, big endian *)
Fixpoint be_words64 (l : list Z) : list Z :=
  match l with
  | a :: b :: c :: d :: e :: f :: g :: h :: l =>
      ((a * 0x1000000 + b * 0x10000 + c * 0x100 + d) * 0x100000000 +
       (e * 0x1000000 + f * 0x10000 + g * 0x100 + h)) :: be_words64 l
  | _ => []
  end.
Fixpoint sha512_blocks (fuel : nat) (s : sha_state) (w : list Z) : sha_state :=
  match fuel with
  | O => s
  | S f => match w with
           | [] => s
           | _ => sha512_blocks f (sha512_compress s (firstn 16 w)) (skipn 16 w)
           end
  end.
Definition sha512 (m : list Z) : list Z :=
  let w := be_words64 (sha512_pad m) in
  let s := sha512_blocks (length w) sha512_h0 w in
  flat_map (be_bytes 8) [ha s; hb s; hc s; hd' s; he s; hf s; hg s; hh s].
Definition sha512_digest : digest := {| hash := sha512; output_size := 64; block_size := 128 |}.

(** FIPS 180-4 example: the digest of "abc" *)
Example sha512_abc : sha512 [97; 98; 99] = be_bytes 64
  0xddaf35a193617abacc417349ae20413112e6fa4e89a97ea20a9eeee64b55d39a2192992a274fc1a836ba3c23a3feebbd454d4423643ce80e2a9ac94fa54ca49f.
Proof. vm_compute. reflexivity. Qed.
