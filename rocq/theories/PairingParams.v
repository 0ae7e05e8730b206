(** Constants of the pairings (generated from the Rust literals). *)
From Verif Require Import Base Word Field Params Tower TowerParams.

(** bn256/mod.rs:17 *)
Definition bn_x : Z := 4965661367192848881.
(** bn256/mod.rs:20-24, least significant digit first *)
Definition six_u_plus_2_naf : list Z :=
  [0; 0; 0; 1; 0; 1; 0; (-1); 0; 0; 1; (-1); 0; 0; 1; 0; 0; 1; 1; 0; (-1); 0; 0; 1; 0; (-1); 0; 0; 0; 0; 1; 1; 1; 
  0; 0; (-1); 0; 0; 1; 0; 0; 0; 0; 0; (-1); 0; 0; 1; 1; 0; 0; (-1); 0; 0; 0; 1; 1; 0; (-1); 0; 0; 1; 0; 1; 1].
(** bls12381/mod.rs:19-22, most significant bit first *)
Definition bls_x : list Z :=
  [1; 1; 0; 1; 0; 0; 1; 0; 0; 0; 0; 0; 0; 0; 0; 1; 0; 0; 0; 0; 0; 0; 0; 0; 0; 0; 0; 0; 0; 0; 0; 0; 0; 0; 0; 0; 0; 
  0; 0; 0; 0; 0; 0; 0; 0; 0; 0; 1; 0; 0; 0; 0; 0; 0; 0; 0; 0; 0; 0; 0; 0; 0; 0; 0].
(** pluto_eris/engine.rs:25 *)
Definition neg_pluto_u : Z := 0x4000000000001000008780000000.
(** pluto_eris/engine.rs:27-32, least significant digit first *)
Definition neg_six_u_plus_2_naf : list Z :=
  [0; (-1); 0; 0; 0; 0; 0; 0; 0; 0; 0; 0; 0; 0; 0; 0; 0; 0; 0; 0; 0; 0; 0; 0; 0; 0; 0; 0; 0; 0; 0; 0; 1; 0; (-1); 
  0; (-1); 0; 1; 0; (-1); 0; 1; 0; 0; 0; 0; 0; 0; 0; 0; 0; 0; 0; 0; 0; 0; 0; 0; 0; 0; (-1); 0; 1; 0; 0; 0; 0; 0; 
  0; 0; 0; 0; 0; 0; 0; 0; 0; 0; 0; 0; 0; 0; 0; 0; 0; 0; 0; 0; 0; 0; 0; 0; 0; 0; 0; 0; 0; 0; 0; 0; 0; 0; 0; 0; 0; 
  0; 0; 0; 0; 0; (-1); 0; 1].

(** bn256/engine.rs:165-178 XI_TO_Q_MINUS_1_OVER_2 *)
Definition bn256_xi_half_src : list (lit * lit) :=
  [(Mont 0x253570bea500f8dd31a9d1b6f9645366bb30f162e133bacbe4bbdd0c2936b629, Mont 0x2c87200285defecc6d16bd27bb7edc6b07affd117826d1dba1d77ce45ffe77c7)].
Definition bn256_xi_half : Z * Z :=
  (0x63cf305489af5dcdc5ec698b6e2f9b9dbaae0eda9c95998dc54014671a0135a, 0x7c03cbcac41049a0704b5a7ec796f2b21807dc98fa25bd282d37f632623b0e3).
(** pluto_eris/engine.rs:73-94 XI_TO_P_MINUS_1_OVER_2 *)
Definition pluto_xi_half_src : list (lit * lit) :=
  [(Raw 0x21cc26d5de0f80f4678664ba4b6d83437cf421e4d46f666650e0d09ff6d6c08b9c23800ce9c9452f186c1f3ce4a46d4e54cf5ad1c0926216,
    Raw 0x16ebe8b2e12a1106f6839d29e2f0d2504b7211d23f34f0ae87c56f42a558750db4b3e0c35358097ee7bbd15f10723657c0505f4c260e91f4)].
Definition pluto_xi_half : Z * Z :=
  (0x21cc26d5de0f80f4678664ba4b6d83437cf421e4d46f666650e0d09ff6d6c08b9c23800ce9c9452f186c1f3ce4a46d4e54cf5ad1c0926216,
   0x16ebe8b2e12a1106f6839d29e2f0d2504b7211d23f34f0ae87c56f42a558750db4b3e0c35358097ee7bbd15f10723657c0505f4c260e91f4).
