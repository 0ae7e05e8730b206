(** Factorisations of p-1 for the moduli of the crate, used to determine the
    multiplicative order of [MULTIPLICATIVE_GENERATOR]. *)
From Verif Require Import Base Field Params PrimeField Primality Certs.

(** Further primality certificates, on top of those of Certs.v. *)
Definition more_certs : list pcert := [
  {| pc_n := 31; pc_a := 3;
     pc_qs := [(3, 1); (2, 1)] |};
  {| pc_n := 311; pc_a := 2;
     pc_qs := [(31, 1)] |};
  {| pc_n := 491; pc_a := 2;
     pc_qs := [(7, 2)] |};
  {| pc_n := 983; pc_a := 2;
     pc_qs := [(491, 1)] |};
  {| pc_n := 327599; pc_a := 2;
     pc_qs := [(37, 1); (19, 1)] |};
  {| pc_n := 11465965001; pc_a := 2;
     pc_qs := [(327599, 1)] |};
  {| pc_n := 853; pc_a := 2;
     pc_qs := [(71, 1)] |};
  {| pc_n := 639533339; pc_a := 2;
     pc_qs := [(853, 1); (229, 1)] |};
  {| pc_n := 65865678001877903; pc_a := 2;
     pc_qs := [(639533339, 1)] |};
  {| pc_n := 13818364434197438864469338081; pc_a := 2;
     pc_qs := [(65865678001877903, 1)] |};
  {| pc_n := 1151; pc_a := 17;
     pc_qs := [(5, 2); (2, 1)] |};
  {| pc_n := 755057; pc_a := 2;
     pc_qs := [(1151, 1)] |};
  {| pc_n := 113; pc_a := 3;
     pc_qs := [(2, 4)] |};
  {| pc_n := 3819663927398918131021; pc_a := 6;
     pc_qs := [(755057, 1); (113, 1); (19, 1); (3, 2); (5, 1)] |};
  {| pc_n := 1125266252156850182658904441386709967; pc_a := 2;
     pc_qs := [(3819663927398918131021, 1)] |};
  {| pc_n := 15778400344354997994418419698270088123916926905054652752758194827714659; pc_a := 2;
     pc_qs := [(1125266252156850182658904441386709967, 1)] |};
  {| pc_n := 523; pc_a := 2;
     pc_qs := [(29, 1)] |};
  {| pc_n := 20921; pc_a := 2;
     pc_qs := [(523, 1)] |};
  {| pc_n := 125527; pc_a := 2;
     pc_qs := [(20921, 1)] |};
  {| pc_n := 89; pc_a := 2;
     pc_qs := [(11, 1)] |};
  {| pc_n := 179; pc_a := 2;
     pc_qs := [(89, 1)] |};
  {| pc_n := 359; pc_a := 2;
     pc_qs := [(179, 1)] |};
  {| pc_n := 110573; pc_a := 2;
     pc_qs := [(359, 1)] |};
  {| pc_n := 2653753; pc_a := 2;
     pc_qs := [(110573, 1)] |};
  {| pc_n := 63690073; pc_a := 2;
     pc_qs := [(2653753, 1)] |};
  {| pc_n := 254760293; pc_a := 2;
     pc_qs := [(63690073, 1)] |};
  {| pc_n := 13441; pc_a := 11;
     pc_qs := [(2, 7)] |};
  {| pc_n := 149; pc_a := 2;
     pc_qs := [(37, 1)] |};
  {| pc_n := 1409; pc_a := 3;
     pc_qs := [(2, 7)] |};
  {| pc_n := 28181; pc_a := 2;
     pc_qs := [(1409, 1)] |};
  {| pc_n := 545358713; pc_a := 2;
     pc_qs := [(28181, 1)] |};
  {| pc_n := 2731; pc_a := 3;
     pc_qs := [(7, 1); (5, 1); (3, 1)] |};
  {| pc_n := 305873; pc_a := 2;
     pc_qs := [(2731, 1)] |};
  {| pc_n := 29047611873442575647497758179; pc_a := 2;
     pc_qs := [(545358713, 1); (305873, 1); (293, 1)] |};
  {| pc_n := 341948486974166000522343609283189; pc_a := 2;
     pc_qs := [(29047611873442575647497758179, 1)] |};
  {| pc_n := 257; pc_a := 3;
     pc_qs := [(2, 8)] |};
  {| pc_n := 641; pc_a := 3;
     pc_qs := [(2, 7)] |};
  {| pc_n := 1531; pc_a := 2;
     pc_qs := [(3, 2); (5, 1)] |};
  {| pc_n := 65537; pc_a := 3;
     pc_qs := [(2, 16)] |};
  {| pc_n := 490463; pc_a := 14;
     pc_qs := [(53, 1); (7, 1); (2, 1)] |};
  {| pc_n := 6700417; pc_a := 3;
     pc_qs := [(17449, 1)] |};
  {| pc_n := 373; pc_a := 2;
     pc_qs := [(31, 1)] |};
  {| pc_n := 151; pc_a := 3;
     pc_qs := [(5, 2)] |};
  {| pc_n := 1511; pc_a := 2;
     pc_qs := [(151, 1)] |};
  {| pc_n := 3023; pc_a := 2;
     pc_qs := [(1511, 1)] |};
  {| pc_n := 127; pc_a := 3;
     pc_qs := [(3, 2); (2, 1)] |};
  {| pc_n := 208150935158385979; pc_a := 2;
     pc_qs := [(3023, 1); (127, 1); (43, 1); (11, 1); (3, 1)] |};
  {| pc_n := 2624747550333869278416773953; pc_a := 2;
     pc_qs := [(208150935158385979, 1)] |};
  {| pc_n := 1301; pc_a := 2;
     pc_qs := [(5, 2); (2, 2)] |};
  {| pc_n := 19556633; pc_a := 3;
     pc_qs := [(1301, 1); (2, 3)] |};
  {| pc_n := 96053; pc_a := 2;
     pc_qs := [(37, 1); (11, 1)] |};
  {| pc_n := 4226333; pc_a := 2;
     pc_qs := [(96053, 1)] |};
  {| pc_n := 988961923; pc_a := 2;
     pc_qs := [(4226333, 1)] |};
  {| pc_n := 7705991304017; pc_a := 2;
     pc_qs := [(988961923, 1)] |};
  {| pc_n := 470323883; pc_a := 2;
     pc_qs := [(109, 1); (89, 1); (7, 1)] |};
  {| pc_n := 8573263852574794615121004265862615281953667; pc_a := 2;
     pc_qs := [(7705991304017, 1); (470323883, 1)] |};
  {| pc_n := 18096277472748244729518088747392459898159629320140432033219842230958001701259; pc_a := 2;
     pc_qs := [(8573263852574794615121004265862615281953667, 1)] |}
].
Definition known_primes : list Z := 2 :: map pc_n certs.
Lemma known_primes_prime : Forall prime known_primes.
Proof.
  unfold known_primes. constructor; [exact prime_2|]. apply Forall_map.
  apply (pcerts_ok_spec certs [2]); [|exact certs_ok]. constructor; [exact prime_2|constructor].
Qed.
Lemma more_certs_ok : pcerts_ok known_primes more_certs = true.
Proof. vm_cast_no_check (eq_refl true). Qed.

Definition all_primes : list Z := map pc_n more_certs ++ known_primes.
Lemma all_primes_prime : Forall prime all_primes.
Proof.
  apply Forall_app. split; [|exact known_primes_prime]. apply Forall_map.
  exact (pcerts_ok_spec more_certs known_primes known_primes_prime more_certs_ok).
Qed.

(** The prime factorisations of p-1. *)
Definition factored : list (fconf * list (Z * Z)) := [
  (bn256_fq, [(2, 1); (3, 2); (13, 1); (29, 1); (67, 1); (229, 1); (311, 1); (983, 1); (11003, 1); (405928799, 1); (11465965001, 1); (13427688667394608761327070753331941386769, 1)]);
  (bn256_fr, [(2, 28); (3, 2); (13, 1); (29, 1); (983, 1); (11003, 1); (237073, 1); (405928799, 1); (1670836401704629, 1); (13818364434197438864469338081, 1)]);
  (bls12381_fq, [(2, 1); (3, 2); (11, 1); (23, 1); (47, 1); (10177, 1); (859267, 1); (52437899, 1); (2584487767265781317813, 1); (15778400344354997994418419698270088123916926905054652752758194827714659, 1)]);
  (bls12381_fr, [(2, 32); (3, 1); (11, 1); (19, 1); (10177, 1); (125527, 1); (859267, 1); (906349, 2); (2508409, 1); (2529403, 1); (52437899, 1); (254760293, 2)]);
  (secp256k1_fp, [(2, 1); (3, 1); (7, 1); (13441, 1); (205115282021455665897114700593932402728804164701536103180137503955397371, 1)]);
  (secp256k1_fq, [(2, 6); (3, 1); (149, 1); (631, 1); (107361793816595537, 1); (174723607534414371449, 1); (341948486974166000522343609283189, 1)]);
  (secp256r1_fp, [(2, 1); (3, 1); (5, 2); (17, 1); (257, 1); (641, 1); (1531, 1); (65537, 1); (490463, 1); (6700417, 1); (835945042244614951780389953367877943453916927241, 1)]);
  (secp256r1_fq, [(2, 4); (3, 1); (71, 1); (131, 1); (373, 1); (3407, 1); (17449, 1); (38189, 1); (187019741, 1); (622491383, 1); (1002328039319, 1); (2624747550333869278416773953, 1)]);
  (pluto_eris_fp, [(2, 32); (3, 4); (17, 1); (67, 1); (293, 1); (349, 1); (1997, 1); (19556633, 1); (44179799701097, 1); (1461985442088199434216480729118540833655826472878315075486478169293801719414121837587283877, 1)]);
  (pluto_eris_fq, [(2, 32); (3, 1); (29, 1); (67, 1); (293, 1); (349, 1); (1997, 1); (4481, 1); (44179799701097, 1); (5580686559493491521, 1); (18096277472748244729518088747392459898159629320140432033219842230958001701259, 1)])
].
