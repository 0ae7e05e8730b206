(** Primality certificates of the prime factors of the cofactors (generated, checked below). *)
From Verif Require Import Base Primality.

Definition cof_certs : list pcert := [
  {| pc_n := 3; pc_a := 2;
     pc_qs := [] |};
  {| pc_n := 5; pc_a := 2;
     pc_qs := [(2, 2)] |};
  {| pc_n := 11; pc_a := 2;
     pc_qs := [(5, 1)] |};
  {| pc_n := 10177; pc_a := 5;
     pc_qs := [(2, 6)] |};
  {| pc_n := 47737; pc_a := 5;
     pc_qs := [(2, 3); (3, 3)] |};
  {| pc_n := 859267; pc_a := 2;
     pc_qs := [(47737, 1)] |};
  {| pc_n := 97; pc_a := 5;
     pc_qs := [(2, 5)] |};
  {| pc_n := 609743; pc_a := 2;
     pc_qs := [(97, 1)] |};
  {| pc_n := 52437899; pc_a := 2;
     pc_qs := [(609743, 1)] |};
  {| pc_n := 13; pc_a := 2;
     pc_qs := [(2, 2)] |};
  {| pc_n := 23; pc_a := 2;
     pc_qs := [(11, 1)] |};
  {| pc_n := 2713; pc_a := 5;
     pc_qs := [(2, 3); (3, 1)] |};
  {| pc_n := 11953; pc_a := 5;
     pc_qs := [(2, 4); (3, 2)] |};
  {| pc_n := 61; pc_a := 2;
     pc_qs := [(2, 2)] |};
  {| pc_n := 21839; pc_a := 2;
     pc_qs := [(61, 1)] |};
  {| pc_n := 262069; pc_a := 2;
     pc_qs := [(21839, 1)] |};
  {| pc_n := 373; pc_a := 2;
     pc_qs := [(2, 2); (3, 1)] |};
  {| pc_n := 8329; pc_a := 7;
     pc_qs := [(2, 3); (3, 1)] |};
  {| pc_n := 37501; pc_a := 2;
     pc_qs := [(5, 5)] |};
  {| pc_n := 13789; pc_a := 7;
     pc_qs := [(2, 2); (3, 2)] |};
  {| pc_n := 661873; pc_a := 2;
     pc_qs := [(13789, 1)] |};
  {| pc_n := 163; pc_a := 2;
     pc_qs := [(3, 4)] |};
  {| pc_n := 653; pc_a := 2;
     pc_qs := [(163, 1)] |};
  {| pc_n := 1307; pc_a := 2;
     pc_qs := [(653, 1)] |};
  {| pc_n := 1402724681; pc_a := 2;
     pc_qs := [(1307, 1)] |};
  {| pc_n := 19; pc_a := 2;
     pc_qs := [(3, 2)] |};
  {| pc_n := 68059; pc_a := 2;
     pc_qs := [(3, 2); (19, 1)] |};
  {| pc_n := 16297965815447; pc_a := 2;
     pc_qs := [(68059, 1)] |};
  {| pc_n := 4638704574076146691498289350639807119782054683906549022985642612861209609656189848749536921852444848596916990932297; pc_a := 2;
     pc_qs := [(373, 1); (8329, 1); (37501, 1); (661873, 1); (1402724681, 1); (16297965815447, 1)] |};
  {| pc_n := 402096035359507321594726366720466575392706800671181159425656785868777272553337714697862511267018014931937703598282857976535744623203249; pc_a := 2;
     pc_qs := [(4638704574076146691498289350639807119782054683906549022985642612861209609656189848749536921852444848596916990932297, 1)] |};
  {| pc_n := 419; pc_a := 2;
     pc_qs := [(11, 1)] |};
  {| pc_n := 839; pc_a := 2;
     pc_qs := [(419, 1)] |};
  {| pc_n := 10069; pc_a := 2;
     pc_qs := [(839, 1)] |};
  {| pc_n := 5864401; pc_a := 29;
     pc_qs := [(2, 4); (3, 4)] |};
  {| pc_n := 17367825521; pc_a := 3;
     pc_qs := [(2, 4); (19, 2)] |};
  {| pc_n := 1875725156269; pc_a := 2;
     pc_qs := [(17367825521, 1)] |};
  {| pc_n := 133769; pc_a := 3;
     pc_qs := [(2, 3); (23, 1)] |};
  {| pc_n := 1309000310535827101; pc_a := 2;
     pc_qs := [(2, 2); (3, 1); (133769, 1)] |};
  {| pc_n := 197620364512881247228717050342013327560683201906968909; pc_a := 2;
     pc_qs := [(1309000310535827101, 1)] |};
  {| pc_n := 73; pc_a := 5;
     pc_qs := [(2, 3)] |};
  {| pc_n := 11971; pc_a := 5;
     pc_qs := [(3, 2); (5, 1)] |};
  {| pc_n := 143653; pc_a := 2;
     pc_qs := [(11971, 1)] |};
  {| pc_n := 1426393; pc_a := 14;
     pc_qs := [(2, 3); (3, 2); (11, 1)] |};
  {| pc_n := 7; pc_a := 3;
     pc_qs := [(2, 1)] |};
  {| pc_n := 79562281; pc_a := 13;
     pc_qs := [(2, 3); (7, 3)] |};
  {| pc_n := 20411; pc_a := 3;
     pc_qs := [(5, 1); (13, 1)] |};
  {| pc_n := 3547; pc_a := 2;
     pc_qs := [(2, 1); (3, 2)] |};
  {| pc_n := 24097197149; pc_a := 2;
     pc_qs := [(3547, 1)] |};
  {| pc_n := 1161317; pc_a := 2;
     pc_qs := [(13, 1); (23, 1)] |};
  {| pc_n := 6967903; pc_a := 2;
     pc_qs := [(1161317, 1)] |};
  {| pc_n := 7065453643; pc_a := 2;
     pc_qs := [(6967903, 1)] |};
  {| pc_n := 42392721859; pc_a := 2;
     pc_qs := [(7065453643, 1)] |};
  {| pc_n := 18822368505397; pc_a := 2;
     pc_qs := [(42392721859, 1)] |};
  {| pc_n := 547525040277163084750088157697505930011922265932742156978070537625928876098519678467; pc_a := 2;
     pc_qs := [(20411, 1); (24097197149, 1); (18822368505397, 1)] |};
  {| pc_n := 508194433436460527446871173854116280656436580304376012253055085313374946805647487990943840223586984484290015869; pc_a := 2;
     pc_qs := [(547525040277163084750088157697505930011922265932742156978070537625928876098519678467, 1)] |}
].
Lemma cof_certs_ok : pcerts_ok [2] cof_certs = true.
Proof. vm_cast_no_check (eq_refl true). Qed.

Lemma cof_prime n : existsb (fun c => pc_n c =? n) cof_certs = true -> prime n.
Proof.
  intros E. apply existsb_exists in E. destruct E as (c & Hc & En). apply Z.eqb_eq in En. subst n.
  assert (P : Forall (fun c => prime (pc_n c)) cof_certs).
  { apply (pcerts_ok_spec cof_certs [2]); [|exact cof_certs_ok].
    constructor; [exact prime_2|constructor]. }
  rewrite Forall_forall in P. apply P. exact Hc.
Qed.
