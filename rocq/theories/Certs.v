(** Primality certificates of the ten field moduli (generated, checked below). *)
From Verif Require Import Base Primality Field Params.

Definition certs : list pcert := [
  {| pc_n := 5; pc_a := 2;
     pc_qs := [(2, 2)] |};
  {| pc_n := 3; pc_a := 2;
     pc_qs := [] |};
  {| pc_n := 2221; pc_a := 2;
     pc_qs := [(5, 1); (2, 2); (3, 1)] |};
  {| pc_n := 13327; pc_a := 2;
     pc_qs := [(2221, 1)] |};
  {| pc_n := 173171039; pc_a := 2;
     pc_qs := [(13327, 1)] |};
  {| pc_n := 109; pc_a := 3;
     pc_qs := [(3, 3)] |};
  {| pc_n := 17; pc_a := 3;
     pc_qs := [(2, 4)] |};
  {| pc_n := 4562087; pc_a := 5;
     pc_qs := [(109, 1); (17, 1); (2, 1)] |};
  {| pc_n := 19; pc_a := 2;
     pc_qs := [(3, 2)] |};
  {| pc_n := 1853641; pc_a := 17;
     pc_qs := [(19, 1); (3, 2); (2, 3)] |};
  {| pc_n := 13427688667394608761327070753331941386769; pc_a := 2;
     pc_qs := [(173171039, 1); (4562087, 1); (1853641, 1)] |};
  {| pc_n := 21888242871839275222246405745257275088696311157297823662689037894645226208583; pc_a := 2;
     pc_qs := [(13427688667394608761327070753331941386769, 1)] |};
  {| pc_n := 661; pc_a := 2;
     pc_qs := [(5, 1); (2, 2); (3, 1)] |};
  {| pc_n := 7; pc_a := 3;
     pc_qs := [(2, 1)] |};
  {| pc_n := 12048837557; pc_a := 2;
     pc_qs := [(661, 1); (7, 2); (2, 2)] |};
  {| pc_n := 5156902474397; pc_a := 2;
     pc_qs := [(12048837557, 1)] |};
  {| pc_n := 1670836401704629; pc_a := 2;
     pc_qs := [(5156902474397, 1)] |};
  {| pc_n := 3691; pc_a := 2;
     pc_qs := [(3, 2); (5, 1); (2, 1)] |};
  {| pc_n := 11; pc_a := 2;
     pc_qs := [(5, 1)] |};
  {| pc_n := 405928799; pc_a := 2;
     pc_qs := [(3691, 1); (11, 1)] |};
  {| pc_n := 237073; pc_a := 15;
     pc_qs := [(2, 4); (11, 1); (3, 1)] |};
  {| pc_n := 5501; pc_a := 2;
     pc_qs := [(5, 3)] |};
  {| pc_n := 11003; pc_a := 2;
     pc_qs := [(5501, 1)] |};
  {| pc_n := 21888242871839275222246405745257275088548364400416034343698204186575808495617; pc_a := 5;
     pc_qs := [(1670836401704629, 1); (405928799, 1); (2, 28); (237073, 1); (11003, 1)] |};
  {| pc_n := 43; pc_a := 3;
     pc_qs := [(3, 1); (2, 1)] |};
  {| pc_n := 947; pc_a := 2;
     pc_qs := [(43, 1)] |};
  {| pc_n := 7577; pc_a := 2;
     pc_qs := [(947, 1)] |};
  {| pc_n := 9272813673901; pc_a := 2;
     pc_qs := [(7577, 1); (5, 2); (7, 1); (2, 2)] |};
  {| pc_n := 1928745244171409; pc_a := 2;
     pc_qs := [(9272813673901, 1)] |};
  {| pc_n := 7259797099061183477; pc_a := 2;
     pc_qs := [(1928745244171409, 1)] |};
  {| pc_n := 2584487767265781317813; pc_a := 2;
     pc_qs := [(7259797099061183477, 1)] |};
  {| pc_n := 97; pc_a := 5;
     pc_qs := [(2, 5)] |};
  {| pc_n := 609743; pc_a := 5;
     pc_qs := [(97, 1); (7, 1); (2, 1)] |};
  {| pc_n := 52437899; pc_a := 2;
     pc_qs := [(609743, 1)] |};
  {| pc_n := 13; pc_a := 2;
     pc_qs := [(2, 2)] |};
  {| pc_n := 47737; pc_a := 3;
     pc_qs := [(3, 3); (13, 1)] |};
  {| pc_n := 859267; pc_a := 2;
     pc_qs := [(47737, 1)] |};
  {| pc_n := 10177; pc_a := 7;
     pc_qs := [(2, 6); (3, 1)] |};
  {| pc_n := 23; pc_a := 2;
     pc_qs := [(11, 1)] |};
  {| pc_n := 47; pc_a := 2;
     pc_qs := [(23, 1)] |};
  {| pc_n := 4002409555221667393417789825735904156556882819939007885332058136124031650490837864442687629129015664037894272559787; pc_a := 2;
     pc_qs := [(2584487767265781317813, 1); (52437899, 1); (859267, 1); (10177, 1); (47, 1); (23, 1); (11, 1); (3, 2); (2, 1)] |};
  {| pc_n := 73; pc_a := 5;
     pc_qs := [(2, 3)] |};
  {| pc_n := 1607; pc_a := 2;
     pc_qs := [(73, 1)] |};
  {| pc_n := 906349; pc_a := 2;
     pc_qs := [(1607, 1)] |};
  {| pc_n := 29; pc_a := 2;
     pc_qs := [(7, 1)] |};
  {| pc_n := 18329; pc_a := 3;
     pc_qs := [(29, 1); (2, 3)] |};
  {| pc_n := 2529403; pc_a := 2;
     pc_qs := [(18329, 1)] |};
  {| pc_n := 2508409; pc_a := 2;
     pc_qs := [(3, 4); (7, 2)] |};
  {| pc_n := 52435875175126190479447740508185965837690552500527637822603658699938581184513; pc_a := 5;
     pc_qs := [(906349, 2); (2, 32); (52437899, 1); (2529403, 1); (2508409, 1)] |};
  {| pc_n := 419; pc_a := 2;
     pc_qs := [(11, 1); (2, 1)] |};
  {| pc_n := 20113; pc_a := 2;
     pc_qs := [(419, 1)] |};
  {| pc_n := 1206781; pc_a := 2;
     pc_qs := [(20113, 1)] |};
  {| pc_n := 7240687; pc_a := 2;
     pc_qs := [(1206781, 1)] |};
  {| pc_n := 101; pc_a := 2;
     pc_qs := [(5, 2)] |};
  {| pc_n := 96557; pc_a := 2;
     pc_qs := [(101, 1); (2, 2)] |};
  {| pc_n := 41201; pc_a := 3;
     pc_qs := [(5, 2); (2, 4)] |};
  {| pc_n := 4423; pc_a := 3;
     pc_qs := [(11, 1); (3, 1); (2, 1)] |};
  {| pc_n := 255515944373312847190720520512484175977; pc_a := 2;
     pc_qs := [(7240687, 1); (96557, 1); (41201, 1); (4423, 1)] |};
  {| pc_n := 205115282021455665897114700593932402728804164701536103180137503955397371; pc_a := 2;
     pc_qs := [(255515944373312847190720520512484175977, 1)] |};
  {| pc_n := 115792089237316195423570985008687907853269984665640564039457584007908834671663; pc_a := 2;
     pc_qs := [(205115282021455665897114700593932402728804164701536103180137503955397371, 1)] |};
  {| pc_n := 120233; pc_a := 3;
     pc_qs := [(19, 1); (2, 3); (7, 1)] |};
  {| pc_n := 4051; pc_a := 3;
     pc_qs := [(3, 4)] |};
  {| pc_n := 59; pc_a := 2;
     pc_qs := [(29, 1)] |};
  {| pc_n := 174723607534414371449; pc_a := 2;
     pc_qs := [(120233, 1); (4051, 1); (59, 1)] |};
  {| pc_n := 2861; pc_a := 2;
     pc_qs := [(11, 1); (5, 1)] |};
  {| pc_n := 85831; pc_a := 2;
     pc_qs := [(2861, 1)] |};
  {| pc_n := 16699; pc_a := 3;
     pc_qs := [(11, 2); (3, 1)] |};
  {| pc_n := 107361793816595537; pc_a := 2;
     pc_qs := [(85831, 1); (16699, 1)] |};
  {| pc_n := 631; pc_a := 2;
     pc_qs := [(3, 2); (5, 1)] |};
  {| pc_n := 115792089237316195423570985008687907852837564279074904382605163141518161494337; pc_a := 2;
     pc_qs := [(174723607534414371449, 1); (107361793816595537, 1); (631, 1)] |};
  {| pc_n := 197; pc_a := 2;
     pc_qs := [(7, 2)] |};
  {| pc_n := 173; pc_a := 2;
     pc_qs := [(43, 1)] |};
  {| pc_n := 53; pc_a := 2;
     pc_qs := [(13, 1)] |};
  {| pc_n := 66417393611; pc_a := 2;
     pc_qs := [(197, 1); (173, 1); (53, 1)] |};
  {| pc_n := 11290956913871; pc_a := 2;
     pc_qs := [(66417393611, 1)] |};
  {| pc_n := 107; pc_a := 2;
     pc_qs := [(53, 1)] |};
  {| pc_n := 204061199; pc_a := 3;
     pc_qs := [(107, 1); (23, 1); (11, 1)] |};
  {| pc_n := 34282281433; pc_a := 2;
     pc_qs := [(204061199, 1)] |};
  {| pc_n := 774023187263532362759620327192479577272145303; pc_a := 2;
     pc_qs := [(11290956913871, 1); (34282281433, 1)] |};
  {| pc_n := 835945042244614951780389953367877943453916927241; pc_a := 2;
     pc_qs := [(774023187263532362759620327192479577272145303, 1)] |};
  {| pc_n := 115792089210356248762697446949407573530086143415290314195533631308867097853951; pc_a := 2;
     pc_qs := [(835945042244614951780389953367877943453916927241, 1)] |};
  {| pc_n := 337; pc_a := 10;
     pc_qs := [(2, 4); (3, 1)] |};
  {| pc_n := 104471; pc_a := 2;
     pc_qs := [(337, 1)] |};
  {| pc_n := 3969899; pc_a := 2;
     pc_qs := [(104471, 1)] |};
  {| pc_n := 1002328039319; pc_a := 2;
     pc_qs := [(3969899, 1)] |};
  {| pc_n := 311245691; pc_a := 2;
     pc_qs := [(29, 2); (17, 1); (7, 1)] |};
  {| pc_n := 622491383; pc_a := 2;
     pc_qs := [(311245691, 1)] |};
  {| pc_n := 229; pc_a := 2;
     pc_qs := [(19, 1)] |};
  {| pc_n := 9350987; pc_a := 2;
     pc_qs := [(229, 1); (17, 1)] |};
  {| pc_n := 187019741; pc_a := 2;
     pc_qs := [(9350987, 1)] |};
  {| pc_n := 37; pc_a := 2;
     pc_qs := [(3, 2)] |};
  {| pc_n := 9547; pc_a := 2;
     pc_qs := [(37, 1); (3, 1)] |};
  {| pc_n := 38189; pc_a := 2;
     pc_qs := [(9547, 1)] |};
  {| pc_n := 727; pc_a := 2;
     pc_qs := [(11, 2)] |};
  {| pc_n := 17449; pc_a := 2;
     pc_qs := [(727, 1)] |};
  {| pc_n := 131; pc_a := 2;
     pc_qs := [(13, 1)] |};
  {| pc_n := 3407; pc_a := 2;
     pc_qs := [(131, 1)] |};
  {| pc_n := 115792089210356248762697446949407573529996955224135760342422259061068512044369; pc_a := 2;
     pc_qs := [(1002328039319, 1); (622491383, 1); (187019741, 1); (38189, 1); (17449, 1); (3407, 1)] |};
  {| pc_n := 6054733; pc_a := 5;
     pc_qs := [(109, 1); (3, 2); (2, 2)] |};
  {| pc_n := 71; pc_a := 7;
     pc_qs := [(5, 1); (2, 1)] |};
  {| pc_n := 217687; pc_a := 2;
     pc_qs := [(71, 1); (7, 1)] |};
  {| pc_n := 4316333015754114955367; pc_a := 2;
     pc_qs := [(6054733, 1); (217687, 1)] |};
  {| pc_n := 12007; pc_a := 11;
     pc_qs := [(23, 1); (3, 2)] |};
  {| pc_n := 810603088133; pc_a := 2;
     pc_qs := [(12007, 1); (19, 1); (17, 1)] |};
  {| pc_n := 50688121627187232211; pc_a := 2;
     pc_qs := [(810603088133, 1)] |};
  {| pc_n := 304128729763123393267; pc_a := 2;
     pc_qs := [(50688121627187232211, 1)] |};
  {| pc_n := 1603586751316224864702635402299961204282724970641143878783725480989888338723129643; pc_a := 2;
     pc_qs := [(4316333015754114955367, 1); (304128729763123393267, 1)] |};
  {| pc_n := 1461985442088199434216480729118540833655826472878315075486478169293801719414121837587283877; pc_a := 2;
     pc_qs := [(1603586751316224864702635402299961204282724970641143878783725480989888338723129643, 1)] |};
  {| pc_n := 102211695604070082112571065507755096754575920209623522239390234855490679834276115250716018318118556227909439196474813090886893187366913; pc_a := 2;
     pc_qs := [(1461985442088199434216480729118540833655826472878315075486478169293801719414121837587283877, 1)] |};
  {| pc_n := 5953; pc_a := 7;
     pc_qs := [(2, 6); (3, 1)] |};
  {| pc_n := 295587211837579; pc_a := 5;
     pc_qs := [(5953, 1); (73, 1); (19, 1); (3, 1)] |};
  {| pc_n := 5580686559493491521; pc_a := 2;
     pc_qs := [(295587211837579, 1)] |};
  {| pc_n := 2141; pc_a := 2;
     pc_qs := [(107, 1)] |};
  {| pc_n := 145589; pc_a := 2;
     pc_qs := [(2141, 1)] |};
  {| pc_n := 1899062917; pc_a := 2;
     pc_qs := [(145589, 1)] |};
  {| pc_n := 5522474962637; pc_a := 2;
     pc_qs := [(1899062917, 1)] |};
  {| pc_n := 44179799701097; pc_a := 2;
     pc_qs := [(5522474962637, 1)] |};
  {| pc_n := 4481; pc_a := 3;
     pc_qs := [(2, 7)] |};
  {| pc_n := 41; pc_a := 3;
     pc_qs := [(2, 3)] |};
  {| pc_n := 83; pc_a := 2;
     pc_qs := [(41, 1)] |};
  {| pc_n := 499; pc_a := 2;
     pc_qs := [(83, 1)] |};
  {| pc_n := 1997; pc_a := 2;
     pc_qs := [(499, 1)] |};
  {| pc_n := 349; pc_a := 2;
     pc_qs := [(29, 1)] |};
  {| pc_n := 293; pc_a := 2;
     pc_qs := [(73, 1)] |};
  {| pc_n := 67; pc_a := 2;
     pc_qs := [(11, 1)] |};
  {| pc_n := 102211695604070082112571065507755096754575920209623522239390234855480569854275933742834077002685857629445612735086326265689167708028929; pc_a := 7;
     pc_qs := [(5580686559493491521, 1); (44179799701097, 1); (2, 32); (4481, 1); (1997, 1); (349, 1); (293, 1); (67, 1); (29, 1); (3, 1)] |}
].
Lemma certs_ok : pcerts_ok [2] certs = true.
Proof. vm_cast_no_check (eq_refl true). Qed.

Lemma cert_prime n : existsb (fun c => pc_n c =? n) certs = true -> prime n.
Proof.
  intros E. apply existsb_exists in E. destruct E as (c & Hc & En). apply Z.eqb_eq in En. subst n.
  assert (P : Forall (fun c => prime (pc_n c)) certs).
  { apply (pcerts_ok_spec certs [2]); [|exact certs_ok].
    constructor; [exact prime_2|constructor]. }
  rewrite Forall_forall in P. apply P. exact Hc.
Qed.

(** Every modulus of the crate is prime. *)
Theorem all_moduli_prime : Forall (fun c => prime (modulus c)) all_fields.
Proof.
  apply Forall_forall. intros c Hc. apply cert_prime.
  assert (A : forallb (fun c => existsb (fun d => pc_n d =? modulus c) certs) all_fields = true)
    by (vm_compute; reflexivity).
  rewrite forallb_forall in A. apply A. exact Hc.
Qed.
