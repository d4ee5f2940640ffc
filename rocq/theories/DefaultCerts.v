(** Primality certificates: the moduli of the default parameters, primes of 62 bits that are 1 modulo 2^15, and for each
    number of bits a prime that is usable as plaintext modulus. *)
From Verif Require Import Outcome BasicSpec PrimeCert.
From Coq Require Import Znumtheory.

Definition default_certs : list (Z * verdict) := [
  (132120577, IsPrime [(2, 20, 5)]);
  (18014398492704769, IsPrime [(2, 23, 19); (3, 1, 2)]);
  (82241, IsPrime [(2, 5, 3); (5, 0, 3)]);
  (493447, IsPrime [(82241, 0, 2)]);
  (68719403009, IsPrime [(493447, 0, 2)]);
  (68719230977, IsPrime [(2, 13, 3); (593, 0, 2)]);
  (137438822401, IsPrime [(2, 16, 7); (3, 0, 2)]);
  (3780781, IsPrime [(2, 1, 2); (3, 0, 2); (5, 0, 2); (61, 0, 2)]);
  (8796092858369, IsPrime [(3780781, 0, 2)]);
  (8796092792833, IsPrime [(2, 14, 5); (4813, 0, 2)]);
  (17592186028033, IsPrime [(2, 13, 5); (3, 1, 2); (7, 0, 2); (11, 0, 2)]);
  (17592185438209, IsPrime [(2, 13, 11); (3, 1, 5); (53, 0, 2)]);
  (17592184717313, IsPrime [(2, 13, 3); (17, 0, 2); (41, 0, 2)]);
  (281474976546817, IsPrime [(2, 14, 5); (7759, 0, 2)]);
  (22605091, IsPrime [(181, 1, 2)]);
  (281474976317441, IsPrime [(22605091, 0, 2)]);
  (281474975662081, IsPrime [(2, 19, 7); (29, 0, 2)]);
  (157109, IsPrime [(2, 1, 2); (7, 0, 2); (31, 0, 2)]);
  (1145324611, IsPrime [(157109, 0, 2)]);
  (562949952798721, IsPrime [(1145324611, 0, 2)]);
  (562949952700417, IsPrime [(2, 15, 5); (25073, 0, 2)]);
  (562949952274433, IsPrime [(2, 14, 3); (29, 0, 2); (443, 0, 2)]);
  (122713351, IsPrime [(3, 0, 2); (5, 1, 2); (199, 0, 2)]);
  (562949951979521, IsPrime [(122713351, 0, 2)]);
  (554189327, IsPrime [(37159, 0, 2)]);
  (562949951881217, IsPrime [(554189327, 0, 2)]);
  (562949951619073, IsPrime [(2, 14, 5); (17, 0, 2); (73, 0, 2)]);
  (178481, IsPrime [(2, 3, 3); (5, 0, 3); (23, 0, 2)]);
  (4611686018427322369, IsPrime [(2, 15, 7); (178481, 0, 2)]);
  (1034731, IsPrime [(11497, 0, 2)]);
  (10272809369, IsPrime [(1034731, 0, 2)]);
  (5629499534213, IsPrime [(10272809369, 0, 2)]);
  (4611686018427289601, IsPrime [(5629499534213, 0, 2)]);
  (8337528931, IsPrime [(5, 0, 5); (149, 0, 2); (563, 0, 2)]);
  (4611686018425815041, IsPrime [(8337528931, 0, 2)]);
  (4611686018424733697, IsPrime [(2, 14, 3); (113, 0, 2); (22511, 0, 2)]);
  (4611686018423881729, IsPrime [(2, 14, 7); (3253, 0, 2); (5011, 0, 2)]);
  (7818749353067, IsPrime [(2, 0, 2); (313, 0, 2); (6703, 0, 2)]);
  (4611686018423390209, IsPrime [(7818749353067, 0, 2)]);
  (4611686018423062529, IsPrime [(2, 16, 3); (223, 0, 2); (523, 0, 2)]);
  (4611686018422669313, IsPrime [(2, 18, 3); (4583, 0, 2)]);
  (4611686018422112257, IsPrime [(2, 14, 5); (37, 0, 2); (43, 0, 2); (103, 0, 2)]);
  (4611686018421915649, IsPrime [(2, 14, 7); (3, 1, 3); (19, 0, 2); (1229, 0, 2)]);
  (12289, IsPrime [(2, 11, 11)]);
  (18433, IsPrime [(2, 10, 5)]);
  (40961, IsPrime [(2, 12, 3)]);
  (65537, IsPrime [(2, 15, 3)]);
  (163841, IsPrime [(2, 14, 3)]);
  (270337, IsPrime [(2, 12, 5)]);
  (786433, IsPrime [(2, 17, 5)]);
  (1179649, IsPrime [(2, 16, 19)]);
  (2752513, IsPrime [(2, 16, 5)]);
  (7340033, IsPrime [(2, 19, 3)]);
  (13631489, IsPrime [(2, 19, 3)]);
  (23068673, IsPrime [(2, 20, 3)]);
  (36175873, IsPrime [(2, 18, 5)]);
  (104857601, IsPrime [(2, 21, 3)]);
  (167772161, IsPrime [(2, 24, 3)]);
  (469762049, IsPrime [(2, 25, 3)]);
  (754974721, IsPrime [(2, 23, 11)]);
  (2013265921, IsPrime [(2, 26, 11)]);
  (3221225473, IsPrime [(2, 29, 5)]);
  (7918845953, IsPrime [(2, 26, 3)]);
  (12348030977, IsPrime [(2, 28, 3)]);
  (24159191041, IsPrime [(2, 28, 7)]);
  (52613349377, IsPrime [(2, 29, 3)]);
  (77309411329, IsPrime [(2, 32, 7)]);
  (206158430209, IsPrime [(2, 35, 11)]);
  (313532612609, IsPrime [(2, 31, 3)]);
  (850403524609, IsPrime [(2, 32, 13)]);
  (2061584302081, IsPrime [(2, 36, 7)]);
  (2748779069441, IsPrime [(2, 38, 3)]);
  (6597069766657, IsPrime [(2, 40, 5)]);
  (17317308137473, IsPrime [(2, 37, 5)]);
  (29686813949953, IsPrime [(2, 39, 5)]);
  (39582418599937, IsPrime [(2, 41, 5)]);
  (79164837199873, IsPrime [(2, 42, 5)]);
  (263882790666241, IsPrime [(2, 43, 7)]);
  (474989023199233, IsPrime [(2, 43, 5)]);
  (1108307720798209, IsPrime [(2, 43, 11)]);
  (1337006139375617, IsPrime [(2, 45, 3)]);
  (4222124650659841, IsPrime [(2, 47, 11)]);
  (7881299347898369, IsPrime [(2, 49, 3)]);
  (12947848928690177, IsPrime [(2, 48, 3)]);
  (31525197391593473, IsPrime [(2, 51, 3)]);
  (38280596832649217, IsPrime [(2, 50, 3)]);
  (112589990684262401, IsPrime [(2, 51, 3)]);
  (180143985094819841, IsPrime [(2, 54, 3)]);
  (459367161991790593, IsPrime [(2, 52, 5)]);
  (882705526964617217, IsPrime [(2, 53, 3)]);
  (1945555039024054273, IsPrime [(2, 55, 5)]);
  (4179340454199820289, IsPrime [(2, 56, 3)])].
Definition extension_primes : list Z := [4611686018427322369; 4611686018427289601; 4611686018425815041; 4611686018424733697; 4611686018423881729; 4611686018423390209; 4611686018423062529; 4611686018422669313; 4611686018422112257; 4611686018421915649].
(** For 14 bits and more: the bits, a degree and a prime. *)
Definition plaintext_primes : list (Z * Z * Z) := [
  (14, 1024, 12289);
  (15, 1024, 18433);
  (16, 1024, 40961);
  (17, 1024, 65537);
  (18, 1024, 163841);
  (19, 1024, 270337);
  (20, 1024, 786433);
  (21, 1024, 1179649);
  (22, 1024, 2752513);
  (23, 1024, 7340033);
  (24, 1024, 13631489);
  (25, 1024, 23068673);
  (26, 1024, 36175873);
  (27, 2048, 104857601);
  (28, 2048, 167772161);
  (29, 2048, 469762049);
  (30, 2048, 754974721);
  (31, 2048, 2013265921);
  (32, 2048, 3221225473);
  (33, 2048, 7918845953);
  (34, 2048, 12348030977);
  (35, 2048, 24159191041);
  (36, 8192, 52613349377);
  (37, 8192, 77309411329);
  (38, 8192, 206158430209);
  (39, 8192, 313532612609);
  (40, 8192, 850403524609);
  (41, 8192, 2061584302081);
  (42, 4096, 2748779069441);
  (43, 4096, 6597069766657);
  (44, 4096, 17317308137473);
  (45, 4096, 29686813949953);
  (46, 4096, 39582418599937);
  (47, 4096, 79164837199873);
  (48, 4096, 263882790666241);
  (49, 4096, 474989023199233);
  (50, 4096, 1108307720798209);
  (51, 4096, 1337006139375617);
  (52, 4096, 4222124650659841);
  (53, 4096, 7881299347898369);
  (54, 4096, 12947848928690177);
  (55, 4096, 31525197391593473);
  (56, 4096, 38280596832649217);
  (57, 4096, 112589990684262401);
  (58, 4096, 180143985094819841);
  (59, 4096, 459367161991790593);
  (60, 4096, 882705526964617217);
  (61, 4096, 1945555039024054273);
  (62, 4096, 4179340454199820289)].
Lemma default_certs_ok : check_table [] default_certs = true.
Proof. vm_compute. reflexivity. Qed.
Lemma default_primes : Forall prime (map fst default_certs).
Proof.
  apply Forall_map. assert (H : Forall (fun e => verdict_bool (snd e) = true) default_certs) by (apply Forall_forall; apply (proj1 (forallb_forall _ _)); vm_compute; reflexivity).
  pose proof (check_table_spec default_certs [] (Forall_nil _) default_certs_ok) as C. rewrite Forall_forall in *. intros e He. apply (C e He), (H e He).
Qed.
