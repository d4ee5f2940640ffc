(** Closed oracles and parameter sets for the examples about BFV. *)
From Verif Require Import Outcome BasicSpec NumTheory PrimeCert ZqModel NttModel PolySpec RnsSpec RqModel RqSpec ParamsModel BfvSpec.
From Coq Require Import Znumtheory.

Definition verdicts : list (Z * verdict) := [
  (3, IsPrime [(2, 0, 2)]);
  (4, Composite 2);
  (5, IsPrime [(2, 1, 2)]);
  (6, Composite 2);
  (7, IsPrime [(2, 0, 3); (3, 0, 2)]);
  (8, Composite 2);
  (9, Composite 3);
  (10, Composite 2);
  (11, IsPrime [(2, 0, 2); (5, 0, 2)]);
  (12, Composite 2);
  (13, IsPrime [(2, 1, 2)]);
  (14, Composite 2);
  (15, Composite 3);
  (16, Composite 2);
  (17, IsPrime [(2, 3, 3)]);
  (18, Composite 2);
  (19, IsPrime [(2, 0, 2); (3, 1, 2)]);
  (20, Composite 2);
  (21, Composite 3);
  (22, Composite 2);
  (23, IsPrime [(2, 0, 5); (11, 0, 2)]);
  (24, Composite 2);
  (25, Composite 5);
  (26, Composite 2);
  (27, Composite 3);
  (28, Composite 2);
  (29, IsPrime [(2, 1, 2); (7, 0, 2)]);
  (30, Composite 2);
  (31, IsPrime [(2, 0, 3); (3, 0, 3)]);
  (32, Composite 2);
  (33, Composite 3);
  (34, Composite 2);
  (35, Composite 5);
  (36, Composite 2);
  (37, IsPrime [(2, 1, 2); (3, 1, 2)]);
  (38, Composite 2);
  (39, Composite 3);
  (40, Composite 2);
  (41, IsPrime [(2, 2, 3)]);
  (42, Composite 2);
  (43, IsPrime [(2, 0, 2); (3, 0, 3); (7, 0, 2)]);
  (44, Composite 2);
  (45, Composite 3);
  (46, Composite 2);
  (47, IsPrime [(2, 0, 5); (23, 0, 2)]);
  (48, Composite 2);
  (49, Composite 7);
  (50, Composite 2);
  (51, Composite 3);
  (52, Composite 2);
  (53, IsPrime [(2, 1, 2); (13, 0, 2)]);
  (54, Composite 2);
  (55, Composite 5);
  (56, Composite 2);
  (57, Composite 3);
  (58, Composite 2);
  (59, IsPrime [(2, 0, 2); (29, 0, 2)]);
  (60, Composite 2);
  (61, IsPrime [(2, 1, 2); (3, 0, 2)]);
  (62, Composite 2);
  (63, Composite 3);
  (64, Composite 2);
  (65, Composite 5);
  (66, Composite 2);
  (67, IsPrime [(2, 0, 2); (3, 0, 2); (11, 0, 2)]);
  (68, Composite 2);
  (69, Composite 3);
  (70, Composite 2);
  (71, IsPrime [(2, 0, 7); (5, 0, 2)]);
  (72, Composite 2);
  (73, IsPrime [(2, 2, 5); (3, 1, 2)]);
  (74, Composite 2);
  (75, Composite 3);
  (76, Composite 2);
  (77, Composite 7);
  (78, Composite 2);
  (79, IsPrime [(2, 0, 3); (3, 0, 2); (13, 0, 2)]);
  (80, Composite 2);
  (81, Composite 3);
  (82, Composite 2);
  (83, IsPrime [(2, 0, 2); (41, 0, 2)]);
  (84, Composite 2);
  (85, Composite 5);
  (86, Composite 2);
  (87, Composite 3);
  (88, Composite 2);
  (89, IsPrime [(2, 2, 3); (11, 0, 2)]);
  (90, Composite 2);
  (91, Composite 7);
  (92, Composite 2);
  (93, Composite 3);
  (94, Composite 2);
  (95, Composite 5);
  (96, Composite 2);
  (97, IsPrime [(2, 4, 5)]);
  (98, Composite 2);
  (99, Composite 3);
  (100, Composite 2);
  (101, IsPrime [(2, 1, 2); (5, 1, 2)]);
  (102, Composite 2);
  (103, IsPrime [(2, 0, 3); (3, 0, 2); (17, 0, 2)]);
  (104, Composite 2);
  (105, Composite 3);
  (106, Composite 2);
  (107, IsPrime [(2, 0, 2); (53, 0, 2)]);
  (108, Composite 2);
  (109, IsPrime [(2, 1, 2); (3, 2, 3)]);
  (110, Composite 2);
  (111, Composite 3);
  (112, Composite 2);
  (113, IsPrime [(2, 3, 3)]);
  (114, Composite 2);
  (115, Composite 5);
  (116, Composite 2);
  (117, Composite 3);
  (118, Composite 2);
  (119, Composite 7);
  (120, Composite 2);
  (121, Composite 11);
  (122, Composite 2);
  (123, Composite 3);
  (124, Composite 2);
  (125, Composite 5);
  (126, Composite 2);
  (127, IsPrime [(2, 0, 3); (3, 1, 3)]);
  (128, Composite 2);
  (129, Composite 3);
  (130, Composite 2);
  (131, IsPrime [(2, 0, 2); (5, 0, 2); (13, 0, 2)]);
  (132, Composite 2);
  (133, Composite 7);
  (134, Composite 2);
  (135, Composite 3);
  (136, Composite 2);
  (137, IsPrime [(2, 2, 3); (17, 0, 2)]);
  (138, Composite 2);
  (139, IsPrime [(2, 0, 2); (3, 0, 2); (23, 0, 2)]);
  (145, Composite 5);
  (161, Composite 7);
  (177, Composite 3);
  (193, IsPrime [(2, 5, 5)]);
  (209, Composite 11);
  (225, Composite 3);
  (241, IsPrime [(2, 3, 7)]);
  (257, IsPrime [(2, 7, 3)]);
  (273, Composite 3);
  (289, Composite 17);
  (305, Composite 5);
  (321, Composite 3);
  (337, IsPrime [(2, 3, 5); (3, 0, 2)]);
  (353, IsPrime [(2, 4, 3)]);
  (369, Composite 3);
  (385, Composite 5);
  (401, IsPrime [(2, 3, 3); (5, 1, 2)]);
  (417, Composite 3);
  (4611686018427387889, Composite 11);
  (4611686018427387873, Composite 3);
  (4611686018427387857, Composite 17);
  (4611686018427387841, Composite 64129007);
  (4611686018427387825, Composite 3);
  (4611686018427387809, Composite 7);
  (4611686018427387793, Composite 7019);
  (4611686018427387777, Composite 3);
  (4611686018427387761, IsPrime [(2, 3, 3); (5, 0, 2); (7, 0, 2); (1901, 0, 2); (8069, 0, 2)]);
  (4611686018427387745, Composite 5);
  (4611686018427387729, Composite 3);
  (4611686018427387713, Composite 11);
  (4611686018427387697, Composite 7);
  (4611686018427387681, Composite 3);
  (4611686018427387665, Composite 5);
  (4611686018427387649, Composite 76099);
  (4611686018427387633, Composite 3);
  (108669961, IsPrime [(2, 2, 17); (3, 1, 5); (5, 0, 7); (7, 0, 5); (29, 0, 2)]);
  (4611686018427387617, IsPrime [(2, 4, 3); (108669961, 0, 2)]);
  (4611686018427387601, Composite 13);
  (4611686018427387585, Composite 3);
  (4611686018427387569, Composite 23);
  (4611686018427387553, Composite 19);
  (4611686018427387537, Composite 3);
  (4611686018427387521, Composite 29);
  (4611686018427387505, Composite 5);
  (4611686018427387489, Composite 3);
  (4611686018427387473, Composite 7);
  (4611686018427387457, Composite 37);
  (4611686018427387441, Composite 3);
  (4611686018427387425, Composite 5);
  (1413221, IsPrime [(2, 1, 2); (5, 0, 2); (19, 0, 2); (3719, 0, 2)]);
  (70661051, IsPrime [(2, 0, 2); (5, 1, 2); (1413221, 0, 2)]);
  (16110719629, IsPrime [(2, 1, 2); (3, 0, 2); (19, 0, 2); (70661051, 0, 2)]);
  (101884190933797, IsPrime [(2, 1, 2); (3, 0, 2); (17, 0, 2); (31, 0, 2); (16110719629, 0, 2)]);
  (4611686018427387409, IsPrime [(2, 3, 7); (3, 0, 2); (23, 0, 2); (41, 0, 2); (101884190933797, 0, 2)]);
  (4611686018427387393, Composite 3);
  (4611686018427387377, Composite 603553);
  (4611686018427387361, Composite 7);
  (4611686018427387345, Composite 3);
  (1877171, IsPrime [(2, 0, 2); (5, 0, 7); (29, 0, 2); (6473, 0, 2)]);
  (4611686018427387329, IsPrime [(2, 5, 3); (11, 0, 2); (13, 0, 2); (1877171, 0, 2)]);
  (1048561, Composite 911);
  (1048545, Composite 3);
  (1048529, Composite 61);
  (1048513, Composite 31);
  (1048497, Composite 3);
  (1048481, Composite 7);
  (1048465, Composite 5);
  (1048449, Composite 3);
  (1048433, IsPrime [(2, 3, 3); (7, 0, 2); (11, 0, 2)]);
  (1048417, Composite 821);
  (1048401, Composite 3);
  (1048385, Composite 5);
  (1048369, Composite 7);
  (1048353, Composite 3);
  (1048337, Composite 853);
  (1048321, Composite 29);
  (1048305, Composite 3);
  (1048289, Composite 11);
  (21839, IsPrime [(2, 0, 11); (61, 0, 2); (179, 0, 2)]);
  (1048273, IsPrime [(2, 3, 5); (3, 0, 11); (21839, 0, 2)]);
  (1048257, Composite 3);
  (1048241, Composite 47);
  (1048225, Composite 5);
  (1048209, Composite 3);
  (1048193, IsPrime [(2, 6, 3); (19, 0, 2)])].
Definition table_ex : list (Z * bool) := Eval vm_compute in map (fun e => (fst e, verdict_bool (snd e))) verdicts.
Definition isp_bfv : Z -> bool := table_oracle table_ex.
Lemma isp_bfv_ok : prime_oracle isp_bfv.
Proof.
  unfold isp_bfv. replace table_ex with (map (fun e => (fst e, verdict_bool (snd e))) verdicts) by (vm_compute; reflexivity).
  apply table_oracle_spec. vm_compute. reflexivity.
Qed.

(** Candidate roots: one non-residue for the primes of the table, every residue for the others. *)
Definition roots_ex : list (Z * Z) := [
(3, 2); (5, 2); (7, 3); (11, 2); (13, 2); (17, 3); (19, 2); (23, 5); (29, 2); (31, 3); (37, 2); (41, 3); (43, 2); (47, 5); (53, 2); (59, 2); (61, 2); (67, 2); (71, 7); (73, 5); (79, 3); (83, 2); (89, 3); (97, 5); (101, 2); (103, 3); (107, 2); (109, 2); (113, 3); (127, 3); (131, 2); (137, 3); (139, 2); (193, 5); (241, 7); (257, 3); (337, 5); (353, 3); (401, 3); (21839, 11); (1048193, 3); (1048273, 5); (1048433, 3); (1413221, 2); (1877171, 2); (70661051, 2); (108669961, 17); (16110719629, 2); (101884190933797, 2); (4611686018427387329, 3); (4611686018427387409, 7); (4611686018427387617, 3); (4611686018427387761, 3)].
Definition cands_bfv (p : Z) : list Z :=
  match find (fun e => fst e =? p) roots_ex with Some (_, a) => [a] | None => residues p end.
Lemma roots_check : forallb (fun e : Z * Z => (1 <? fst e) && (0 <=? snd e) && (snd e <? fst e) && (powm (fst e) (snd e) ((fst e - 1) / 2) =? fst e - 1)) roots_ex = true.
Proof. vm_compute. reflexivity. Qed.
Lemma cands_bfv_cases p : (exists a, cands_bfv p = [a] /\ 0 <= a < p /\ a ^ ((p - 1) / 2) mod p = p - 1) \/ cands_bfv p = residues p.
Proof.
  unfold cands_bfv. destruct (find _ _) as [(q & a)|] eqn:E; [left|right; reflexivity]. apply find_some in E. destruct E as (Hin & Eq). cbn [fst] in Eq. apply Z.eqb_eq in Eq. subst q.
  pose proof roots_check as H. rewrite forallb_forall in H. specialize (H _ Hin). cbn [fst snd] in H. rewrite !andb_true_iff, !Z.ltb_lt, Z.leb_le, Z.eqb_eq in H. destruct H as (((H1 & H2) & H3) & H4).
  rewrite powm_spec in H4 by (apply Z.div_pos; lia). exists a. split; [reflexivity|]. split; [lia|exact H4].
Qed.
Lemma cands_bfv_canonical p : canonical p (cands_bfv p).
Proof.
  unfold canonical. destruct (cands_bfv_cases p) as [(a & -> & H & _)| -> ].
  - constructor; [exact H|constructor].
  - apply Forall_forall. intros x Hx. destruct (Z_le_dec 1 p) as [Hp|Hp]; [apply residues_in in Hx; lia|]. unfold residues in Hx. replace (Z.to_nat (p - 1)) with O in Hx by lia. destruct Hx.
Qed.
Lemma cands_bfv_complete : complete_draws cands_bfv.
Proof.
  intros p Hp H2. destruct (cands_bfv_cases p) as [(a & -> & H & E)| -> ].
  - exists a. split; [left; reflexivity|exact E].
  - destruct (nonresidue_exists p Hp ltac:(lia)) as (a & Ha & Ea). exists a. split; [|exact Ea]. apply residues_in; lia.
Qed.
Lemma oracles_bfv : oracles isp_bfv cands_bfv.
Proof. split; [exact isp_bfv_ok|exact cands_bfv_canonical]. Qed.

(** Degree 8, two 20-bit moduli, plaintext modulus 17. *)
Definition builder_ex : builder := mkBuilder 8 17 10 [1048433; 1048273] [].
Definition par_ex : M params := Eval vm_compute in build isp_bfv cands_bfv 1 builder_ex.
Lemma par_ex_built : build isp_bfv cands_bfv 1 builder_ex = par_ex.
Proof. vm_compute. reflexivity. Qed.
