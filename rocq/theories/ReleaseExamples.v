(** Concrete values for PropsRelease.v. *)
From Verif Require Import Outcome BasicSpec ZqModel ZqProofs NttModel PolySpec NttProofs RqModel ParamsModel ParamsPropLemmas BfvSpec PlainModel SchemeSpec ExampleParams PlainPropLemmas RangeSpec.
From Verif Require Import ReleaseModel ReleaseSpec ReleaseProofs ReleasePropLemmas.

(** p = 1153: products of any two words are right; a sum of 2p is not reduced to 0, which the debug build refuses to compute. *)
Lemma scalars_ex : exists m, modulus_new 1153 = Val m /\ zq_mul m 5 1152 = Val 1148 /\ rel_mul m 5 1152 = 1148 /\
  zq_mul m (W64 - 1) (W64 - 1) = Panic /\ rel_mul m (W64 - 1) (W64 - 1) = ((W64 - 1) * (W64 - 1)) mod 1153 /\
  zq_pow m 5 (W64 - 1) = Panic /\ rel_pow m 5 (W64 - 1) = 5 ^ ((W64 - 1) mod 1152) mod 1153 /\
  zq_add m 1153 1152 = Panic /\ rel_add m 1153 1152 = 1152 /\ zq_add m 1153 1153 = Panic /\ rel_add m 1153 1153 = 1153.
Proof. eexists. split; [vm_compute; reflexivity|]. vm_compute. repeat split; reflexivity. Qed.
(** Lengths 17 and 33: in constant time the last element is added to element 16 of the other operand, in variable time to element 32. *)
Lemma lengths_ex : exists m, modulus_new 1153 = Val m /\
  nth 16 (rel_add_vec m (repeat 0 17) (map Z.of_nat (seq 0 33))) 0 = 16 /\ nth 16 (rel_add_vec_vt m (repeat 0 17) (map Z.of_nat (seq 0 33))) 0 = 32 /\
  rel_add_vec m [1; 2; 3] [1] = [2; 2; 3] /\ add_vec m [1; 2; 3] [1] = Panic /\ rel_add m (W64 - 1) 5 = 4 /\ rel_sub m 0 1154 = W64 - 1154 /\ rel_neg m (W64 - 1) = 1.
Proof. eexists. split; [vm_compute; reflexivity|]. vm_compute. repeat split; reflexivity. Qed.
(** Without a non-residue among the candidates the debug build panics and the release build says that there is no operator. *)
Lemma new_ex : exists m op, modulus_new 1153 = Val m /\ ntt_new (Z.eqb 1153) [0; 1; 5] m 8 = Val (Some op) /\ rel_ntt_new (Z.eqb 1153) [0; 1; 5] m 8 = Val (Some op) /\
  ntt_new (Z.eqb 1153) [0; 1] m 8 = Panic /\ rel_ntt_new (Z.eqb 1153) [0; 1] m 8 = Val None /\
  ntt_new (Z.eqb 1153) [5] m 12 = Panic /\ rel_ntt_new (Z.eqb 1153) [5] m 12 = Panic /\ ntt_new (Z.eqb 1153) [5] m 128 = Val None /\ rel_ntt_new (Z.eqb 1153) [5] m 128 = Val None.
Proof. eexists. eexists. split; [vm_compute; reflexivity|]. split; [vm_compute; reflexivity|]. vm_compute. repeat split; reflexivity. Qed.

(** Words of all sizes are transformed right; the inverse transform is right for 2p in any place, and wrong for 2p + 1 in an odd one. *)
Definition big_in : list Z := [W64 - 1; 1; 0; W63; 4612; 5; 0; 2307].
Definition even_in : list Z := [2307; 0; 0; 2306; 0; 0; 0; 0].
Definition odd_in : list Z := [0; 2307; 0; 0; 0; 0; 0; 0].
Lemma transforms_ex : exists m op, modulus_new 1153 = Val m /\ ntt_new (Z.eqb 1153) [0; 1; 5] m 8 = Val (Some op) /\
  Forall is_u64 big_in /\ ntt_forward op big_in = Panic /\
  (exists r, rel_forward op big_in = Val r /\ Val (map (fun x => x mod 1153) r) = ntt_forward op (map (fun x => x mod 1153) big_in)) /\
  small_pairs 1153 even_in /\ no_wrap 1153 even_in /\ ntt_backward op even_in = Panic /\ rel_backward op even_in = ntt_backward op [1; 0; 0; 0; 0; 0; 0; 0] /\
  small_pairs 1153 odd_in /\ ~ no_wrap 1153 odd_in /\ ntt_backward op odd_in = Panic /\
  rel_backward op odd_in = ntt_backward op [W63 mod 1153; (2307 - W63) mod 1153; 0; 0; 0; 0; 0; 0] /\ rel_backward op odd_in <> ntt_backward op [0; 1; 0; 0; 0; 0; 0; 0].
Proof.
  eexists. eexists. split; [vm_compute; reflexivity|]. split; [vm_compute; reflexivity|].
  split. { unfold big_in, is_u64. repeat (constructor; [split; [lia|reflexivity]|]). constructor. }
  split; [vm_compute; reflexivity|]. split; [eexists; split; vm_compute; reflexivity|].
  split; [cbn [small_pairs even_in]; lia|]. split; [cbn [no_wrap even_in]; assert (2 ^ 12 < W64) by reflexivity; lia|]. split; [vm_compute; reflexivity|]. split; [vm_compute; reflexivity|].
  split; [cbn [small_pairs odd_in]; lia|]. split; [cbn [no_wrap odd_in]; lia|]. split; [vm_compute; reflexivity|]. split; [vm_compute; reflexivity|]. vm_compute. discriminate.
Qed.

(** t = 17, degree 8: the slots 0, 0, 35, 0, ... are refused by the debug build; the release build encodes 9, 0, 9, 0, ... instead of 0, 0, 1, 0, ... . *)
Definition wrong_in : list Z := [0; 0; 35].
Definition wrong_order : list Z := [0; 35; 0; 0; 0; 0; 0; 0].
Definition wrong_slots : list Z := [9; 0; 9; 0; 0; 0; 0; 0].
Definition wrong_run (pe : M params) : bool * bool * bool * list nat :=
  match pe with
  | Val par =>
      let l := fun (a b : M (list Z)) => match a, b with Val a, Val b => forallb (fun xy => fst xy =? snd xy) (combine a b) && Nat.eqb (length a) (length b) | _, _ => false end in
      (l (rel_slot_coefficients false wrong_in par) (slot_coefficients false wrong_slots par) && l (rel_slot_coefficients true wrong_in par) (slot_coefficients true wrong_slots par),
       l (rel_slot_coefficients false wrong_in par) (slot_coefficients false [0; 0; 1] par) || l (rel_slot_coefficients true wrong_in par) (slot_coefficients true [0; 0; 1] par),
       match slot_coefficients false wrong_in par, slot_coefficients true wrong_in par with Panic, Panic => true | _, _ => false end, pa_index par)
  | _ => (false, false, false, [])
  end.
Lemma wrong_run_eq : wrong_run par_ex = (true, false, true, [0; 4; 1; 5; 7; 3; 6; 2]%nat).
Proof. vm_compute. reflexivity. Qed.
Lemma lists_eq (a b : list Z) : forallb (fun xy => fst xy =? snd xy) (combine a b) && Nat.eqb (length a) (length b) = true <-> a = b.
Proof.
  revert b. induction a as [|x a IH]; intros [|y b]; cbn [combine forallb length fst snd Nat.eqb andb]; try (split; [discriminate|discriminate]); [split; reflexivity|].
  rewrite <- andb_assoc, andb_true_iff, IH, Z.eqb_eq. split; [intros (-> & ->); reflexivity|]. intros E. injection E. auto.
Qed.
Lemma slots_ex : exists par, is_params isp_bfv cands_bfv par /\ pa_ntt par <> None /\ pa_t par = 17 /\ pa_degree par = 8%nat /\
  in_order par wrong_in wrong_order /\ small_pairs 17 wrong_order /\ ~ no_wrap 17 wrong_order /\
  (forall i, (i < 8)%nat -> nth i wrong_slots 0 = nth (nth i (pa_index par) O) (shifted 17 wrong_order) 0 mod 17) /\
  forall vt, slot_coefficients vt wrong_in par = Panic /\ rel_slot_coefficients vt wrong_in par = slot_coefficients vt wrong_slots par /\
    rel_slot_coefficients vt wrong_in par <> slot_coefficients vt [0; 0; 1] par.
Proof.
  destruct params_exist_all as (par & E & Hp & Em & Et & Ed & _ & En). exists par. split; [exact Hp|]. split; [exact En|]. split; [exact Et|]. split; [exact Ed|].
  pose proof wrong_run_eq as R. rewrite E in R. unfold wrong_run in R. cbv zeta in R. injection R as R1 R2 R3 Ei.
  split.
  { split; [rewrite Ed; reflexivity|]. rewrite Ei, Ed. intros i Hi. do 8 (destruct i as [|i]; [reflexivity|]). lia. }
  split; [cbn [small_pairs wrong_order]; lia|]. split; [cbn [no_wrap wrong_order]; lia|].
  split. { rewrite Ei. intros i Hi. do 8 (destruct i as [|i]; [vm_compute; reflexivity|]). lia. }
  apply andb_true_iff in R1. destruct R1 as (A1 & A2). apply orb_false_iff in R2. destruct R2 as (B1 & B2).
  assert (H : forall x y z : M (list Z), 
    match x, y with Val a, Val b => forallb (fun xy => fst xy =? snd xy) (combine a b) && Nat.eqb (length a) (length b) | _, _ => false end = true ->
    match x, z with Val a, Val b => forallb (fun xy => fst xy =? snd xy) (combine a b) && Nat.eqb (length a) (length b) | _, _ => false end = false -> x = y /\ x <> z).
  { intros [a|?|] [b|?|] z HA HB; try discriminate. apply lists_eq in HA. subst b. split; [reflexivity|]. intros <-. rewrite (proj2 (lists_eq a a) eq_refl) in HB. discriminate. }
  intros [|].
  - split; [destruct (slot_coefficients false wrong_in par), (slot_coefficients true wrong_in par); try discriminate; reflexivity|]. apply H; assumption.
  - split; [destruct (slot_coefficients false wrong_in par); try discriminate; reflexivity|]. apply H; assumption.
Qed.
