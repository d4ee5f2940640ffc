(** Properties C30 and C31: BFV parameters (fhe/src/bfv/parameters.rs).

    [isp] is the primality test, [cands] the random candidates of the search for roots of unity; [is_builder] only
    says that the fields have their Rust types; a parameter set is any value returned by [build]. *)
From Verif Require Import Outcome BasicSpec PolySpec ZqModel NttModel RnsSpec RqModel RqSpec ParamsModel BfvSpec PrimeCert ExampleParams ParamsPropLemmas.
From Coq Require Import Znumtheory Permutation.

(** Correct oracles and a parameter set exist. *)
Example C30_oracles : oracles isp_bfv cands_bfv /\ complete_draws cands_bfv.
Proof. exact (conj oracles_bfv cands_bfv_complete). Qed.
Example C30_params : exists par, is_params isp_bfv cands_bfv par /\ pa_moduli par = [1048433; 1048273] /\ pa_t par = 17 /\ pa_degree par = 8%nat /\ pa_ntt par <> None.
Proof. exact params_exist. Qed.

(** C30: what a built parameter set satisfies. *)
Theorem C30_built : forall isp cands, oracles isp cands -> forall id b par, is_builder b -> build isp cands id b = Val par ->
  (exists k, 3 <= k <= 16 /\ b_degree b = 2 ^ k) /\ Z.of_nat (pa_degree par) = b_degree b /\
  (1 <= b_variance b <= 32 /\ pa_variance par = b_variance b) /\ (2 <= b_plaintext b /\ pa_t par = b_plaintext b) /\
  pa_moduli par <> [] /\ moduli_accepted (b_degree b) (b_plaintext b) (pa_moduli par) /\
  (b_sizes b = [] -> pa_moduli par = b_moduli b) /\
  (b_sizes b <> [] -> Forall2 (fun s q => 10 <= s <= 62 /\ 2 ^ (s - 1) <= q < 2 ^ s) (b_sizes b) (pa_moduli par)) /\
  max_level par = (length (pa_moduli par) - 1)%nat /\
  (forall l, (l <= max_level par)%nat -> exists c, par_context par l = Val c /\ level_of_context par c = Val l /\
     context_new isp cands (level_moduli (pa_moduli par) l) (pa_degree par) = Val c) /\
  (forall l, (max_level par < l)%nat -> par_context par l = Err (InvalidLevel (Z.of_nat l) 0 (Z.of_nat (max_level par)))).
Proof. exact built_all. Qed.
Print Assumptions C30_built.
(** C30: the data of each level: delta is -1/t modulo Q, the extended basis has room for a product. *)
Theorem C30_levels : forall isp cands, oracles isp cands -> forall par, is_params isp cands par -> forall l, (l <= max_level par)%nat ->
  let q := prod_list (level_moduli (pa_moduli par) l) in
  exists lv, context_level_at par l = Val lv /\ lv_level lv = l /\ par_context par l = Val (lv_ctx lv) /\
    cp_cipher (lv_cp lv) = lv_ctx lv /\ c_moduli (cp_plain (lv_cp lv)) = firstn (plaintext_moduli_count (pa_moduli par) (pa_sizes par) (pa_t par)) (pa_moduli par) /\
    is_context isp cands (cp_plain (lv_cp lv)) /\
    cp_q_mod_t (lv_cp lv) = q mod pa_t par /\ cp_threshold (lv_cp lv) = (pa_t par + 1) / 2 /\
    (exists d, 0 <= d < q /\ (d * pa_t par + 1) mod q = 0 /\ p_ctx (cp_delta (lv_cp lv)) = lv_ctx lv /\ represents (cp_delta (lv_cp lv)) (d :: repeat 0 (pa_degree par - 1))) /\
    mp_from (lv_mul lv) = lv_ctx lv /\ is_context isp cands (mp_to (lv_mul lv)) /\
    (exists ext, c_moduli (mp_to (lv_mul lv)) = level_moduli (pa_moduli par) l ++ ext /\ q * 2 ^ 60 <= 2 ^ (62 * Z.of_nat (length ext)) /\
       Forall (fun p => ntt_prime (Z.of_nat (pa_degree par)) p /\ 2 ^ 61 <= p) ext /\ NoDup (pa_moduli par ++ ext)).
Proof. exact level_data_all. Qed.
Print Assumptions C30_levels.
(** C30: plaintexts are scaled to the fewest moduli that exceed t by 60 bits, or to all of them. *)
Theorem C30_plaintext_basis : forall moduli t, moduli <> [] -> exists k, plaintext_moduli_count moduli (map nbits moduli) t = k /\ (1 <= k <= length moduli)%nat /\
  (forall j, (0 < j < k)%nat -> sum_of (map nbits (firstn j moduli)) < nbits t + 60) /\ (nbits t + 60 <= sum_of (map nbits (firstn k moduli)) \/ k = length moduli).
Proof. exact plain_basis_all. Qed.
Print Assumptions C30_plaintext_basis.
(** C30: building never panics, and an error tells the truth about the configuration. *)
Theorem C30_no_panic : forall isp cands, oracles isp cands -> complete_draws cands -> forall id b, is_builder b ->
  (exists par, build isp cands id b = Val par) \/ (exists e, build isp cands id b = Err e /\ builder_rejected b e).
Proof. exact build_total_all. Qed.
Print Assumptions C30_no_panic.
(** C30: every valid configuration with explicit moduli is accepted when enough 62-bit primes exist. *)
Theorem C30_accepts : forall isp cands, oracles isp cands -> complete_draws cands -> forall id n t v moduli,
  (exists k, 3 <= k <= 16 /\ n = 2 ^ k) -> 1 <= v <= 32 -> 2 <= t -> ~ 2 ^ 62 <= t < 2 ^ 64 -> moduli <> [] -> moduli_accepted n t moduli ->
  (exists l, length l = S (length moduli) /\ NoDup l /\ Forall (fun q => ntt_prime n q /\ 2 ^ 61 <= q /\ ~ In q moduli) l) ->
  exists par, build isp cands id (mkBuilder n t v moduli []) = Val par.
Proof. exact accepts_all. Qed.
Print Assumptions C30_accepts.
Example C30_ex :
  build isp_bfv cands_bfv 1 (mkBuilder 12 17 10 [97; 193] []) = Err (ParInvalidDegree 12) /\
  build isp_bfv cands_bfv 1 (mkBuilder 8 17 33 [97; 193] []) = Err (ParInvalidVariance 33) /\
  build isp_bfv cands_bfv 1 (mkBuilder 8 17 10 [97; 193] [20]) = Err ParConflicting /\
  build isp_bfv cands_bfv 1 (mkBuilder 8 17 10 [] []) = Err ParMissing /\
  build isp_bfv cands_bfv 1 (mkBuilder 8 1 10 [97; 193] []) = Err ParInvalidPlaintextModulus /\
  build isp_bfv cands_bfv 1 (mkBuilder 8 17 10 [] [20; 63]) = Err (ParInvalidModulusSize 1 63) /\
  build isp_bfv cands_bfv 1 (mkBuilder 8 17 10 [97; 97] []) = Err ParDuplicateModuli /\
  build isp_bfv cands_bfv 1 (mkBuilder 8 17 10 [97; 101] []) = Err (ParCiphertextNotNttFriendly 1 101 8) /\
  build isp_bfv cands_bfv 1 (mkBuilder 8 97 10 [97] []) = Err ParPlaintextTooLarge /\
  build isp_bfv cands_bfv 1 (mkBuilder 8 97 10 [97; 193] []) = Err (ParPlaintextNotCoprime 97 97 0 97).
Proof. repeat split; vm_compute; reflexivity. Qed.

(** C31: the slot map is a permutation of the NTT positions; slot [i] sits at the position of the root of exponent 3^i, respectively -3^(i - N/2). *)
Theorem C31_slots : forall k, (2 <= k < 61)%nat -> exists m, index_map (2 ^ Z.of_nat k) = Val m /\ length m = (2 ^ k)%nat /\ Permutation m (seq 0 (2 ^ k)) /\
  forall i, (i < 2 ^ k)%nat -> (nth i m O < 2 ^ k)%nat /\ 2 * bitrev k (Z.of_nat (nth i m O)) + 1 = slot_exponent (2 ^ k) i.
Proof. exact slots_all. Qed.
Print Assumptions C31_slots.
(** C31: the two rows together meet every odd exponent exactly once. *)
Theorem C31_rows : forall k, (2 <= k < 61)%nat -> forall e, 0 <= e < 2 * 2 ^ Z.of_nat k -> Z.odd e = true ->
  exists! i, (i < 2 ^ k)%nat /\ slot_exponent (2 ^ k) i = e.
Proof. exact roots_of_slots_all. Qed.
Print Assumptions C31_rows.
(** C31: for a built parameter set, slot [i] of a plaintext is its value at that root of unity. *)
Theorem C31_values : forall isp cands, oracles isp cands -> forall par, is_params isp cands par ->
  length (pa_index par) = pa_degree par /\ Permutation (pa_index par) (seq 0 (pa_degree par)) /\
  forall op, pa_ntt par = Some op -> exists psi, 0 <= psi < pa_t par /\ psi ^ Z.of_nat (pa_degree par) mod pa_t par = pa_t par - 1 /\
    forall a, length a = pa_degree par -> canonical (pa_t par) a -> exists b, ntt_forward op a = Val b /\ length b = pa_degree par /\
      forall i, (i < pa_degree par)%nat -> nth (nth i (pa_index par) O) b 0 = eval a (psi ^ slot_exponent (pa_degree par) i) mod pa_t par.
Proof. exact slot_values_all. Qed.
Print Assumptions C31_values.
Example C31_ex : index_map 8 = Val [0; 4; 1; 5; 7; 3; 6; 2]%nat /\ map (slot_exponent 8) (seq 0 8) = [1; 3; 9; 11; 15; 13; 7; 5].
Proof. vm_compute. split; reflexivity. Qed.
