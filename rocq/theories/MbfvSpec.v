(** Specification vocabulary for the multiparty protocols: the key of a group, and who runs what. *)
From Verif Require Import Outcome BasicSpec PolySpec NttModel RnsModel RnsSpec RqModel RqSpec ParamsModel BfvSpec PlainModel CipherModel SchemeSpec CipherSpec KeysModel KeysSpec MbfvModel.

(** The secret key of a group: the sum of the keys of its members, coefficient by coefficient. *)
Definition sum_sks (par : params) (sks : list secret_key) : secret_key :=
  mkSk par (fold_right (zipWith Z.add) (repeat 0 (pa_degree par)) (map sk_coeffs sks)).
(** A group decrypts modulo the product of the fewest moduli that are 60 bits longer than t (or of all of them), whatever the size of t. *)
Definition group_decryptable (par : params) : Prop :=
  3 * pa_t par + pa_t par / 2 ^ 40 + 4 <= 2 * prod_list (firstn (plaintext_moduli_count (pa_moduli par) (pa_sizes par) (pa_t par)) (pa_moduli par)).
(** The sum of [n] errors of variance [v]: each is at most 2v. *)
Definition group_noise (par : params) (n : nat) : Z := Z.of_nat n * (2 * pa_variance par).

(** A member of a group, with the streams of its generator for: u and the errors of the elements in the order
    in which they are drawn. *)
Record member := mkMember { me_sk : secret_key; me_u : nat -> Z; me_e0 : nat -> nat -> Z; me_e1 : nat -> nat -> Z; me_e2 : nat -> nat -> Z; me_e3 : nat -> nat -> Z }.
Definition member_ok (par : params) (p : member) : Prop :=
  is_sk par (me_sk p) /\ words (me_u p) /\ (forall i, words (me_e0 p i)) /\ (forall i, words (me_e1 p i)) /\ (forall i, words (me_e2 p i)) /\ (forall i, words (me_e3 p i)).
(** The two rounds of the generation of a relinearization key. *)
Definition relin_protocol (ps : list member) (crp : list (poly Ntt)) : M ksk :=
  shares1 <- mapM (fun p => g <- gen_new (me_sk p) crp (me_u p) ;; gen_round1 g (me_e0 p) (me_e1 p)) ps ;;
  r1 <- r1_from_shares shares1 ;;
  shares2 <- mapM (fun p => g <- gen_new (me_sk p) crp (me_u p) ;; gen_round2 g r1 (me_e2 p) (me_e3 p)) ps ;;
  relin_from_shares shares2.
(** The noise of the key of [n] members: S * V + N * V^2 + 2V for V = 2vn and a group key of 1-norm [S]. *)
Definition relin_protocol_noise (par : params) (S : Z) (n : nat) : Z :=
  let V := group_noise par n in S * V + Z.of_nat (pa_degree par) * (V * V) + 2 * V.
(** The generation of a public key. *)
Definition pk_protocol (ps : list (secret_key * (nat -> Z))) (crp : poly Ntt) : M public_key :=
  shares <- mapM (fun p => pk_share_new (fst p) crp (snd p)) ps ;; pk_from_shares shares.
(** Decryption by a group. *)
Definition dec_protocol (ps : list (secret_key * (nat -> Z))) (ct : ciphertext) : M plaintext :=
  shares <- mapM (fun p => dec_share_new (fst p) ct (snd p)) ps ;; dec_from_shares shares.
(** The switch of a ciphertext from the key of a group to that of another; the second key of a pair is the share of the
    new key. *)
Definition sks_protocol (ps : list (secret_key * secret_key * (nat -> Z))) (ct : ciphertext) : M ciphertext :=
  shares <- mapM (fun p => sks_new (fst (fst p)) (snd (fst p)) ct (snd p)) ps ;; sks_from_shares shares.
(** The switch of a ciphertext from the key of a group to a public key. *)
Definition pksw_protocol (ps : list (secret_key * ((nat -> Z) * (nat -> Z) * (nat -> Z)))) (pk : public_key) (ct : ciphertext) : M ciphertext :=
  shares <- mapM (fun p => pksw_new (fst p) pk ct (fst (fst (snd p))) (snd (fst (snd p))) (snd (snd p))) ps ;; pksw_from_shares shares.
(** Its noise: B + N * V * Bp + V + T * V, for a key of 1-norm [T] and a public key of noise [Bp] at the level of the ciphertext. *)
Definition pksw_noise (par : params) (T : Z) (n : nat) (B Bp : Z) : Z :=
  let V := group_noise par n in B + Z.of_nat (pa_degree par) * V * Bp + V + T * V.
