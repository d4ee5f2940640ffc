(** Closed examples for the traces, and the two operations whose traces depend on private data. *)
From Verif Require Import Outcome BasicSpec PolySpec ZqModel NttModel CbdModel TranscodeModel RnsModel RnsSpec RqModel RqSpec ParamsModel BfvSpec ParamsProofs BuildProofs PrimeCert ExampleParams ParamsPropLemmas PlainModel CipherModel OpsModel SchemeSpec CipherSpec PlainPropLemmas CipherPropLemmas CipherExamples KeysModel KeysSpec KeyExamples MbfvModel.
From Verif Require Import LeakModel LeakSpec LeakErase LeakProofs LeakAlike LeakKeys LeakSwitch LeakPropLemmas.

Definition digest (t : list event) : Z := fold_left (fun a x => (a * 1000003 + x) mod 2 ^ 61) (flat_map (fun e => concat (concat (v_data e))) t) 1.
Definition enc_ex : encoding := mkEnc EncPoly 0.
(** A rotation of the product of a ciphertext and a plaintext. *)
Definition rotate_run (pe : M params) : M bool :=
  par <- pe ;; sk <- sk_random par rng_ex ;;
  m0 <- encode_u64 false [3; 1] enc_ex par ;; m1 <- encode_u64 false [1] enc_ex par ;; m2 <- encode_u64 false [2] enc_ex par ;;
  ct <- sk_encrypt expand_ex sk m0 sd_ex rng_ex ;;
  a <- ct_mul_pt ct m1 ;; b <- ct_mul_pt ct m2 ;;
  g <- galois_new expand_ex derive_ex sk 3 0 0 sd_ex rngs_ex ;;
  u <- galois_apply g a ;; v <- galois_apply g b ;;
  Val (negb (digest (fst (t_galois_apply g a)) =? digest (fst (t_galois_apply g b)))).
Lemma rotate_run_true : rotate_run par_ex = Val true.
Proof. vm_compute. reflexivity. Qed.
(** A product of sums of a ciphertext and plaintexts. *)
Definition square_run (pe : M params) : M bool :=
  par <- pe ;; sk <- sk_random par rng_ex ;;
  m0 <- encode_u64 false [3; 1] enc_ex par ;; m1 <- encode_u64 false [1] enc_ex par ;; m2 <- encode_u64 false [2] enc_ex par ;;
  ct <- sk_encrypt expand_ex sk m0 sd_ex rng_ex ;;
  a <- ct_add_pt ct m1 ;; b <- ct_add_pt ct m2 ;;
  u <- ct_mul a a ;; v <- ct_mul a b ;;
  Val (negb (Nat.eqb (length (fst (t_ct_mul a a))) (length (fst (t_ct_mul a b))))).
Lemma square_run_true : square_run par_ex = Val true.
Proof. vm_compute. reflexivity. Qed.
Lemma par_ex_params par : par_ex = Val par -> is_params isp_bfv cands_bfv par.
Proof. intros E. exists 1, builder_ex. split; [exact builder_ex_ok|]. rewrite par_ex_built. exact E. Qed.

Lemma rotate_found pe : (forall par, pe = Val par -> is_params isp_bfv cands_bfv par) -> rotate_run pe = Val true -> exists par sk ct m1 m2 a b g u v, is_params isp_bfv cands_bfv par /\ is_sk par sk /\
  encode_u64 false [1] enc_ex par = Val m1 /\ encode_u64 false [2] enc_ex par = Val m2 /\ pt_alike m1 m2 /\
  ct_mul_pt ct m1 = Val a /\ ct_mul_pt ct m2 = Val b /\ ct_alike a b /\ fst (t_ct_mul_pt ct m1) = fst (t_ct_mul_pt ct m2) /\
  galois_new expand_ex derive_ex sk 3 0 0 sd_ex rngs_ex = Val g /\ galois_apply g a = Val u /\ galois_apply g b = Val v /\
  fst (t_galois_apply g a) <> fst (t_galois_apply g b).
Proof.
  intros Hpe H. unfold rotate_run in H. vinv. rename v into par, v0 into sk, v1 into m0, v2 into m1, v3 into m2, v4 into ct, v5 into a, v6 into b, v7 into g, v8 into u, v9 into w.
  pose proof (Hpe par E) as Hp. destruct (sk_random_all isp_bfv cands_bfv par oracles_bfv Hp rng_ex rng_ex_ok) as (sk' & Es & Hs & _). assert (sk' = sk) as -> by congruence.
  destruct (encode_all par enc_ex) as (_ & _ & X). destruct (X [1] [2] m1 m2 (or_introl E2) (or_introl E3)) as (_ & Hm). clear X.
  destruct (a_ct_mul_pt ct ct m1 m2 (ctal_refl ct) Hm a b) as (Ht & Hab); [rewrite e_ct_mul_pt; assumption..|].
  exists par, sk, ct, m1, m2, a, b, g, u, w. do 12 (split; [assumption|]). intros Heq. rewrite Heq, Z.eqb_refl in H. discriminate.
Qed.
Lemma square_found pe : (forall par, pe = Val par -> is_params isp_bfv cands_bfv par) -> square_run pe = Val true -> exists par sk ct m1 m2 a b u v, is_params isp_bfv cands_bfv par /\ is_sk par sk /\
  encode_u64 false [1] enc_ex par = Val m1 /\ encode_u64 false [2] enc_ex par = Val m2 /\ pt_alike m1 m2 /\
  ct_add_pt ct m1 = Val a /\ ct_add_pt ct m2 = Val b /\ ct_alike a b /\ fst (t_ct_add_pt ct m1) = fst (t_ct_add_pt ct m2) /\
  ct_mul a a = Val u /\ ct_mul a b = Val v /\ fst (t_ct_mul a a) <> fst (t_ct_mul a b).
Proof.
  intros Hpe H. unfold square_run in H. vinv. rename v into par, v0 into sk, v1 into m0, v2 into m1, v3 into m2, v4 into ct, v5 into a, v6 into b, v7 into u, v8 into w.
  pose proof (Hpe par E) as Hp. destruct (sk_random_all isp_bfv cands_bfv par oracles_bfv Hp rng_ex rng_ex_ok) as (sk' & Es & Hs & _). assert (sk' = sk) as -> by congruence.
  destruct (encode_all par enc_ex) as (_ & _ & X). destruct (X [1] [2] m1 m2 (or_introl E2) (or_introl E3)) as (_ & Hm). clear X.
  destruct (a_ct_add_pt ct ct m1 m2 (ctal_refl ct) Hm a b) as (Ht & Hab); [rewrite e_ct_add_pt; assumption..|].
  exists par, sk, ct, m1, m2, a, b, u, w. do 11 (split; [assumption|]). intros Heq. rewrite Heq, Nat.eqb_refl in H. discriminate.
Qed.
Theorem rotate_refuted : exists par sk ct m1 m2 a b g u v, is_params isp_bfv cands_bfv par /\ is_sk par sk /\
  encode_u64 false [1] enc_ex par = Val m1 /\ encode_u64 false [2] enc_ex par = Val m2 /\ pt_alike m1 m2 /\
  ct_mul_pt ct m1 = Val a /\ ct_mul_pt ct m2 = Val b /\ ct_alike a b /\ fst (t_ct_mul_pt ct m1) = fst (t_ct_mul_pt ct m2) /\
  galois_new expand_ex derive_ex sk 3 0 0 sd_ex rngs_ex = Val g /\ galois_apply g a = Val u /\ galois_apply g b = Val v /\
  fst (t_galois_apply g a) <> fst (t_galois_apply g b).
Proof. exact (rotate_found par_ex par_ex_params rotate_run_true). Qed.
Theorem square_refuted : exists par sk ct m1 m2 a b u v, is_params isp_bfv cands_bfv par /\ is_sk par sk /\
  encode_u64 false [1] enc_ex par = Val m1 /\ encode_u64 false [2] enc_ex par = Val m2 /\ pt_alike m1 m2 /\
  ct_add_pt ct m1 = Val a /\ ct_add_pt ct m2 = Val b /\ ct_alike a b /\ fst (t_ct_add_pt ct m1) = fst (t_ct_add_pt ct m2) /\
  ct_mul a a = Val u /\ ct_mul a b = Val v /\ fst (t_ct_mul a a) <> fst (t_ct_mul a b).
Proof. exact (square_found par_ex par_ex_params square_run_true). Qed.

(** The number of variable-time operations in a few runs: encoding in variable and in constant time; encryption; a sum of two new
    ciphertexts; of a ciphertext and a plaintext; the relinearization key, one operation for every modulus; a product; its relinearization. *)
Definition count_ex : M (list nat) :=
  par <- par_ex ;; sk <- sk_random par rng_ex ;;
  let n {A} (x : T A) : nat := length (fst x) in
  m <- encode_u64 false [3; 1] (mkEnc EncSimd 0) par ;;
  ct <- sk_encrypt expand_ex sk m sd_ex rng_ex ;;
  s <- ct_add_pt ct m ;;
  k <- relin_new expand_ex derive_ex sk 0 0 sd_ex rngs_ex ;;
  p <- ct_mul ct ct ;;
  Val [n (t_encode_u64 true [3; 1] (mkEnc EncSimd 0) par); n (t_encode_u64 false [3; 1] (mkEnc EncSimd 0) par); n (t_sk_encrypt expand_ex sk m sd_ex rng_ex);
       n (t_ct_add ct ct); n (t_ct_add ct s); n (t_ct_add_pt ct m); n (t_relin_new expand_ex derive_ex sk 0 0 sd_ex rngs_ex); n (t_ct_mul ct ct); n (t_relinearizes k p); n (t_sk_decrypt sk p)].
Lemma count_ex_counts : count_ex = Val [3; 0; 0; 2; 1; 0; 2; 13; 13; 0]%nat.
Proof. vm_compute. reflexivity. Qed.
