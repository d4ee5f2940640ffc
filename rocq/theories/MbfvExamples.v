(** Closed examples for the multiparty protocols. *)
From Verif Require Import Outcome BasicSpec PolySpec ZqModel NttModel CbdModel TranscodeModel RnsModel RnsSpec RqModel RqSpec ParamsModel BfvSpec ParamsProofs BuildProofs PrimeCert ExampleParams ParamsPropLemmas PlainModel CipherModel OpsModel SchemeSpec CipherSpec PlainPropLemmas CipherPropLemmas CipherExamples KeysModel KeysSpec KeyPropLemmas KeyExamples EvalSpec MbfvModel MbfvSpec MbfvPropLemmas.

Definition rows_ex (i : nat) (qs : list Z) : list (list Z) := map (fun q => map (fun k => (Z.of_nat (i * 8 + k) * 314159 + 271828) mod q) (seq 0 8)) qs.
Definition group_ex (sks : list secret_key) (i : nat) : list (secret_key * (nat -> Z)) := combine sks (map rngs_ex [i; i + 50]%nat).
Definition member_ex (sk : secret_key) (i : nat) : member := mkMember sk (rngs_ex i) (fun k => rngs_ex (i + k)) (fun k => rngs_ex (i + 10 + k)) (fun k => rngs_ex (i + 20 + k)) (fun k => rngs_ex (i + 30 + k)).

(** Two members make a public key, a message is encrypted with it, and: they decrypt it; they switch it to two other keys,
    whose owners decrypt it; they switch it to the public key of one other person, who decrypts it. *)
Definition mbfv_ex : M (list Z * list Z * list Z) :=
  par <- par_ex ;;
  sk1 <- sk_random par (rngs_ex 0) ;; sk2 <- sk_random par (rngs_ex 100) ;; sk3 <- sk_random par (rngs_ex 200) ;; sk4 <- sk_random par (rngs_ex 300) ;;
  crp <- crp_new par (rows_ex 0 (pa_moduli par)) ;;
  pk <- pk_protocol (group_ex [sk1; sk2] 7) crp ;;
  pt <- encode_u64 false [1; 2; 16] (mkEnc EncSimd 0) par ;;
  ct <- pk_encrypt pk pt (rngs_ex 11) (rngs_ex 12) (rngs_ex 13) ;;
  p1 <- dec_protocol (group_ex [sk1; sk2] 23) ct ;; d1 <- decode_u64 p1 (Some (mkEnc EncSimd 0)) ;;
  ct2 <- sks_protocol [(sk1, sk3, rngs_ex 31); (sk2, sk4, rngs_ex 32)] ct ;;
  p2 <- dec_protocol (group_ex [sk3; sk4] 43) ct2 ;; d2 <- decode_u64 p2 (Some (mkEnc EncSimd 0)) ;;
  pk3 <- pk_new expand_ex sk3 sd_ex (rngs_ex 51) ;;
  ct3 <- pksw_protocol [(sk1, (rngs_ex 52, rngs_ex 53, rngs_ex 54)); (sk2, (rngs_ex 55, rngs_ex 56, rngs_ex 57))] pk3 ct ;;
  p3 <- sk_decrypt sk3 ct3 ;; d3 <- decode_u64 p3 (Some (mkEnc EncSimd 0)) ;;
  Val (d1, d2, d3).
(** Two members make a relinearization key, with which a ciphertext of three parts is relinearized; they decrypt the result. *)
Definition group_relin_ex : M (list Z * Z) :=
  par <- par_ex ;;
  sk1 <- sk_random par (rngs_ex 0) ;; sk2 <- sk_random par (rngs_ex 100) ;;
  crps <- crp_new_vec par (fun i => rows_ex i (pa_moduli par)) ;;
  k <- relin_protocol [member_ex sk1 60; member_ex sk2 160] crps ;;
  let sk := sum_sks par [sk1; sk2] in
  p1 <- encode_u64 false [1; 2; 16] (mkEnc EncSimd 0) par ;;
  ct <- sk_encrypt expand_ex sk p1 sd_ex (rngs_ex 5) ;;
  c <- par_context par 0 ;; s <- sk_poly sk c ;;
  match ct_c ct with
  | [c0; c1] =>
      a <- poly_mul c1 s ;; a <- poly_mul a s ;; c0 <- poly_sub c0 a ;;
      m <- relinearizes k (mkCt par None [c0; c1; c1] 0) ;;
      p <- dec_protocol (group_ex [sk1; sk2] 23) m ;; d <- decode_u64 p (Some (mkEnc EncSimd 0)) ;;
      Val (d, len (ct_c m))
  | _ => Panic
  end.

(** A group of two members that meets the hypotheses of all the theorems, with three moduli. *)
Lemma mbfv_hypotheses_ex : exists par, is_params isp_bfv cands_bfv par /\ supported par /\ decryptable par /\ group_decryptable par /\ pa_t par < 2 ^ 200 /\ 2 * pa_t par <= level_modulus par 0 /\ (1 < length (pa_moduli par))%nat /\
  exists sk1 sk2, is_sk par sk1 /\ is_sk par sk2 /\ is_sk par (sum_sks par [sk1; sk2]) /\ member_ok par (member_ex sk1 0) /\ member_ok par (member_ex sk2 100) /\
  (exists (crp : poly Ntt) a, is_poly par 0 crp a) /\ (exists (crps : list (poly Ntt)) xs, length crps = length (pa_moduli par) /\ Forall2 (is_poly par 0) crps xs) /\
  let S := norm1 (sk_coeffs (sum_sks par [sk1; sk2])) in
  small_noise par 0 (pk_noise par S (dropped_noise S 2 (dropped (pa_moduli par) 0 0) (group_noise par 2)) + group_noise par 2) /\
  small_noise par 0 (2 * pa_variance par + switch_noise par 0 0 (relin_protocol_noise par S 2)) /\
  small_noise par 0 (pksw_noise par S 2 (2 * pa_variance par) (2 * pa_variance par)) /\ small_noise par 0 (2 * group_noise par 1).
Proof.
  destruct three_params as (par & Hp & Em & Et & Ed & Ev). exists par. split; [exact Hp|].
  split; [unfold supported; rewrite Em; vm_compute; split; [reflexivity|discriminate]|]. assert (Hdec : decryptable par) by (unfold decryptable, decryption_base; rewrite Em, Et; vm_compute; discriminate). split; [exact Hdec|]. split; [exact (decryptable_group_all _ _ par oracles_bfv Hp Hdec)|].
  split; [rewrite Et; vm_compute; reflexivity|]. split; [unfold level_modulus; rewrite Em, Et; vm_compute; discriminate|]. split; [rewrite Em; cbn [length]; lia|].
  set (s1 := [1; 0; -1; 0; 1; 1; 0; -1]). set (s2 := [0; 1; 1; -1; 0; 1; 0; 0]).
  assert (E12 : sk_coeffs (sum_sks par [mkSk par s1; mkSk par s2]) = [1; 1; 0; -1; 1; 2; 0; -1]) by (unfold sum_sks; cbn [sk_coeffs map fold_right]; rewrite Ed; vm_compute; reflexivity).
  assert (Hs : forall s, length s = 8%nat -> Forall (fun z => -2 <= z <= 2) s -> is_sk par (mkSk par s)) by (intros s L F; split; [reflexivity|]; split; [cbn [sk_coeffs]; congruence|]; cbn [sk_coeffs]; eapply Forall_impl; [|exact F]; cbv beta; intros z Hz; unfold is_i64; lia).
  exists (mkSk par s1), (mkSk par s2). assert (H1 : is_sk par (mkSk par s1)) by (apply Hs; [reflexivity|repeat (constructor; [lia|]); constructor]). assert (H2 : is_sk par (mkSk par s2)) by (apply Hs; [reflexivity|repeat (constructor; [lia|]); constructor]).
  split; [exact H1|]. split; [exact H2|]. split.
  { split; [reflexivity|]. rewrite E12. split; [rewrite Ed; reflexivity|]. repeat (constructor; [unfold is_i64; lia|]); constructor. }
  assert (Hm : forall sk i, is_sk par sk -> member_ok par (member_ex sk i)) by (intros sk i H; split; [exact H|]; repeat split; intros; apply rngs_ex_ok).
  split; [apply Hm; exact H1|]. split; [apply Hm; exact H2|].
  assert (Hr : Forall2 (fun q r => length r = pa_degree par /\ canonical q r) (pa_moduli par) (map (fun _ => repeat 0 8) (pa_moduli par))).
  { rewrite Em, Ed. cbn [map]. repeat (constructor; [split; [reflexivity|]; apply Forall_forall; intros z Hz; apply repeat_spec in Hz; subst z; lia|]). constructor. }
  destruct (crp_all isp_bfv cands_bfv par oracles_bfv Hp) as (C1 & C2). split.
  { destruct (C1 0%nat (map (fun _ => repeat 0 8) (pa_moduli par)) ltac:(lia)) as (p & x & _ & H). { unfold level_moduli. rewrite Nat.sub_0_r, firstn_all. exact Hr. } eauto. }
  split. { destruct (C2 (fun _ => map (fun _ => repeat 0 8) (pa_moduli par)) (fun _ => Hr)) as (ps & xs & _ & L & H). eauto. }
  cbv zeta. rewrite E12. unfold small_noise, pk_noise, pksw_noise, switch_noise, relin_protocol_noise, group_noise, level_modulus. rewrite Em, Et, Ed, Ev. repeat split; vm_compute; discriminate.
Qed.
