(** Closed examples for byte strings. *)
From Verif Require Import Outcome BasicSpec PolySpec ZqModel NttModel CbdModel TranscodeModel RnsModel RnsSpec RqModel RqSpec ParamsModel BfvSpec ParamsProofs BuildProofs PrimeCert ExampleParams ParamsPropLemmas PlainModel CipherModel OpsModel SchemeSpec CipherSpec CipherExamples KeysModel KeysSpec KeyExamples EvalSpec RgswSpec WireSpec WireExamples ReachSpec ReachExamples BytesModel BytesSpec.

(** The examples of the documentation of protobuf: 150 and 300, and the field 1 with the number 150. *)
Lemma format_ex : put_varint 150 = [150; 1] /\ put_varint 300 = [172; 2] /\ varint_of [172; 2] 300 /\ put_field (1, Varint 150) = [8; 150; 1] /\ put_field (2, Bytes [116; 101; 115; 116; 105; 110; 103]) = [18; 7; 116; 101; 115; 116; 105; 110; 103] /\
  get_varint [172; 130; 0] = Some (300, []) /\ get_varint [255; 255; 255; 255; 255; 255; 255; 255; 255; 2] = None /\ map zigzag [0; -1; 1; -2; 2147483647; -2147483648] = [0; 1; 2; 3; 4294967294; 4294967295].
Proof.
  do 2 (split; [reflexivity|]). split; [apply (varint_more 44 [2] 2); [lia|constructor; lia]|]. do 4 (split; [reflexivity|]). reflexivity.
Qed.
(** The parameters of the examples: degree 8, moduli 1048433 and 1048273, plaintext modulus 17, variance 10. *)
Definition params_string_ex : M (list Z) := par <- par_ex ;; Val (params_to_bytes par).
Lemma params_ex : params_string_ex = Val [8; 8; 18; 6; 241; 254; 63; 209; 253; 63; 24; 17; 32; 10] /\
  params_from_bytes isp_bfv cands_bfv 1 [8; 8; 18; 6; 241; 254; 63; 209; 253; 63; 24; 17; 32; 10] = par_ex /\ params_from_bytes isp_bfv cands_bfv 1 [8; 8; 16; 241; 254; 63; 16; 209; 253; 63; 32; 3; 32; 10; 24; 17] = par_ex.
Proof.
  assert (K : forall b, params_decode b = Some (mkPp 8 [1048433; 1048273] 10 (Some (PpU64 17))) -> params_from_bytes isp_bfv cands_bfv 1 b = par_ex).
  { intros b E. unfold params_from_bytes. rewrite E. cbn [decoded bind]. unfold params_from_proto. cbn [pp_degree pp_moduli pp_variance pp_plain bind]. exact par_ex_built. }
  split; [vm_compute; reflexivity|]. split; apply K; vm_compute; reflexivity.
Qed.
(** The lengths of the strings of a secret key, a public key, a ciphertext, a relinearization key, an evaluation key and an RGSW
    ciphertext, and whether what is read back has the same polynomials. *)
Definition strings_ex : M (list Z * list bool) :=
  par <- par_ex ;; sk <- sk_random par rng_ex ;;
  pk <- pk_new expand_ex sk sd_ex rng_ex ;;
  pt <- encode_u64 false [1; 2; 16] (mkEnc EncSimd 0) par ;;
  ct <- sk_encrypt expand_ex sk pt sd_ex rng_ex ;;
  k <- relin_new expand_ex derive_ex sk 0 0 sd_ex rngs_ex ;;
  b <- ekb_new sk ;; ek <- ek_build expand_ex derive_ex (enable_row_rotation b) (fun _ => sd_ex) (fun _ => rngs_ex) ;;
  r <- rgsw_encrypt expand_ex derive_ex sk pt sd_ex (rev sd_ex) rngs_ex rngs_ex ;;
  bs <- Val (sk_to_bytes sk) ;; bpk <- pk_to_bytes pk ;; bc <- ct_to_bytes ct ;; bk <- relin_to_bytes k ;; be <- ek_to_bytes ek ;; br <- rgsw_to_bytes r ;;
  sk' <- sk_from_bytes bs par ;; pk' <- pk_from_bytes expand_ex bpk par ;; ct' <- ct_from_bytes expand_ex bc par ;; k' <- relin_from_bytes expand_ex derive_ex bk par ;; ek' <- ek_from_bytes expand_ex derive_ex be par ;; r' <- rgsw_from_bytes expand_ex derive_ex br par ;;
  Val ([len bs; len bpk; len bc; len bk; len be; len br],
       [list_eqb (sk_coeffs sk') (sk_coeffs sk); same_coeffs (ct_c (pk_c pk')) (ct_c (pk_c pk)); same_coeffs (ct_c ct') (ct_c ct); same_coeffs (k_c0 k' ++ k_c1 k') (k_c0 k ++ k_c1 k);
        list_eqb (map fst (ek_gk ek')) (map fst (ek_gk ek)); same_coeffs (k_c0 (r_ksk1 r') ++ k_c1 (r_ksk1 r')) (k_c0 (r_ksk1 r) ++ k_c1 (r_ksk1 r))]).
Lemma strings_ex_eq : strings_ex = Val ([10; 84; 82; 133; 138; 266], [true; true; true; true; true; true]).
Proof. vm_compute. reflexivity. Qed.
(** Strings that are rejected: a key without a number, a length past the end, an end of group that was not opened, a field of the wrong type. *)
Definition rejects_ex : M (list bool) :=
  par <- par_ex ;; Val (map (fun b => match ct_from_bytes expand_ex b par with Err SerDecode => true | _ => false end) [[0]; [10; 5; 1]; [12]; [24]; [10]; [8; 1]; [27]; [27; 35; 28]])%Z.
Lemma rejects_ex_eq : rejects_ex = Val (repeat true 8).
Proof. vm_compute. reflexivity. Qed.
(** A ciphertext and a string. *)
Lemma bytes_hypotheses_ex : exists par, is_params isp_bfv cands_bfv par /\ serializable par /\ expands_well expand_ex /\ byte_string [10; 5; 1] /\ is_u64 300 /\
  exists c0 c1 c2 c2', Forall (reach isp_bfv cands_bfv expand_ex par) [c0; c1; c2; c2'] /\ map (fun c => length (ct_c c)) [c0; c1; c2; c2'] = [0; 1; 2; 2]%nat.
Proof.
  destruct reach_ex as (par & H1 & H2 & H3 & c0 & c1 & c2 & c2' & H4 & H5 & _). exists par. split; [exact H1|]. split; [exact H2|]. split; [exact H3|]. split; [repeat (constructor; [lia|]); constructor|]. split; [split; [discriminate|reflexivity]|]. exists c0, c1, c2, c2'. split; assumption.
Qed.
(** A secret key written in two pieces. *)
Definition pieces_ex : M (list Z) := par <- par_ex ;; let s := sk_to_bytes (mkSk par [1; -1; 0]) ++ sk_to_bytes (mkSk par [2; 0; 0; -3; 1]) in sk <- sk_from_bytes s par ;; Val (len s :: sk_coeffs sk).
Lemma pieces_ex_eq : pieces_ex = Val [12; 1; -1; 0; 2; 0; 0; -3; 1].
Proof. vm_compute. reflexivity. Qed.
