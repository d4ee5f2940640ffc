(** Closing lemmas for the property about byte strings. *)
From Verif Require Import Outcome BasicSpec OutcomeLemmas ZqModel ZqProofs NumTheory NttModel PolySpec PolyRing NttPure NttStages NttProofs CbdModel CbdSpec CbdProofs.
From Verif Require Import TranscodeModel PrimesModel RnsModel RnsSpec RnsProofs RqModel RqSpec RqCtx RqRows RqProofs RingRn RqOps RqIO RqPropLemmas ParamsModel BfvSpec ParamsProofs BuildProofs ParamsPropLemmas PlainModel CipherModel OpsModel SchemeSpec CipherSpec PlainProofs RnPoly CipherProofs EncryptProofs CipherPropLemmas LinearPropLemmas SerialPropLemmas MulPropLemmas CtDot DotPropLemmas KeysModel KeysSpec KeysProofs KeySwitchProofs KeyNoiseProofs KeyOpsProofs KeyPropLemmas EvalSpec EvalKeyProofs EvalOpsProofs EvalExpandProofs RgswPropLemmas WireSpec WireProofs WireKeysProofs WireOpsProofs WirePropLemmas ReachSpec ShapeProofs ReachProofs.
From Coq Require Import Znumtheory.
From Coq Require Import Permutation.
From Verif Require Import RgswSpec WireSpec WireProofs WirePropLemmas KeySerialPropLemmas ReachSpec ReachPropLemmas BytesModel BytesSpec BytesProofs BytesMessages BytesReadProofs BytesParams.

(** ** The format *)
Lemma put_varint_loop_of n v : 0 <= v < 2 * 128 ^ Z.of_nat n -> varint_of (put_varint_loop (S n) v) v /\ (length (put_varint_loop (S n) v) <= S n)%nat.
Proof.
  revert v. induction n as [|n IH]; intros v Hv.
  - cbn [put_varint_loop]. change (2 * 128 ^ Z.of_nat 0) with 2 in Hv. rewrite (proj2 (Z.ltb_lt v 128)) by lia. split; [apply varint_last; lia|cbn [length]; lia].
  - rewrite Nat2Z.inj_succ, Z.pow_succ_r in Hv by lia. set (m := S n) in *. cbn [put_varint_loop]. destruct (v <? 128) eqn:E; [apply Z.ltb_lt in E; split; [apply varint_last; lia|cbn [length]; lia]|apply Z.ltb_ge in E].
    destruct (IH (v / 128)) as (H1 & H2); [split; [apply Z.div_pos; lia|apply Z.div_lt_upper_bound; lia]|]. split; [|cbn [length]; lia]. pose proof (Z.div_mod v 128 ltac:(lia)) as Ed. rewrite (Z.add_comm (128 * (v / 128))) in Ed. pose proof (varint_more (v mod 128) _ _ (Z.mod_pos_bound v 128 ltac:(lia)) H1) as H. rewrite <- Ed in H. exact H.
Qed.
Lemma get_varint_loop_of l v : varint_of l v -> forall n r, (length l <= S n)%nat -> v < 2 * 128 ^ Z.of_nat n -> get_varint_loop (S n) (l ++ r) = Some (v, r).
Proof.
  intros H. induction H as [b Hb|b l v Hb H IH]; intros n r Hl Hv.
  - cbn [app get_varint_loop]. rewrite (proj2 (Z.ltb_lt b 128)) by lia. destruct n as [|n]; [|reflexivity]. change (2 * 128 ^ Z.of_nat 0) with 2 in Hv. rewrite (proj2 (Z.ltb_ge 1 b)) by lia. reflexivity.
  - cbn [length] in Hl. destruct n as [|n]; [destruct H; cbn [length] in Hl; lia|]. rewrite Nat2Z.inj_succ, Z.pow_succ_r in Hv by lia. set (m := S n) in *. cbn [app get_varint_loop]. rewrite (proj2 (Z.ltb_ge (b + 128) 128)) by lia. unfold m. rewrite IH; [f_equal; f_equal; lia|lia|lia].
Qed.
Theorem varint_all : forall v, is_u64 v ->
  (varint_of (put_varint v) v /\ (length (put_varint v) <= 10)%nat) /\ (forall l r, varint_of l v -> (length l <= 10)%nat -> get_varint (l ++ r) = Some (v, r)).
Proof.
  intros v Hv. split; [apply (put_varint_loop_of 9); exact Hv|]. intros l r H Hl. apply (get_varint_loop_of l v H 9); [exact Hl|]. exact (proj2 Hv).
Qed.
Lemma put_field_bytes f : 1 <= fst f -> payload_ok (snd f) -> byte_string (put_field f).
Proof.
  intros Ht Hp. unfold put_field. destruct (snd f) as [v|b|]; [| |constructor].
  - apply Forall_app. split; apply put_varint_bytes; [lia|apply Hp].
  - apply Forall_app. split; [apply put_varint_bytes; lia|]. apply Forall_app. split; [apply put_varint_bytes; lia|exact Hp].
Qed.
Lemma put_fields_bytes fs : Forall (fun f => 1 <= fst f /\ payload_ok (snd f)) fs -> byte_string (put_fields fs).
Proof. intros H. induction H as [|f fs (H1 & H2) _ IH]; [constructor|]. apply Forall_app. split; [apply put_field_bytes; assumption|exact IH]. Qed.
Lemma ok_int tag v : 1 <= tag -> is_u64 v -> Forall (fun f : Z * payload => 1 <= fst f /\ payload_ok (snd f)) (int_field tag v).
Proof. intros Ht Hv. unfold int_field. destruct (v =? 0); constructor; [split; assumption|constructor]. Qed.
Lemma ok_string tag b : 1 <= tag -> byte_string b -> Forall (fun f : Z * payload => 1 <= fst f /\ payload_ok (snd f)) (bytes_field tag b).
Proof. intros Ht Hb. unfold bytes_field. destruct b; constructor; [split; assumption|constructor]. Qed.
Lemma ok_packed tag vs : 1 <= tag -> Forall is_u64 vs -> Forall (fun f : Z * payload => 1 <= fst f /\ payload_ok (snd f)) (packed_field tag vs).
Proof.
  intros Ht Hv. unfold packed_field. assert (H : byte_string (flat_map put_varint vs)) by (induction Hv as [|v vs Hv _ IH]; [constructor|apply Forall_app; split; [apply put_varint_bytes, Hv|exact IH]]). destruct vs; constructor; [split; [exact Ht|exact H]|constructor].
Qed.
Lemma rq_encode_bytes m : rq_typed m -> wire_rq m -> byte_string (rq_encode m).
Proof.
  intros (H1 & H2) (H3 & _). apply put_fields_bytes. unfold rq_fields. apply Forall_app. split; [apply ok_int; [lia|apply Z.mod_pos_bound; lia]|]. apply Forall_app. split; [apply ok_int; [lia|apply u32_w64, H2]|]. apply Forall_app. split; [apply ok_string; [lia|exact H3]|]. apply ok_int; [lia|]. destruct (rq_vt m); unfold is_u64; lia.
Qed.

(** ** Polynomials *)
Theorem poly_bytes_all : forall isp cands, oracles isp cands -> forall c, is_context isp cands c -> Z.of_nat (c_degree c) < 2 ^ 32 -> Z.of_nat (length (c_moduli c)) < 2 ^ 29 ->
  forall R (p : poly R), p_ctx p = c -> well_formed p -> exists b, poly_to_bytes p = Val b /\ byte_string b /\
    (fits b -> (p_vt p = false -> poly_from_bytes R b c = Val p) /\ (forall R', R' <> R -> poly_from_bytes R' b c = Err RepresentationMismatch)).
Proof.
  intros isp cands Ho c Hc HN Hk R p Ep Hw. destruct (proto_all isp cands Ho c Hc HN Hk R p Ep Hw) as (m & E1 & E2 & E3 & E4). destruct (poly_bytes_back R p m E1) as (Eb & Hb). exists (rq_encode m). split; [exact Eb|]. split.
  - apply rq_encode_bytes; [exact (poly_proto_typed R p m E1)|]. destruct (ctx_of isp cands c Ho Hc) as (_ & Hok). destruct (wf_exists c Hok p Ep Hw) as (x & Lx & _ & E). rewrite E in E1. exact (proto_wire c Hok HN Hk R _ x m Lx E1).
  - intros Hl. specialize (Hb Hl). split; [intros Ev; rewrite Hb, <- Ev; exact E3|intros R' HR; rewrite Hb; apply E4, HR].
Qed.

(** ** Parameters *)
Theorem params_bytes_all : forall isp cands, oracles isp cands -> forall par, is_params isp cands par -> byte_string (params_to_bytes par) /\
  (fits (params_to_bytes par) -> forall id, params_from_bytes isp cands id (params_to_bytes par) = Val (at_address id par)).
Proof.
  intros isp cands Ho par Hp. destruct (params_proto_back isp cands Ho par Hp 0) as (_ & ((H1 & H2 & H3 & H4) & H5)). split.
  - unfold params_to_bytes. apply put_fields_bytes. unfold params_fields. apply Forall_app. split; [apply ok_int; [lia|apply u32_w64, H1]|]. apply Forall_app. split; [apply ok_packed; [lia|exact H2]|]. apply Forall_app. split; [|apply ok_int; [lia|apply u32_w64, H3]].
    destruct (pp_plain (params_to_proto par)) as [[v|b]|]; [| |constructor]; (constructor; [split; [cbn [fst]; lia|assumption]|constructor]).
  - intros Hl id. unfold params_from_bytes, params_to_bytes, decoded. rewrite params_wire_roundtrip; [|split; [exact H1|split; [exact H2|split; [exact H3|exact H4]]]|exact Hl]. cbn [bind]. exact (proj1 (params_proto_back isp cands Ho par Hp id)).
Qed.
Theorem params_read_all : forall isp cands, oracles isp cands -> complete_draws cands -> forall id b, byte_string b -> safe (params_from_bytes isp cands id b) (is_params isp cands).
Proof. intros isp cands Ho Hd id b Hb. unfold params_from_bytes. apply safe_decoded. intros m E. apply params_proto_safe; [exact Ho|exact Hd|exact (params_decode_ok b m Hb E)]. Qed.

Section Props.
  Context (isp : Z -> bool) (cands : Z -> list Z) (par : params).
  Set Default Proof Using "Type".
  (** ** Keys *)
  Theorem sk_bytes_all : forall sk, is_sk par sk -> byte_string (sk_to_bytes sk) /\ (fits (sk_to_bytes sk) -> sk_from_bytes (sk_to_bytes sk) par = Val sk).
  Proof.
    intros sk Hs. pose proof Hs as (_ & _ & Hi). split.
    - apply put_fields_bytes. unfold sk_fields. apply ok_packed; [lia|]. apply Forall_map. eapply Forall_impl; [|exact Hi]. exact zigzag_w64.
    - intros Hl. unfold sk_from_bytes, sk_to_bytes, decoded. rewrite sk_wire_roundtrip; [cbn [bind]; exact (sk_roundtrip_all par sk Hs)|exact Hi|exact Hl].
  Qed.
  Theorem ct_bytes_all : oracles isp cands -> is_params isp cands par -> serializable par -> forall expand, expands_well expand -> forall ct, reach isp cands expand par ct -> (2 <= length (ct_c ct))%nat ->
    exists b, ct_to_bytes ct = Val b /\ (fits b -> ct_from_bytes expand b par = Val (with_vt ct)) /\ ct_eqb (with_vt ct) ct = true.
  Proof.
    intros Ho Hp Hser expand Hx ct H H2. destruct (reach_roundtrip_all isp cands par Ho Hp Hser expand Hx ct H H2) as (m & E1 & E2 & E3). destruct (ct_bytes_back ct m E1) as (b & Eb & Hb). exists b. split; [exact Eb|]. split; [intros Hl; exact (Hb Hl expand par _ E2)|exact E3].
  Qed.
  Theorem ct_short_bytes_all : oracles isp cands -> is_params isp cands par -> serializable par -> forall expand, expands_well expand -> forall ct, reach isp cands expand par ct -> (length (ct_c ct) < 2)%nat ->
    exists b, ct_to_bytes ct = Val b /\ (fits b -> ct_from_bytes expand b par = Err (InvalidCiphertextPolynomialCount (Z.of_nat (length (ct_c ct))) false)).
  Proof.
    intros Ho Hp Hser expand Hx ct H H2. destruct (reach_short_all isp cands par Ho Hp Hser expand Hx ct H H2) as (m & E1 & E2). exists (put_fields (ct_fields (ct_pack m))). split; [unfold ct_to_bytes, ct_to_wire; rewrite E1; reflexivity|]. intros Hl.
    pose proof (ct_proto_typed ct m E1) as Ht. unfold ct_from_bytes, decoded. rewrite ct_wire_roundtrip by (exact (proj2 Ht) || exact Hl). cbn [bind]. unfold ct_from_wire, ct_from_proto, ct_pack in *. cbn [cw_c cw_seed cw_level]. rewrite map_length, len_map.
    destruct (Nat.eqb (length (cp_c m)) 0 || (Nat.eqb (length (cp_c m)) 1 && negb (negb (Nat.eqb (length (cp_seed m)) 0)))) eqn:Ec; [exact E2|exfalso].
    unfold ct_to_proto in E1. apply bind_inv in E1. destruct E1 as (cs & Ecs & Em). injection Em as <-. cbn [cp_c cp_seed cp_level] in *. destruct (reach_all isp cands par Ho Hp Hser expand Hx ct H) as (_ & _ & Hseed).
    destruct (ct_seed ct) as [sd|]; [specialize (Hseed ltac:(discriminate)); lia|]. assert (Ln : length cs = length (ct_c ct)). { destruct (ct_c ct) as [|p l] eqn:El; [injection Ecs as <-; reflexivity|]. exact (mapM_len _ _ _ Ecs). }
    rewrite Ln in Ec. destruct (ct_c ct) as [|p [|p' l]]; cbn [length] in *; [discriminate|discriminate|lia].
  Qed.
  Theorem pk_bytes_all : oracles isp cands -> is_params isp cands par -> serializable par -> forall expand, expands_well expand -> forall sk, is_sk par sk -> forall sd rng, length sd = 32%nat -> words rng ->
    exists pk b, pk_new expand sk sd rng = Val pk /\ pk_to_bytes pk = Val b /\ (fits b -> pk_from_bytes expand b par = Val pk).
  Proof.
    intros Ho Hp Hser expand Hx sk Hs sd rng Hsd Hr. destruct (pk_roundtrip_all isp cands par Ho Hp Hser expand Hx sk Hs sd rng Hsd Hr) as (pk & m & E & E1 & E2). destruct (pk_bytes_back pk m E1) as (b & Eb & Hb). exists pk, b. split; [exact E|]. split; [exact Eb|]. intros Hl. exact (Hb Hl expand par _ E2).
  Qed.
  Theorem relin_bytes_all : oracles isp cands -> is_params isp cands par -> serializable par -> forall expand derive, expands_well expand -> forall l1 l2 k, key_shape par l1 l2 k -> key_faithful expand derive k ->
    exists b, relin_to_bytes k = Val b /\ (fits b -> relin_from_bytes expand derive b par = Val k).
  Proof.
    intros Ho Hp Hser expand derive Hx l1 l2 k Hk Hf. destruct (ksk_roundtrip_all isp cands par Ho Hp Hser expand derive Hx l1 l2 k Hk Hf) as (m & E1 & E2). destruct (relin_bytes_back k (Some m)) as (b & Eb & Hb); [unfold relin_to_proto; rewrite E1; reflexivity|]. exists b. split; [exact Eb|]. intros Hl. apply (Hb Hl). exact E2.
  Qed.
  Theorem relin_new_bytes_all : oracles isp cands -> is_params isp cands par -> supported par -> serializable par -> forall expand derive, expands_well expand -> forall sk, is_sk par sk ->
    forall l1 l2, (l1 <= max_level par)%nat -> (l2 < max_level par)%nat -> forall sd rngs, length sd = 32%nat -> (forall i, words (rngs i)) ->
    exists k b, relin_new expand derive sk l1 l2 sd rngs = Val k /\ relin_to_bytes k = Val b /\ (fits b -> relin_from_bytes expand derive b par = Val k).
  Proof.
    intros Ho Hp Hsup Hser expand derive Hx sk Hs l1 l2 H1 H2 sd rngs Hsd Hr. destruct (relin_roundtrip_all isp cands par Ho Hp Hsup Hser expand derive Hx sk Hs l1 l2 H1 H2 sd rngs Hsd Hr) as (k & m & E & _ & _ & E1 & E2). destruct (relin_bytes_back k m E1) as (b & Eb & Hb). exists k, b. split; [exact E|]. split; [exact Eb|]. intros Hl. exact (Hb Hl expand derive par _ E2).
  Qed.
  Theorem ek_bytes_all : oracles isp cands -> is_params isp cands par -> serializable par -> forall expand derive, expands_well expand -> forall sk, is_sk par sk -> forall l1 l2, (l1 <= max_level par)%nat -> (l2 <= l1)%nat ->
    forall b cols sds rngs, is_ekb par sk l1 l2 b cols -> (forall e, length (sds e) = 32%nat) -> (forall e i, words (rngs e i)) ->
    exists ek s, ek_build expand derive b sds rngs = Val ek /\ ek_to_bytes ek = Val s /\ (fits s -> exists ek', ek_from_bytes expand derive s par = Val ek' /\ same_ek ek' ek).
  Proof.
    intros Ho Hp Hser expand derive Hx sk Hs l1 l2 H1 H2 b cols sds rngs Hb Hsd Hr. destruct (ek_roundtrip_all isp cands par Ho Hp Hser expand derive Hx sk Hs l1 l2 H1 H2 b cols sds rngs Hb Hsd Hr) as (ek & m & E & _ & _ & E1 & E2).
    destruct (ek_bytes_back ek m E1 (ep_gk m) (Permutation_refl _)) as (s & _ & Es & Hs'). exists ek, s. split; [exact E|]. split; [exact (Es eq_refl)|]. intros Hl. destruct (E2 (ep_gk m) (Permutation_refl _)) as (ek' & E3 & E4). exists ek'. split; [|exact E4]. exact (Hs' Hl expand derive par ek' E3).
  Qed.
  Theorem rgsw_bytes_all : oracles isp cands -> is_params isp cands par -> serializable par -> forall expand derive, expands_well expand -> forall sk, is_sk par sk -> forall l, (l <= max_level par)%nat ->
    forall pt m, is_pt par l pt m -> forall sd0 sd1 rngs0 rngs1, length sd0 = 32%nat -> length sd1 = 32%nat -> (forall i, words (rngs0 i)) -> (forall i, words (rngs1 i)) ->
    exists r b, rgsw_encrypt expand derive sk pt sd0 sd1 rngs0 rngs1 = Val r /\ rgsw_to_bytes r = Val b /\ (fits b -> rgsw_from_bytes expand derive b par = Val r).
  Proof.
    intros Ho Hp Hser expand derive Hx sk Hs l Hl pt m Hpt sd0 sd1 rngs0 rngs1 H0 H1 Hr0 Hr1. destruct (rgsw_roundtrip_all isp cands par Ho Hp Hser expand derive Hx sk Hs l Hl pt m Hpt sd0 sd1 rngs0 rngs1 H0 H1 Hr0 Hr1) as (r & msg & E & _ & _ & _ & E1 & E2).
    destruct (rgsw_bytes_back r msg E1) as (b & Eb & Hb). exists r, b. split; [exact E|]. split; [exact Eb|]. intros Hf. exact (Hb Hf expand derive par _ E2).
  Qed.
  (** ** Byte strings of any content *)
  Theorem ct_read_bytes_all : oracles isp cands -> is_params isp cands par -> serializable par -> forall expand, expands_well expand -> forall b, byte_string b ->
    safe (ct_from_bytes expand b par) (fun ct => (ct_level ct <= max_level par)%nat /\ (exists n, (2 <= n)%nat /\ some_ct par (ct_level ct) n ct) /\ seed_faithful expand ct).
  Proof.
    intros Ho Hp Hser expand Hx b Hb. unfold ct_from_bytes. apply safe_decoded. intros w E. apply (agree_safe _ _ _ (ct_agree expand w par)). pose proof (ct_read_all isp cands par Ho Hp Hser expand Hx (ct_open w) (ct_open_wire w (ct_decode_ok b w Hb E))) as H.
    destruct (ct_from_proto expand (ct_open w) par); cbn [safe] in *; [exact (proj2 H)|exact I|exact H].
  Qed.
  Theorem sk_read_bytes_all : forall b, safe (sk_from_bytes b par) (fun sk => sk_par sk = par /\ length (sk_coeffs sk) = pa_degree par).
  Proof.
    intros b. unfold sk_from_bytes. apply safe_decoded. intros v _. unfold sk_from_proto. destruct (Nat.eqb (length v) (pa_degree par)) eqn:E; cbn [negb]; [|exact I]. apply Nat.eqb_eq in E. split; [reflexivity|exact E].
  Qed.
  Theorem pk_read_bytes_all : oracles isp cands -> is_params isp cands par -> serializable par -> forall expand, expands_well expand -> forall b, byte_string b -> safe (pk_from_bytes expand b par) (pk_shape par).
  Proof.
    intros Ho Hp Hser expand Hx b Hb. destruct (pk_decode b) as [m|] eqn:E; [|unfold pk_from_bytes; rewrite E; exact I]. apply (agree_safe _ _ _ (pk_bytes_agree expand b par m E)). apply (pk_read_all isp cands par Ho Hp Hser expand Hx). pose proof (pk_decode_ok b m Hb E) as H. destruct m as [w|]; [exact (ct_open_wire w H)|exact I].
  Qed.
  Theorem relin_read_bytes_all : oracles isp cands -> is_params isp cands par -> serializable par -> forall expand derive, expands_well expand -> forall b, byte_string b -> safe (relin_from_bytes expand derive b par) (fun k => exists l1 l2, key_shape par l1 l2 k).
  Proof.
    intros Ho Hp Hser expand derive Hx b Hb. destruct (relin_decode b) as [m|] eqn:E; [|unfold relin_from_bytes; rewrite E; exact I]. apply (agree_safe _ _ _ (relin_bytes_agree expand derive b par m E)). apply (relin_read_all isp cands par Ho Hp Hser expand derive Hx). exact (ksks_open_wire m (relin_decode_ok b m Hb E)).
  Qed.
  Theorem ek_read_bytes_all : oracles isp cands -> is_params isp cands par -> serializable par -> forall expand derive, expands_well expand -> forall b, byte_string b -> safe (ek_from_bytes expand derive b par) (fun ek => ek_shape par (ek_ct_level ek) ek).
  Proof.
    intros Ho Hp Hser expand derive Hx b Hb. destruct (ek_decode b) as [w|] eqn:E; [|unfold ek_from_bytes; rewrite E; exact I]. apply (agree_safe _ _ _ (ek_bytes_agree expand derive b par w E)). pose proof (ek_read_all isp cands par Ho Hp Hser expand derive Hx (ek_open w) (ek_open_wire w (ek_decode_ok b w Hb E))) as H.
    destruct (ek_from_proto expand derive (ek_open w) par) as [ek| |]; cbn [safe] in *; [|exact I|exact H]. destruct H as (H & _). pose proof H as (_ & El & _). rewrite El. exact H.
  Qed.
  Theorem rgsw_read_bytes_all : oracles isp cands -> is_params isp cands par -> serializable par -> forall expand derive, expands_well expand -> forall b, byte_string b -> safe (rgsw_from_bytes expand derive b par) (fun r => rgsw_shape par (k_level (r_ksk0 r)) r).
  Proof.
    intros Ho Hp Hser expand derive Hx b Hb. destruct (rgsw_decode b) as [m|] eqn:E; [|unfold rgsw_from_bytes; rewrite E; exact I]. apply (agree_safe _ _ _ (rgsw_bytes_agree expand derive b par m E)). apply (rgsw_read_all isp cands par Ho Hp Hser expand derive Hx). destruct (rgsw_decode_ok b m Hb E) as (H0 & H1). split; [exact (ksks_open_wire _ H0)|exact (ksks_open_wire _ H1)].
  Qed.
End Props.
Theorem poly_read_bytes_all : forall isp cands, oracles isp cands -> forall c, is_context isp cands c -> Z.of_nat (length (c_moduli c)) < 2 ^ 29 -> forall R b, byte_string b -> poly_from_bytes R b c <> Panic.
Proof.
  intros isp cands Ho c Hc Hk R b Hb. destruct (ctx_of isp cands c Ho Hc) as (_ & Hok). pose proof (from_proto_no_panic c Hok Hk R (rq_open b) false (rq_open_wire b Hb)) as H. pose proof (poly_agree R b c) as Ha. intros E. rewrite E in Ha. destruct (poly_from_proto R (rq_open b) c false); cbn [agree] in Ha; contradiction.
Qed.
(** Unknown fields change nothing. *)
Theorem unknown_all : forall ct b, ct_to_bytes ct = Val b -> forall tag v, 4 <= tag < 2 ^ 29 -> is_u64 v -> let s := b ++ put_varint (8 * tag) ++ put_varint v in
  fits s -> s <> b /\ forall expand par, ct_from_bytes expand s par = ct_from_bytes expand b par.
Proof.
  intros ct b E tag v Ht Hv s Hl. unfold ct_to_bytes in E. apply bind_inv in E. destruct E as (w & Ew & Eb). injection Eb as <-. split.
  - subst s. intros Es. apply (f_equal (@length Z)) in Es. rewrite !app_length in Es. pose proof (put_varint_length v). lia.
  - intros expand par. unfold ct_to_wire in Ew. apply bind_inv in Ew. destruct Ew as (m & Em & Ew). injection Ew as <-. pose proof (ct_proto_typed ct m Em) as Htm.
    assert (Es : s = put_fields (ct_fields (ct_pack m) ++ [(tag, Varint v)])). { rewrite put_fields_app. subst s. unfold ct_pack. f_equal. cbn [put_fields flat_map put_field fst snd]. rewrite app_nil_r, Z.mul_comm. reflexivity. }
    fold (ct_pack m). unfold ct_from_bytes, ct_decode. rewrite Es in Hl |- *. rewrite !merge_written.
    + rewrite merge_app. rewrite merge_ct by exact (proj2 Htm). cbn [obind merge]. unfold ct_step. rewrite (proj2 (Z.eqb_neq tag 1)), (proj2 (Z.eqb_neq tag 2)), (proj2 (Z.eqb_neq tag 3)) by lia. reflexivity.
    + rewrite put_fields_app in Hl. exact (proj1 (fits_app _ _ Hl)).
    + apply ct_typed_fields. exact (proj2 Htm).
    + exact Hl.
    + apply Forall_app. split; [apply ct_typed_fields; exact (proj2 Htm)|]. constructor; [split; [cbn [fst]; lia|exact Hv]|constructor].
Qed.
(** The coefficients of a secret key may be written in several pieces. *)
Theorem merge_all : forall par a b, Forall is_i64 a -> Forall is_i64 b -> length (a ++ b) = pa_degree par -> let s := sk_to_bytes (mkSk par a) ++ sk_to_bytes (mkSk par b) in
  fits s -> sk_from_bytes s par = Val (mkSk par (a ++ b)).
Proof.
  intros par a b Ha Hb Hn s Hl. subst s. unfold sk_from_bytes, sk_to_bytes, sk_decode in *. rewrite <- put_fields_app in Hl |- *.
  rewrite merge_written; [|exact Hl|unfold sk_fields; typed].
  assert (K : forall v w, Forall is_i64 v -> merge sk_step (sk_fields v) w = Some (w ++ v)).
  { intros v w Hv. unfold sk_fields. assert (Hz : Forall is_u64 (map zigzag v)) by (apply Forall_map; eapply Forall_impl; [|exact Hv]; exact zigzag_w64).
    assert (Ez : map unzigzag (map zigzag v) = v) by (rewrite map_map; rewrite <- (map_id v) at 2; apply map_ext; exact zigzag_id).
    apply merge_packed; [destruct v; [intros _; apply app_nil_r|discriminate]|]. unfold sk_step. cbn [Z.eqb Pos.eqb]. rewrite read_packed by exact Hz. rewrite Ez. reflexivity. }
  unfold sk_to_proto. cbn [sk_coeffs]. rewrite merge_app, (K a [] Ha). cbn [obind app]. rewrite (K b a Hb). cbn [decoded bind]. unfold sk_from_proto. rewrite Hn, Nat.eqb_refl. reflexivity.
Qed.
(** The flag of a polynomial is not read. *)
Theorem flag_all : forall R (p : poly R) b, poly_to_bytes p = Val b -> forall v, is_u64 v -> let s := b ++ put_varint (8 * 4) ++ put_varint v in
  fits s -> forall R' c, poly_from_bytes R' s c = poly_from_bytes R' b c.
Proof.
  intros R p b E v Hv s Hl R' c. unfold poly_to_bytes in E. apply bind_inv in E. destruct E as (m & Em & Eb). injection Eb as <-. pose proof (poly_proto_typed R p m Em) as Ht.
  assert (Es : s = put_fields (rq_fields m ++ [(4, Varint v)])). { rewrite put_fields_app. subst s. unfold rq_encode. f_equal. cbn [put_fields flat_map put_field fst snd]. rewrite app_nil_r. reflexivity. }
  pose proof Hl as Hl'. subst s. pose proof (proj1 (fits_app _ _ Hl)) as Hb. rewrite Es in Hl' |- *.
  assert (Hf : Forall field_typed (rq_fields m)). { destruct Ht as (Hr & Hd). unfold rq_fields. typed; [apply Z.mod_pos_bound; lia|]. destruct (rq_vt m); unfold is_u64; lia. }
  unfold poly_from_bytes. rewrite (rq_roundtrip m Ht Hb). unfold rq_decode. rewrite merge_written; [|exact Hl'|].
  - rewrite merge_app. pose proof (rq_roundtrip m Ht Hb) as Hr. unfold rq_decode, rq_encode in Hr. rewrite merge_written in Hr; [|exact Hb|exact Hf].
    rewrite Hr. reflexivity.
  - apply Forall_app. split; [exact Hf|]. constructor; [split; [cbn [fst]; lia|exact Hv]|constructor].
Qed.
