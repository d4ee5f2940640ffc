(** The messages: what is written is read back, and what is read has values of the types of the fields. *)
From Verif Require Import Outcome BasicSpec OutcomeLemmas RqModel ParamsModel CipherModel KeysModel WireSpec BytesModel BytesSpec BytesProofs.

Lemma merge_app {A} (step : A -> Z -> payload -> option A) fs gs a : merge step (fs ++ gs) a = obind (merge step fs a) (merge step gs).
Proof. revert a. induction fs as [|[tag p] fs IH]; intros a; [reflexivity|]. cbn [app merge]. destruct (step a tag p) as [a'|]; [|reflexivity]. cbn [obind]. apply IH. Qed.
Lemma merge_int {A} (step : A -> Z -> payload -> option A) tag v a a' : (v = 0 -> a' = a) -> step a tag (Varint v) = Some a' -> merge step (int_field tag v) a = Some a'.
Proof. intros H0 H. unfold int_field. destruct (v =? 0) eqn:E; [apply Z.eqb_eq in E; cbn [merge]; rewrite (H0 E); reflexivity|]. cbn [merge]. rewrite H. reflexivity. Qed.
Lemma merge_string {A} (step : A -> Z -> payload -> option A) tag b a a' : (b = [] -> a' = a) -> step a tag (Bytes b) = Some a' -> merge step (bytes_field tag b) a = Some a'.
Proof. intros H0 H. unfold bytes_field. destruct b as [|x b]; [cbn [merge]; rewrite (H0 eq_refl); reflexivity|]. cbn [merge]. rewrite H. reflexivity. Qed.
Lemma u32_id v : is_u32 v -> to_u32 v = v.
Proof. intros H. apply Z.mod_small. exact H. Qed.
Lemma i32_id v : is_i32 v -> to_i32 (v mod 2 ^ 64) = v.
Proof.
  unfold is_i32, to_i32. intros H. replace ((v mod 2 ^ 64) mod 2 ^ 32) with (v mod 2 ^ 32) by (change (2 ^ 64) with (2 ^ 32 * 2 ^ 32); rewrite Z.rem_mul_r by lia; rewrite Z.mul_comm, Z.mod_add, Z.mod_mod by lia; reflexivity).
  destruct (Z_lt_le_dec v 0).
  - rewrite <- (Z.mod_unique v (2 ^ 32) (-1) (v + 2 ^ 32)) by lia. rewrite (proj2 (Z.ltb_ge _ _)) by lia. lia.
  - rewrite Z.mod_small by lia. rewrite (proj2 (Z.ltb_lt _ _)) by lia. reflexivity.
Qed.
Lemma zigzag_id v : unzigzag (zigzag v) = v.
Proof.
  unfold zigzag, unzigzag. destruct (0 <=? v) eqn:E; [apply Z.leb_le in E|apply Z.leb_gt in E].
  - replace (2 * v) with (v * 2) by lia. rewrite Z.mod_mul, Z.div_mul by lia. reflexivity.
  - replace (-2 * v - 1) with (1 + (- v - 1) * 2) by lia. rewrite Z.mod_add, Z.div_add by lia. change (1 mod 2) with 1. change (1 / 2) with 0. change (1 =? 0) with false. cbn iota. lia.
Qed.
Lemma zigzag_w64 v : is_i64 v -> is_u64 (zigzag v).
Proof. unfold is_i64, is_u64, zigzag. intros H. destruct (0 <=? v) eqn:E; [apply Z.leb_le in E|apply Z.leb_gt in E]; lia. Qed.
Lemma u32_w64 v : is_u32 v -> is_u64 v.
Proof. unfold is_u32, is_u64. lia. Qed.

(** ** Typed fields *)
Lemma typed_int tag v : 1 <= tag < 2 ^ 29 -> is_u64 v -> Forall field_typed (int_field tag v).
Proof. intros Ht Hv. unfold int_field. destruct (v =? 0); [constructor|]. constructor; [split; assumption|constructor]. Qed.
Lemma typed_string tag b : 1 <= tag < 2 ^ 29 -> Forall field_typed (bytes_field tag b).
Proof. intros Ht. unfold bytes_field. destruct b; [constructor|]. constructor; [split; [exact Ht|exact I]|constructor]. Qed.
Lemma typed_repeated tag bs : 1 <= tag < 2 ^ 29 -> Forall field_typed (repeated_field tag bs).
Proof. intros Ht. apply Forall_map. apply Forall_forall. intros b _. split; [exact Ht|exact I]. Qed.
Lemma typed_packed tag vs : 1 <= tag < 2 ^ 29 -> Forall field_typed (packed_field tag vs).
Proof. intros Ht. unfold packed_field. destruct vs; [constructor|]. constructor; [split; [exact Ht|exact I]|constructor]. Qed.
Lemma typed_message tag m : 1 <= tag < 2 ^ 29 -> Forall field_typed (message_field tag m).
Proof. intros Ht. unfold message_field. destruct m; [|constructor]. constructor; [split; [exact Ht|exact I]|constructor]. Qed.
Ltac typed := repeat (apply Forall_app; split); first [apply typed_int; [lia|first [assumption|apply u32_w64; assumption|idtac]]|apply typed_string; lia|apply typed_repeated; lia|apply typed_packed; lia|apply typed_message; lia|idtac].
(** Reading what was written. *)
Lemma merge_written {A} (step : A -> Z -> payload -> option A) d fs a : fits (put_fields fs) -> Forall field_typed fs -> merge_bytes step d (put_fields fs) a = merge step fs a.
Proof. intros Hl H. unfold merge_bytes. rewrite put_fields_ok by (apply fits_fields; assumption). reflexivity. Qed.
Lemma get_varints_loop vs fuel : Forall is_u64 vs -> (length (flat_map put_varint vs) <= fuel)%nat -> get_varints fuel (flat_map put_varint vs) = Some vs.
Proof.
  revert fuel. induction vs as [|v vs IH]; intros fuel H Hl; [destruct fuel; reflexivity|]. inversion H as [|? ? Hv Hvs]; subst. cbn [flat_map] in *. rewrite app_length in Hl. pose proof (put_varint_length v) as Lv.
  destruct fuel as [|fuel]; [lia|]. destruct (put_varint v ++ flat_map put_varint vs) as [|b0 l0] eqn:E; [apply (f_equal (@length Z)) in E; rewrite app_length in E; cbn [length] in E; lia|]. cbn [get_varints]. rewrite <- E, put_varint_ok by exact Hv. cbn [obind]. rewrite IH; [reflexivity|exact Hvs|lia].
Qed.
Lemma read_packed {A} vs (f : list Z -> A) : Forall is_u64 vs -> read_ints (Bytes (flat_map put_varint vs)) f = Some (f vs).
Proof. intros H. unfold read_ints. rewrite get_varints_loop by (exact H || lia). reflexivity. Qed.
Lemma merge_packed {A} (step : A -> Z -> payload -> option A) tag vs a a' : (vs = [] -> a' = a) -> step a tag (Bytes (flat_map put_varint vs)) = Some a' -> merge step (packed_field tag vs) a = Some a'.
Proof. intros H0 H. unfold packed_field. destruct vs as [|x vs]; [cbn [merge]; rewrite (H0 eq_refl); reflexivity|]. cbn [merge]. rewrite H. reflexivity. Qed.

(** ** Round trips *)
Theorem rq_roundtrip m : rq_typed m -> fits (rq_encode m) -> rq_decode (rq_encode m) = Some m.
Proof.
  intros (Hr & Hd) Hl. unfold rq_decode, rq_encode in *. rewrite merge_written; [|exact Hl|].
  - destruct m as [r d b vt]. cbn [rq_repr rq_degree] in *. unfold rq_fields. cbn [rq_repr rq_degree rq_coeffs rq_vt]. rewrite merge_app.
    rewrite (merge_int _ 1 (r mod 2 ^ 64) _ (mkRq r 0 [] false)); [|intros E; f_equal; rewrite <- (i32_id r Hr), E; reflexivity|unfold rq_step; cbn [Z.eqb Pos.eqb read_int]; rewrite i32_id by exact Hr; reflexivity]. cbn [obind]. rewrite merge_app.
    rewrite (merge_int _ 2 d _ (mkRq r d [] false)); [|intros ->; reflexivity|unfold rq_step; cbn [Z.eqb Pos.eqb read_int]; rewrite u32_id by exact Hd; reflexivity]. cbn [obind]. rewrite merge_app.
    rewrite (merge_string _ 3 b _ (mkRq r d b false)); [|intros ->; reflexivity|reflexivity]. cbn [obind].
    apply merge_int; destruct vt; (reflexivity || discriminate).
  - unfold rq_fields. typed; [apply Z.mod_pos_bound; lia|]. destruct (rq_vt m); unfold is_u64; lia.
Qed.
Lemma merge_ct_parts bs m : merge ct_step (repeated_field 1 bs) m = Some (mkCw (cw_c m ++ bs) (cw_seed m) (cw_level m)).
Proof.
  revert m. induction bs as [|b bs IH]; intros m; cbn [repeated_field map merge]; [rewrite app_nil_r; destruct m; reflexivity|]. unfold ct_step at 1. cbn [Z.eqb Pos.eqb read_bytes obind]. fold (repeated_field 1 bs). rewrite IH. cbn [cw_c cw_seed cw_level]. rewrite <- app_assoc. reflexivity.
Qed.
Lemma merge_ct m : is_u32 (cw_level m) -> merge ct_step (ct_fields m) ct_default = Some m.
Proof.
  intros Hv. destruct m as [c s l]. cbn [cw_level] in Hv. unfold ct_fields. cbn [cw_c cw_seed cw_level]. rewrite merge_app, merge_ct_parts. cbn [obind ct_default cw_c cw_seed cw_level app]. rewrite merge_app.
  rewrite (merge_string _ 2 s _ (mkCw c s 0)); [|intros ->; reflexivity|reflexivity]. cbn [obind]. apply merge_int; [intros ->; reflexivity|]. unfold ct_step. cbn [Z.eqb Pos.eqb read_int]. rewrite u32_id by exact Hv. reflexivity.
Qed.
Lemma ct_typed_fields m : is_u32 (cw_level m) -> Forall field_typed (ct_fields m).
Proof. intros Hv. unfold ct_fields. typed. Qed.
Theorem ct_wire_roundtrip m : is_u32 (cw_level m) -> fits (put_fields (ct_fields m)) -> ct_decode (put_fields (ct_fields m)) = Some m.
Proof. intros Hv Hl. unfold ct_decode. rewrite merge_written by (exact Hl || exact (ct_typed_fields m Hv)). exact (merge_ct m Hv). Qed.
Lemma merge_ksk_c0 bs m : merge ksk_step (repeated_field 1 bs) m = Some (mkKw (kw_c0 m ++ bs) (kw_c1 m) (kw_seed m) (kw_ct_level m) (kw_level m) (kw_log_base m)).
Proof.
  revert m. induction bs as [|b bs IH]; intros m; cbn [repeated_field map merge]; [rewrite app_nil_r; destruct m; reflexivity|]. unfold ksk_step at 1. cbn [Z.eqb Pos.eqb read_bytes obind]. fold (repeated_field 1 bs). rewrite IH. cbn [kw_c0 kw_c1 kw_seed kw_ct_level kw_level kw_log_base]. rewrite <- app_assoc. reflexivity.
Qed.
Lemma merge_ksk_c1 bs m : merge ksk_step (repeated_field 2 bs) m = Some (mkKw (kw_c0 m) (kw_c1 m ++ bs) (kw_seed m) (kw_ct_level m) (kw_level m) (kw_log_base m)).
Proof.
  revert m. induction bs as [|b bs IH]; intros m; cbn [repeated_field map merge]; [rewrite app_nil_r; destruct m; reflexivity|]. unfold ksk_step at 1. cbn [Z.eqb Pos.eqb read_bytes obind]. fold (repeated_field 2 bs). rewrite IH. cbn [kw_c0 kw_c1 kw_seed kw_ct_level kw_level kw_log_base]. rewrite <- app_assoc. reflexivity.
Qed.
Lemma merge_ksk m : ksk_typed m -> merge ksk_step (ksk_fields m) ksk_default = Some m.
Proof.
  intros (H1 & H2 & H3). destruct m as [c0 c1 s l1 l2 lb]. cbn [kw_ct_level kw_level kw_log_base] in *. unfold ksk_fields. cbn [kw_c0 kw_c1 kw_seed kw_ct_level kw_level kw_log_base].
  rewrite merge_app, merge_ksk_c0. cbn [obind ksk_default kw_c0 kw_c1 kw_seed kw_ct_level kw_level kw_log_base app]. rewrite merge_app, merge_ksk_c1. cbn [obind kw_c0 kw_c1 kw_seed kw_ct_level kw_level kw_log_base app]. rewrite merge_app.
  rewrite (merge_string _ 3 s _ (mkKw c0 c1 s 0 0 0)); [|intros ->; reflexivity|reflexivity]. cbn [obind]. rewrite merge_app.
  rewrite (merge_int _ 4 l1 _ (mkKw c0 c1 s l1 0 0)); [|intros ->; reflexivity|unfold ksk_step; cbn [Z.eqb Pos.eqb read_int]; rewrite u32_id by exact H1; reflexivity]. cbn [obind]. rewrite merge_app.
  rewrite (merge_int _ 5 l2 _ (mkKw c0 c1 s l1 l2 0)); [|intros ->; reflexivity|unfold ksk_step; cbn [Z.eqb Pos.eqb read_int]; rewrite u32_id by exact H2; reflexivity]. cbn [obind].
  apply merge_int; [intros ->; reflexivity|unfold ksk_step; cbn [Z.eqb Pos.eqb read_int]; rewrite u32_id by exact H3; reflexivity].
Qed.
Lemma ksk_typed_fields m : ksk_typed m -> Forall field_typed (ksk_fields m).
Proof. intros (H1 & H2 & H3). unfold ksk_fields. typed. Qed.
Lemma read_ksk {B} d m (f : ksk_wire -> B) : ksk_typed m -> fits (put_fields (ksk_fields m)) -> read_message ksk_step d (Bytes (put_fields (ksk_fields m))) ksk_default f = Some (f m).
Proof. intros Hm Hl. unfold read_message. rewrite merge_written by (exact Hl || exact (ksk_typed_fields m Hm)). rewrite merge_ksk by exact Hm. reflexivity. Qed.
Lemma fits_part fs tag b : fits (put_fields fs) -> In (tag, Bytes b) fs -> fits b.
Proof. intros Hl Hi. pose proof (put_fields_part fs tag b Hi). unfold fits in *. lia. Qed.
Theorem relin_wire_roundtrip m : opt_typed ksk_typed m -> fits (put_fields (relin_fields m)) -> relin_decode (put_fields (relin_fields m)) = Some m.
Proof.
  intros Hm Hl. unfold relin_decode. rewrite merge_written; [|exact Hl|unfold relin_fields; typed]. destruct m as [m|]; [|reflexivity]. cbn [relin_fields option_map message_field merge]. unfold relin_step. cbn [Z.eqb Pos.eqb or_default].
  rewrite read_ksk; [reflexivity|exact Hm|]. apply (fits_part _ 1 _ Hl). left. reflexivity.
Qed.
Theorem rgsw_wire_roundtrip m : opt_typed ksk_typed (fst m) -> opt_typed ksk_typed (snd m) -> fits (put_fields (rgsw_fields m)) -> rgsw_decode (put_fields (rgsw_fields m)) = Some m.
Proof.
  intros H0 H1 Hl. unfold rgsw_decode. rewrite merge_written; [|exact Hl|unfold rgsw_fields; typed]. destruct m as [m0 m1]. unfold rgsw_fields in *. cbn [fst snd] in *. rewrite merge_app.
  assert (E : merge rgsw_step (message_field 1 (option_map ksk_fields m0)) (None, None) = Some (m0, None)).
  { destruct m0 as [m|]; [|reflexivity]. cbn [option_map message_field merge]. unfold rgsw_step. cbn [Z.eqb Pos.eqb or_default fst snd]. rewrite read_ksk; [reflexivity|exact H0|]. apply (fits_part _ 1 _ Hl). apply in_or_app. left. left. reflexivity. }
  rewrite E. cbn [obind]. destruct m1 as [m|]; [|reflexivity]. cbn [option_map message_field merge]. unfold rgsw_step. cbn [Z.eqb Pos.eqb or_default fst snd]. rewrite read_ksk; [reflexivity|exact H1|]. apply (fits_part _ 2 _ Hl). apply in_or_app. right. left. reflexivity.
Qed.
Lemma galois_typed_fields m : galois_typed m -> Forall field_typed (galois_fields m).
Proof. intros (H1 & H2). unfold galois_fields. typed. Qed.
Lemma merge_galois d m : galois_typed m -> fits (put_fields (galois_fields m)) -> merge (galois_step d) (galois_fields m) galois_default = Some m.
Proof.
  intros (H1 & H2) Hl. destruct m as [k e]. unfold galois_fields in *. cbn [gw_ksk gw_exponent] in *. rewrite merge_app.
  assert (E : merge (galois_step d) (message_field 1 (option_map ksk_fields k)) galois_default = Some (mkGw k 0)).
  { destruct k as [m|]; [|reflexivity]. cbn [option_map message_field merge]. unfold galois_step. cbn [Z.eqb Pos.eqb or_default gw_ksk gw_exponent galois_default]. rewrite read_ksk; [reflexivity|exact H1|]. apply (fits_part _ 1 _ Hl). apply in_or_app. left. left. reflexivity. }
  rewrite E. cbn [obind]. apply merge_int; [intros ->; reflexivity|]. unfold galois_step. cbn [Z.eqb Pos.eqb read_int]. rewrite u32_id by exact H2. reflexivity.
Qed.
Lemma merge_ek_keys gs m : Forall galois_typed gs -> Forall (fun g => fits (put_fields (galois_fields g))) gs -> merge ek_step (repeated_field 2 (map (fun g => put_fields (galois_fields g)) gs)) m = Some (mkEw (ew_gk m ++ gs) (ew_ct_level m) (ew_level m)).
Proof.
  revert m. induction gs as [|g gs IH]; intros m H Hl; cbn [repeated_field map merge]; [rewrite app_nil_r; destruct m; reflexivity|]. inversion H as [|? ? Hg Hgs]; subst. inversion Hl as [|? ? Lg Lgs]; subst. unfold ek_step at 1. cbn [Z.eqb Pos.eqb read_message]. rewrite merge_written by (exact Lg || exact (galois_typed_fields g Hg)). rewrite merge_galois by assumption. cbn [obind]. 
  fold (repeated_field 2 (map (fun g => put_fields (galois_fields g)) gs)). rewrite IH by assumption. cbn [ew_gk ew_ct_level ew_level]. rewrite <- app_assoc. reflexivity.
Qed.
Theorem ek_wire_roundtrip m : ek_typed m -> fits (put_fields (ek_fields m)) -> ek_decode (put_fields (ek_fields m)) = Some m.
Proof.
  intros (H1 & H2 & H3) Hl. unfold ek_decode. rewrite merge_written; [|exact Hl|unfold ek_fields; typed]. destruct m as [gs l1 l2]. unfold ek_fields in *. cbn [ew_gk ew_ct_level ew_level] in *. rewrite merge_app.
  rewrite merge_ek_keys; [|exact H1|apply Forall_forall; intros g Hg; apply (fits_part _ 2 _ Hl); apply in_or_app; left; unfold repeated_field; rewrite map_map; apply in_map_iff; exists g; split; [reflexivity|exact Hg]]. cbn [obind ew_gk ew_ct_level ew_level app]. rewrite merge_app.
  rewrite (merge_int _ 3 l1 _ (mkEw gs l1 0)); [|intros ->; reflexivity|unfold ek_step; cbn [Z.eqb Pos.eqb read_int]; rewrite u32_id by exact H2; reflexivity]. cbn [obind].
  apply merge_int; [intros ->; reflexivity|unfold ek_step; cbn [Z.eqb Pos.eqb read_int]; rewrite u32_id by exact H3; reflexivity].
Qed.
Theorem pk_wire_roundtrip m : opt_typed (fun c => is_u32 (cw_level c)) m -> fits (put_fields (pk_fields m)) -> pk_decode (put_fields (pk_fields m)) = Some m.
Proof.
  intros Hm Hl. unfold pk_decode. rewrite merge_written; [|exact Hl|unfold pk_fields; typed]. destruct m as [m|]; [|reflexivity]. cbn [pk_fields option_map message_field merge]. unfold pk_step. cbn [Z.eqb Pos.eqb or_default read_message].
  rewrite merge_written; [|apply (fits_part _ 1 _ Hl); left; reflexivity|exact (ct_typed_fields m Hm)]. rewrite merge_ct by exact Hm. reflexivity.
Qed.
Theorem sk_wire_roundtrip v : Forall is_i64 v -> fits (put_fields (sk_fields v)) -> sk_decode (put_fields (sk_fields v)) = Some v.
Proof.
  intros Hv Hl. unfold sk_decode. rewrite merge_written; [|exact Hl|unfold sk_fields; typed]. unfold sk_fields. assert (Hz : Forall is_u64 (map zigzag v)) by (apply Forall_map; eapply Forall_impl; [|exact Hv]; exact zigzag_w64).
  assert (Ez : map unzigzag (map zigzag v) = v) by (rewrite map_map; rewrite <- (map_id v) at 2; apply map_ext; exact zigzag_id).
  apply merge_packed; [destruct v; [reflexivity|discriminate]|]. unfold sk_step. cbn [Z.eqb Pos.eqb]. rewrite read_packed by exact Hz. rewrite Ez. reflexivity.
Qed.
Theorem params_wire_roundtrip m : params_typed m -> fits (put_fields (params_fields m)) -> params_decode (put_fields (params_fields m)) = Some m.
Proof.
  intros (H1 & H2 & H3 & H4) Hl. unfold params_decode. rewrite merge_written; [|exact Hl|unfold params_fields; typed].
  - destruct m as [d ms v p]. cbn [pp_degree pp_moduli pp_variance pp_plain] in *. unfold params_fields. cbn [pp_degree pp_moduli pp_variance pp_plain]. rewrite merge_app.
    rewrite (merge_int _ 1 d _ (mkPp d [] 0 None)); [|intros ->; reflexivity|unfold params_step; cbn [Z.eqb Pos.eqb read_int]; rewrite u32_id by exact H1; reflexivity]. cbn [obind]. rewrite merge_app.
    rewrite (merge_packed _ 2 ms _ (mkPp d ms 0 None)); [|intros ->; reflexivity|unfold params_step; cbn [Z.eqb Pos.eqb]; rewrite read_packed by exact H2; reflexivity]. cbn [obind]. rewrite merge_app.
    replace (merge params_step match p with Some (PpU64 v0) => [(3, Varint v0)] | Some (PpBig b) => [(5, Bytes b)] | None => [] end (mkPp d ms 0 None)) with (Some (mkPp d ms 0 p)) by (destruct p as [[u|b]|]; reflexivity). cbn [obind].
    apply merge_int; [intros ->; reflexivity|unfold params_step; cbn [Z.eqb Pos.eqb read_int]; rewrite u32_id by exact H3; reflexivity].
  - destruct (pp_plain m) as [[u|b]|]; [| |constructor]; (constructor; [split; [cbn [fst]; lia|cbn [snd]; (exact H4 || exact I)]|constructor]).
Qed.

(** ** What is read *)
Lemma merge_inv {A} (P : A -> Prop) (step : A -> Z -> payload -> option A) fs a a' : (forall a tag p b, P a -> payload_ok p -> step a tag p = Some b -> P b) -> Forall (fun f => payload_ok (snd f)) fs -> P a -> merge step fs a = Some a' -> P a'.
Proof.
  intros Hs. revert a. induction fs as [|[tag p] fs IH]; intros a Hf Ha E; cbn [merge] in E; [injection E as <-; exact Ha|]. inversion Hf as [|? ? Hp Hf']; subst. destruct (step a tag p) as [b|] eqn:Eb; [|discriminate]. exact (IH b Hf' (Hs a tag p b Ha Hp Eb) E).
Qed.
Lemma merge_bytes_inv {A} (P : A -> Prop) (step : A -> Z -> payload -> option A) d b a a' : (forall a tag p b, P a -> payload_ok p -> step a tag p = Some b -> P b) -> byte_string b -> P a -> merge_bytes step d b a = Some a' -> P a'.
Proof. intros Hs Hb Ha E. unfold merge_bytes in E. destruct (get_fields d b) as [fs|] eqn:Ef; [|discriminate]. exact (merge_inv P step fs a a' Hs (get_fields_typed d b fs Hb Ef) Ha E). Qed.
Lemma to_u32_ok v : is_u32 (to_u32 v).
Proof. apply Z.mod_pos_bound. reflexivity. Qed.
(** Splits a hypothesis [step ... = Some b] into the cases of the fields. *)
Ltac steps E := repeat match type of E with (if ?t =? ?k then _ else _) = _ => destruct (t =? k) end; unfold read_int, read_bytes in E;
  repeat match type of E with match ?p with Varint _ => _ | Bytes _ => _ | Other => _ end = _ => destruct p; try discriminate E end; injection E as <-.
Lemma rq_step_ok a tag p b : wire_rq a -> payload_ok p -> rq_step a tag p = Some b -> wire_rq b.
Proof. intros (H1 & H2) Hp E. unfold rq_step in E. steps E; (split; [first [exact H1|exact Hp]|first [exact H2|apply to_u32_ok]]). Qed.
Theorem rq_decode_wire b m : byte_string b -> rq_decode b = Some m -> wire_rq m.
Proof. intros Hb E. refine (merge_bytes_inv wire_rq rq_step 100 b _ m rq_step_ok Hb _ E). split; [constructor|split; [discriminate|reflexivity]]. Qed.
Definition ct_wire_ok (m : ct_wire) : Prop := Forall byte_string (cw_c m) /\ is_u32 (cw_level m).
Definition ksk_wire_ok (m : ksk_wire) : Prop := Forall byte_string (kw_c0 m) /\ Forall byte_string (kw_c1 m) /\ is_u32 (kw_ct_level m) /\ is_u32 (kw_level m) /\ is_u32 (kw_log_base m).
Definition galois_wire_ok (m : galois_wire) : Prop := opt_typed ksk_wire_ok (gw_ksk m) /\ is_u32 (gw_exponent m).
Definition ek_wire_ok (m : ek_wire) : Prop := Forall galois_wire_ok (ew_gk m) /\ is_u32 (ew_ct_level m) /\ is_u32 (ew_level m).
Lemma Forall_snoc {A} (P : A -> Prop) l a : Forall P l -> P a -> Forall P (l ++ [a]).
Proof. intros H Ha. apply Forall_app. split; [exact H|constructor; [exact Ha|constructor]]. Qed.
Lemma u32_0 : is_u32 0.
Proof. split; [discriminate|reflexivity]. Qed.
Lemma ct_step_ok a tag p b : ct_wire_ok a -> payload_ok p -> ct_step a tag p = Some b -> ct_wire_ok b.
Proof. intros (H1 & H2) Hp E. unfold ct_step in E. steps E; (split; [first [exact H1|apply Forall_snoc; [exact H1|exact Hp]]|first [exact H2|apply to_u32_ok]]). Qed.
Lemma ct_default_ok : ct_wire_ok ct_default.
Proof. split; [constructor|exact u32_0]. Qed.
Lemma ct_decode_ok b m : byte_string b -> ct_decode b = Some m -> ct_wire_ok m.
Proof. intros Hb E. exact (merge_bytes_inv ct_wire_ok ct_step 100 b _ m ct_step_ok Hb ct_default_ok E). Qed.
Lemma ksk_step_ok a tag p b : ksk_wire_ok a -> payload_ok p -> ksk_step a tag p = Some b -> ksk_wire_ok b.
Proof.
  intros (H1 & H2 & H3 & H4 & H5) Hp E. unfold ksk_step in E. steps E; (split; [first [exact H1|apply Forall_snoc; [exact H1|exact Hp]]|split; [first [exact H2|apply Forall_snoc; [exact H2|exact Hp]]|split; [first [exact H3|apply to_u32_ok]|split; [first [exact H4|apply to_u32_ok]|first [exact H5|apply to_u32_ok]]]]]).
Qed.
Lemma ksk_default_ok : ksk_wire_ok ksk_default.
Proof. split; [constructor|]. split; [constructor|]. split; [exact u32_0|]. split; exact u32_0. Qed.
Lemma or_default_ok m : opt_typed ksk_wire_ok m -> ksk_wire_ok (or_default m ksk_default).
Proof. destruct m; [trivial|intros _; exact ksk_default_ok]. Qed.
Lemma read_ksk_ok {B} d p a (f : ksk_wire -> B) b : ksk_wire_ok a -> payload_ok p -> read_message ksk_step d p a f = Some b -> exists k, ksk_wire_ok k /\ b = f k.
Proof.
  intros Ha Hp E. unfold read_message in E. destruct p as [v|s|]; [discriminate| |discriminate]. destruct (merge_bytes ksk_step d s a) as [k|] eqn:Ek; [|discriminate]. cbn [obind] in E. exists k. split; [exact (merge_bytes_inv ksk_wire_ok ksk_step d s a k ksk_step_ok Hp Ha Ek)|congruence].
Qed.
Lemma relin_decode_ok b m : byte_string b -> relin_decode b = Some m -> opt_typed ksk_wire_ok m.
Proof.
  intros Hb E. refine (merge_bytes_inv (opt_typed ksk_wire_ok) relin_step 100 b None m _ Hb I E). clear. intros a tag p b Ha Hp E. unfold relin_step in E. destruct (tag =? 1); [|injection E as <-; exact Ha].
  destruct (read_ksk_ok _ _ _ _ _ (or_default_ok a Ha) Hp E) as (k & Hk & ->). exact Hk.
Qed.
Lemma rgsw_decode_ok b m : byte_string b -> rgsw_decode b = Some m -> opt_typed ksk_wire_ok (fst m) /\ opt_typed ksk_wire_ok (snd m).
Proof.
  intros Hb E. refine (merge_bytes_inv (fun m => opt_typed ksk_wire_ok (fst m) /\ opt_typed ksk_wire_ok (snd m)) rgsw_step 100 b (None, None) m _ Hb (conj I I) E). clear. intros a tag p b (H0 & H1) Hp E. unfold rgsw_step in E.
  destruct (tag =? 1). { destruct (read_ksk_ok _ _ _ _ _ (or_default_ok _ H0) Hp E) as (k & Hk & ->). split; [exact Hk|exact H1]. }
  destruct (tag =? 2). { destruct (read_ksk_ok _ _ _ _ _ (or_default_ok _ H1) Hp E) as (k & Hk & ->). split; [exact H0|exact Hk]. }
  injection E as <-. split; assumption.
Qed.
Lemma galois_step_ok d a tag p b : galois_wire_ok a -> payload_ok p -> galois_step d a tag p = Some b -> galois_wire_ok b.
Proof.
  intros (H0 & H1) Hp E. unfold galois_step in E.
  destruct (tag =? 1). { destruct (read_ksk_ok _ _ _ _ _ (or_default_ok _ H0) Hp E) as (k & Hk & ->). split; [exact Hk|exact H1]. }
  steps E; (split; [exact H0|first [apply to_u32_ok|exact H1]]).
Qed.
Lemma ek_decode_ok b m : byte_string b -> ek_decode b = Some m -> ek_wire_ok m.
Proof.
  intros Hb E. refine (merge_bytes_inv ek_wire_ok ek_step 100 b _ m _ Hb _ E); [|split; [constructor|split; exact u32_0]]. clear. intros a tag p b (H1 & H2 & H3) Hp E. unfold ek_step in E. destruct (tag =? 2).
  - unfold read_message in E. destruct p as [v|s|]; [discriminate| |discriminate]. destruct (merge_bytes (galois_step 98) 99 s galois_default) as [g|] eqn:Eg; [|discriminate]. cbn [obind] in E. injection E as <-.
    pose proof (merge_bytes_inv galois_wire_ok (galois_step 98) 99 s galois_default g (galois_step_ok 98) Hp (conj I u32_0) Eg) as Hg. split; [apply Forall_snoc; [exact H1|exact Hg]|split; [exact H2|exact H3]].
  - steps E; (split; [exact H1|split; [first [exact H2|apply to_u32_ok]|first [exact H3|apply to_u32_ok]]]).
Qed.
Lemma pk_decode_ok b m : byte_string b -> pk_decode b = Some m -> opt_typed ct_wire_ok m.
Proof.
  intros Hb E. refine (merge_bytes_inv (opt_typed ct_wire_ok) pk_step 100 b None m _ Hb I E). clear. intros a tag p b Ha Hp E. unfold pk_step in E. destruct (tag =? 1); [|injection E as <-; exact Ha].
  unfold read_message in E. destruct p as [v|s|]; [discriminate| |discriminate]. destruct (merge_bytes ct_step 99 s (or_default a ct_default)) as [c|] eqn:Ec; [|discriminate]. cbn [obind] in E. injection E as <-.
  refine (merge_bytes_inv ct_wire_ok ct_step 99 s _ c ct_step_ok Hp _ Ec). destruct a; [exact Ha|exact ct_default_ok].
Qed.
Lemma get_varints_ok fuel l vs : byte_string l -> get_varints fuel l = Some vs -> Forall is_u64 vs.
Proof.
  revert l vs. induction fuel as [|fuel IH]; intros l vs Hl E; (destruct l as [|b l]; [injection E as <-; constructor|]); [discriminate|]. cbn [get_varints] in E. destruct (get_varint (b :: l)) as [[v r]|] eqn:Ev; [|discriminate]. cbn [obind] in E. destruct (get_varint_w64 _ v r Hl Ev) as (Hv & Hr & _).
  destruct (get_varints fuel r) as [vs'|] eqn:E'; [|discriminate]. cbn [obind] in E. injection E as <-. constructor; [exact Hv|exact (IH r vs' Hr E')].
Qed.
Lemma read_ints_ok {A} p (f : list Z -> A) a : payload_ok p -> read_ints p f = Some a -> exists vs, Forall is_u64 vs /\ a = f vs.
Proof.
  intros Hp E. unfold read_ints in E. destruct p as [v|b|]; [| |discriminate].
  - injection E as <-. exists [v]. split; [constructor; [exact Hp|constructor]|reflexivity].
  - destruct (get_varints (length b) b) as [vs|] eqn:Ev; [|discriminate]. cbn [obind] in E. injection E as <-. exists vs. split; [exact (get_varints_ok _ b vs Hp Ev)|reflexivity].
Qed.
Definition params_wire_ok (m : params_proto) : Prop := params_typed m /\ match pp_plain m with Some (PpBig b) => byte_string b | _ => True end.
Lemma params_decode_ok b m : byte_string b -> params_decode b = Some m -> params_wire_ok m.
Proof.
  intros Hb E. refine (merge_bytes_inv params_wire_ok params_step 100 b _ m _ Hb _ E); [|split; [split; [exact u32_0|split; [constructor|split; [exact u32_0|exact I]]]|exact I]]. clear. intros a tag p b ((H1 & H2 & H3 & H4) & H5) Hp E. unfold params_step in E.
  destruct (tag =? 1). { steps E. split; [split; [apply to_u32_ok|split; [exact H2|split; [exact H3|exact H4]]]|exact H5]. }
  destruct (tag =? 2). { destruct (read_ints_ok _ _ _ Hp E) as (vs & Hvs & ->). split; [split; [exact H1|split; [apply Forall_app; split; assumption|split; [exact H3|exact H4]]]|exact H5]. }
  destruct (tag =? 3). { steps E. split; [split; [exact H1|split; [exact H2|split; [exact H3|exact Hp]]]|exact I]. }
  destruct (tag =? 4). { steps E. split; [split; [exact H1|split; [exact H2|split; [apply to_u32_ok|exact H4]]]|exact H5]. }
  destruct (tag =? 5). { steps E. split; [split; [exact H1|split; [exact H2|split; [exact H3|exact I]]]|exact Hp]. }
  injection E as <-. split; [split; [exact H1|split; [exact H2|split; assumption]]|exact H5].
Qed.
