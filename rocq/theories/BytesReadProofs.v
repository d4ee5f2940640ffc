(** Reading byte strings and reading messages give the same outcomes. *)
From Verif Require Import Outcome BasicSpec OutcomeLemmas ZqModel NttModel TranscodeModel RnsModel RqModel RqSpec ParamsModel BfvSpec CipherModel KeysModel WireSpec BytesModel BytesSpec BytesProofs BytesMessages.
From Coq Require Import Permutation.

(** The same value, or both an error, or both a panic. *)
Definition agree {A} (a b : M A) : Prop := match a, b with Val x, Val y => x = y | Err _, Err _ => True | Panic, Panic => True | _, _ => False end.
Lemma agree_refl {A} (a : M A) : agree a a.
Proof. destruct a; exact I || reflexivity. Qed.
Lemma agree_bind {A B} (a a' : M A) (f f' : A -> M B) : agree a a' -> (forall x, agree (f x) (f' x)) -> agree (bind a f) (bind a' f').
Proof. intros H Hf. destruct a, a'; cbn [agree] in H; try contradiction; cbn [bind]; [subst; apply Hf|exact I|exact I]. Qed.
Lemma agree_val {A} (a : M A) x : agree a (Val x) -> a = Val x.
Proof. destruct a; cbn; intros H; try contradiction. congruence. Qed.
Lemma agree_safe {A} (a b : M A) Q : agree a b -> safe b Q -> safe a Q.
Proof. destruct a, b; cbn; try contradiction; try trivial. intros ->. trivial. Qed.
Lemma agree_if {A} (c : bool) (a a' b b' : M A) : agree a a' -> agree b b' -> agree (if c then a else b) (if c then a' else b').
Proof. destruct c; trivial. Qed.
Lemma agree_mapM {A B C} (f : A -> M B) (f' : C -> M B) (g : A -> C) l : (forall a, agree (f a) (f' (g a))) -> agree (mapM f l) (mapM f' (map g l)).
Proof.
  intros H. induction l as [|a l IH]; cbn [mapM map]; [reflexivity|]. apply agree_bind; [apply H|]. intros b. apply agree_bind; [exact IH|]. intros bs. reflexivity.
Qed.
Lemma agree_foldM {A B C} (f : A -> B -> M A) (f' : A -> C -> M A) (g : B -> C) l a : (forall a b, agree (f a b) (f' a (g b))) -> agree (foldM f l a) (foldM f' (map g l) a).
Proof. intros H. revert a. induction l as [|b l IH]; intros a; cbn [foldM map]; [reflexivity|]. apply agree_bind; [apply H|exact IH]. Qed.

(** What the polynomials of a message are: byte strings that are no messages stand for a polynomial that is rejected. *)
Definition rq_open (b : list Z) : rq_proto := match rq_decode b with Some m => m | None => mkRq 0 0 [] false end.
Definition ct_open (w : ct_wire) : ct_proto := mkCtp (map rq_open (cw_c w)) (cw_seed w) (cw_level w).
Definition ksk_open (w : ksk_wire) : ksk_proto := mkKp (map rq_open (kw_c0 w)) (map rq_open (kw_c1 w)) (kw_seed w) (kw_ct_level w) (kw_level w) (kw_log_base w).
Definition galois_open (w : galois_wire) : galois_proto := mkGp (gw_exponent w) (option_map ksk_open (gw_ksk w)).
Definition ek_open (w : ek_wire) : ek_proto := mkEp (map galois_open (ew_gk w)) (ew_ct_level w) (ew_level w).
Lemma poly_agree R b c : agree (poly_from_bytes R b c) (poly_from_proto R (rq_open b) c false).
Proof. unfold poly_from_bytes, rq_open, decoded. destruct (rq_decode b) as [m|]; cbn [bind]; [apply agree_refl|]. exact I. Qed.
Lemma polys_agree R c bs : agree (mapM (fun b => poly_from_bytes R b c) bs) (mapM (fun b => poly_from_proto R b c false) (map rq_open bs)).
Proof. apply agree_mapM. intros b. apply poly_agree. Qed.
Lemma len_map {A B} (f : A -> B) l : len (map f l) = len l.
Proof. unfold len. rewrite map_length. reflexivity. Qed.
Lemma ct_agree expand w par : agree (ct_from_wire expand w par) (ct_from_proto expand (ct_open w) par).
Proof.
  unfold ct_from_wire, ct_from_proto, ct_open. cbn [cp_c cp_seed cp_level]. rewrite map_length, len_map. apply agree_if; [exact I|]. apply agree_if; [exact I|]. apply agree_bind; [apply agree_refl|]. intros c. apply agree_bind; [apply polys_agree|]. intros cs. apply agree_refl.
Qed.
Lemma ksk_agree expand derive w par : agree (ksk_from_wire expand derive w par) (ksk_from_proto expand derive (ksk_open w) par).
Proof.
  unfold ksk_from_wire, ksk_from_proto, ksk_open. cbn [kp_c0 kp_c1 kp_seed kp_ct_level kp_level kp_log_base]. rewrite map_length, !len_map. apply agree_bind; [apply agree_refl|]. intros c. apply agree_bind; [apply agree_refl|]. intros cc. apply agree_bind; [apply agree_refl|]. intros size.
  apply agree_if; [exact I|]. apply agree_bind; [apply agree_refl|]. intros sd. apply agree_bind; [destruct sd; [apply agree_refl|apply polys_agree]|]. intros c1. apply agree_bind; [apply polys_agree|]. intros c0. reflexivity.
Qed.
Lemma galois_agree expand derive w par : agree (galois_from_wire expand derive w par) (galois_from_proto expand derive (galois_open w) par).
Proof.
  unfold galois_from_wire, galois_from_proto, galois_open. cbn [gkp_ksk gkp_exponent]. destruct (gw_ksk w) as [k|]; cbn [option_map]; [|exact I]. apply agree_bind; [apply ksk_agree|]. intros k'. apply agree_refl.
Qed.
Lemma ct_bytes_agree expand b par w : ct_decode b = Some w -> agree (ct_from_bytes expand b par) (ct_from_proto expand (ct_open w) par).
Proof. intros E. unfold ct_from_bytes, decoded. rewrite E. apply ct_agree. Qed.
Lemma pk_bytes_agree expand b par m : pk_decode b = Some m -> agree (pk_from_bytes expand b par) (pk_from_proto expand (option_map ct_open m) par).
Proof. intros E. unfold pk_from_bytes, decoded. rewrite E. cbn [bind]. destruct m as [w|]; cbn [option_map pk_from_proto]; [|exact I]. apply agree_bind; [apply ct_agree|]. intros c. apply agree_refl. Qed.
Lemma relin_bytes_agree expand derive b par m : relin_decode b = Some m -> agree (relin_from_bytes expand derive b par) (relin_from_proto expand derive (option_map ksk_open m) par).
Proof. intros E. unfold relin_from_bytes, decoded. rewrite E. cbn [bind]. destruct m as [w|]; cbn [option_map relin_from_proto]; [|exact I]. apply ksk_agree. Qed.
Lemma ek_bytes_agree expand derive b par w : ek_decode b = Some w -> agree (ek_from_bytes expand derive b par) (ek_from_proto expand derive (ek_open w) par).
Proof.
  intros E. unfold ek_from_bytes, decoded. rewrite E. cbn [bind]. unfold ek_from_proto, ek_open. cbn [ep_gk ep_ct_level ep_level]. apply agree_bind; [|intros gk; apply agree_refl]. apply agree_foldM. intros acc g. apply agree_bind; [apply galois_agree|]. intros k. apply agree_refl.
Qed.
Lemma rgsw_bytes_agree expand derive b par m : rgsw_decode b = Some m -> agree (rgsw_from_bytes expand derive b par) (rgsw_from_proto expand derive (mkRp (option_map ksk_open (fst m)) (option_map ksk_open (snd m))) par).
Proof.
  intros E. unfold rgsw_from_bytes, decoded. rewrite E. cbn [bind]. unfold rgsw_from_proto. cbn [rp_ksk0 rp_ksk1]. destruct m as [m0 m1]. cbn [fst snd]. destruct m0 as [w0|]; cbn [option_map ok_or bind]; [|exact I]. apply agree_bind; [apply ksk_agree|]. intros k0. destruct m1 as [w1|]; cbn [option_map ok_or bind]; [|exact I]. apply agree_bind; [apply ksk_agree|]. intros k1. apply agree_refl.
Qed.

(** ** What is read has the types of the fields *)
Lemma rq_open_wire b : byte_string b -> wire_rq (rq_open b).
Proof. intros Hb. unfold rq_open. destruct (rq_decode b) as [m|] eqn:E; [exact (rq_decode_wire b m Hb E)|]. split; [constructor|exact u32_0]. Qed.
Lemma rqs_open_wire bs : Forall byte_string bs -> Forall wire_rq (map rq_open bs).
Proof. intros H. apply Forall_map. eapply Forall_impl; [|exact H]. exact rq_open_wire. Qed.
Lemma ct_open_wire w : ct_wire_ok w -> wire_ct (ct_open w).
Proof. intros (H1 & H2). split; [exact (rqs_open_wire _ H1)|exact H2]. Qed.
Lemma ksk_open_wire w : ksk_wire_ok w -> wire_ksk (ksk_open w).
Proof. intros (H1 & H2 & H3 & H4 & H5). split; [exact (rqs_open_wire _ H1)|]. split; [exact (rqs_open_wire _ H2)|]. split; [exact H3|]. split; [exact H4|exact H5]. Qed.
Lemma ksks_open_wire m : opt_typed ksk_wire_ok m -> wire_opt wire_ksk (option_map ksk_open m).
Proof. destruct m as [w|]; [apply ksk_open_wire|trivial]. Qed.
Lemma galois_open_wire w : galois_wire_ok w -> wire_galois (galois_open w).
Proof. intros (H1 & H2). split; [exact H2|exact (ksks_open_wire _ H1)]. Qed.
Lemma ek_open_wire w : ek_wire_ok w -> wire_ek (ek_open w).
Proof. intros (H1 & H2 & H3). split; [|split; [exact H2|exact H3]]. apply Forall_map. eapply Forall_impl; [|exact H1]. exact galois_open_wire. Qed.
(** A string that is no message is an error. *)
Lemma safe_decoded {A B} (o : option A) (f : A -> M B) Q : (forall a, o = Some a -> safe (f a) Q) -> safe (bind (decoded o) f) Q.
Proof. intros H. destruct o as [a|]; cbn [decoded bind]; [exact (H a eq_refl)|exact I]. Qed.

(** ** What is written *)
Lemma u32_mod v : is_u32 (v mod W32).
Proof. apply Z.mod_pos_bound. reflexivity. Qed.
Lemma poly_proto_typed R (p : poly R) m : poly_to_proto p = Val m -> rq_typed m.
Proof.
  intros E. unfold poly_to_proto in E. apply bind_inv in E. destruct E as (u & _ & E). apply bind_inv in E. destruct E as (q & _ & E). apply bind_inv in E. destruct E as (bs & _ & E). injection E as <-. split; [|apply u32_mod]. unfold is_i32. cbn [rq_repr]. destruct R; cbn; lia.
Qed.
Lemma polys_proto_typed R (l : list (poly R)) ms : mapM poly_to_proto l = Val ms -> Forall rq_typed ms.
Proof. intros E. apply mapM_val_inv in E. induction E as [|p m l ms Ep _ IH]; [constructor|]. constructor; [exact (poly_proto_typed R p m Ep)|exact IH]. Qed.
Definition ct_typed (m : ct_proto) : Prop := Forall rq_typed (cp_c m) /\ is_u32 (cp_level m).
Definition key_typed (m : ksk_proto) : Prop := Forall rq_typed (kp_c0 m) /\ Forall rq_typed (kp_c1 m) /\ is_u32 (kp_ct_level m) /\ is_u32 (kp_level m) /\ is_u32 (kp_log_base m).
Lemma ct_proto_typed ct m : ct_to_proto ct = Val m -> ct_typed m.
Proof.
  intros E. unfold ct_to_proto in E. apply bind_inv in E. destruct E as (cs & Ec & E). injection E as <-. split; [|apply u32_mod]. cbn [cp_c]. destruct (ct_c ct) as [|p l]; [injection Ec as <-; constructor|]. destruct (ct_seed ct); exact (polys_proto_typed _ _ _ Ec).
Qed.
Lemma ksk_proto_typed k m : ksk_to_proto k = Val m -> key_typed m.
Proof.
  intros E. unfold ksk_to_proto in E. apply bind_inv in E. destruct E as (c1 & E1 & E). apply bind_inv in E. destruct E as (c0 & E0 & E). injection E as <-. cbn [kp_c0 kp_c1 kp_ct_level kp_level kp_log_base]. split; [exact (polys_proto_typed _ _ _ E0)|]. split; [destruct (k_seed k); [injection E1 as <-; constructor|exact (polys_proto_typed _ _ _ E1)]|]. split; [apply u32_mod|]. split; apply u32_mod.
Qed.
Definition ct_pack (m : ct_proto) : ct_wire := mkCw (map rq_encode (cp_c m)) (cp_seed m) (cp_level m).
Definition ksk_pack (m : ksk_proto) : ksk_wire := mkKw (map rq_encode (kp_c0 m)) (map rq_encode (kp_c1 m)) (kp_seed m) (kp_ct_level m) (kp_level m) (kp_log_base m).
Definition galois_pack (m : galois_proto) : galois_wire := mkGw (option_map ksk_pack (gkp_ksk m)) (gkp_exponent m).
Lemma open_encode m : rq_typed m -> fits (rq_encode m) -> rq_open (rq_encode m) = m.
Proof. intros H Hl. unfold rq_open. rewrite rq_roundtrip by assumption. reflexivity. Qed.
Lemma open_encodes ms : Forall rq_typed ms -> Forall (fun m => fits (rq_encode m)) ms -> map rq_open (map rq_encode ms) = ms.
Proof. intros H. induction H as [|m ms Hm _ IH]; intros Hl; [reflexivity|]. inversion Hl as [|? ? Lm Lms]; subst. cbn [map]. rewrite open_encode, IH by assumption. reflexivity. Qed.
Lemma repeated_fits tag ms fs : fits (put_fields fs) -> incl (repeated_field tag (map rq_encode ms)) fs -> Forall (fun m => fits (rq_encode m)) ms.
Proof. intros Hl Hi. apply Forall_forall. intros m Hm. apply (fits_part fs tag _ Hl). apply Hi. unfold repeated_field. rewrite map_map. apply in_map_iff. exists m. split; [reflexivity|exact Hm]. Qed.
Lemma ct_open_pack m : ct_typed m -> fits (put_fields (ct_fields (ct_pack m))) -> ct_open (ct_pack m) = m.
Proof.
  intros (H1 & H2) Hl. unfold ct_open, ct_pack. cbn [cw_c cw_seed cw_level]. rewrite open_encodes; [destruct m; reflexivity|exact H1|]. apply (repeated_fits 1 _ _ Hl). unfold ct_fields, ct_pack. cbn [cw_c]. apply incl_appl, incl_refl.
Qed.
Lemma ksk_open_pack m : key_typed m -> fits (put_fields (ksk_fields (ksk_pack m))) -> ksk_open (ksk_pack m) = m.
Proof.
  intros (H1 & H2 & _) Hl. unfold ksk_open, ksk_pack. cbn [kw_c0 kw_c1 kw_seed kw_ct_level kw_level kw_log_base]. rewrite !open_encodes; [destruct m; reflexivity|exact H2| |exact H1|].
  - apply (repeated_fits 2 _ _ Hl). unfold ksk_fields, ksk_pack. cbn [kw_c0 kw_c1]. apply incl_appr, incl_appl, incl_refl.
  - apply (repeated_fits 1 _ _ Hl). unfold ksk_fields, ksk_pack. cbn [kw_c0 kw_c1]. apply incl_appl, incl_refl.
Qed.
Lemma ksk_pack_typed m : key_typed m -> ksk_typed (ksk_pack m).
Proof. intros (_ & _ & H). exact H. Qed.

(** ** Reading back: [written b r r'] says that the string [b] was written and that reading it gives a value whenever reading the message does. *)
Theorem ct_bytes_back ct m : ct_to_proto ct = Val m -> exists b, ct_to_bytes ct = Val b /\ (fits b -> forall expand par ct', ct_from_proto expand m par = Val ct' -> ct_from_bytes expand b par = Val ct').
Proof.
  intros E. exists (put_fields (ct_fields (ct_pack m))). split; [unfold ct_to_bytes, ct_to_wire; rewrite E; reflexivity|]. intros Hl expand par ct' E'. pose proof (ct_proto_typed ct m E) as Ht. apply agree_val. rewrite <- E'. replace (ct_from_proto expand m par) with (ct_from_proto expand (ct_open (ct_pack m)) par) by (rewrite (ct_open_pack m Ht Hl); reflexivity). apply ct_bytes_agree. apply ct_wire_roundtrip; [exact (proj2 Ht)|exact Hl].
Qed.
Theorem pk_bytes_back pk m : pk_to_proto pk = Val m -> exists b, pk_to_bytes pk = Val b /\ (fits b -> forall expand par pk', pk_from_proto expand m par = Val pk' -> pk_from_bytes expand b par = Val pk').
Proof.
  intros E. unfold pk_to_proto in E. apply bind_inv in E. destruct E as (c & E & Em). injection Em as <-. exists (put_fields (pk_fields (Some (ct_pack c)))). split; [unfold pk_to_bytes, ct_to_wire; rewrite E; reflexivity|]. intros Hl expand par pk' E'. pose proof (ct_proto_typed _ c E) as Ht. apply agree_val.
  assert (Eo : Some c = option_map ct_open (Some (ct_pack c))). { cbn [option_map]. rewrite ct_open_pack; [reflexivity|exact Ht|]. apply (fits_part _ 1 _ Hl). left. reflexivity. }
  rewrite <- E', Eo. apply pk_bytes_agree. apply pk_wire_roundtrip; [exact (proj2 Ht)|exact Hl].
Qed.
Theorem relin_bytes_back k m : relin_to_proto k = Val m -> exists b, relin_to_bytes k = Val b /\ (fits b -> forall expand derive par k', relin_from_proto expand derive m par = Val k' -> relin_from_bytes expand derive b par = Val k').
Proof.
  intros E. unfold relin_to_proto in E. apply bind_inv in E. destruct E as (c & E & Em). injection Em as <-. exists (put_fields (relin_fields (Some (ksk_pack c)))). split; [unfold relin_to_bytes, ksk_to_wire; rewrite E; reflexivity|]. intros Hl expand derive par k' E'. pose proof (ksk_proto_typed _ c E) as Ht. apply agree_val.
  assert (Eo : Some c = option_map ksk_open (Some (ksk_pack c))). { cbn [option_map]. rewrite ksk_open_pack; [reflexivity|exact Ht|]. apply (fits_part _ 1 _ Hl). left. reflexivity. }
  rewrite <- E', Eo. apply relin_bytes_agree. apply relin_wire_roundtrip; [exact (ksk_pack_typed c Ht)|exact Hl].
Qed.
Theorem rgsw_bytes_back r m : rgsw_to_proto r = Val m -> exists b, rgsw_to_bytes r = Val b /\ (fits b -> forall expand derive par r', rgsw_from_proto expand derive m par = Val r' -> rgsw_from_bytes expand derive b par = Val r').
Proof.
  intros E. unfold rgsw_to_proto in E. apply bind_inv in E. destruct E as (c0 & E0 & E). apply bind_inv in E. destruct E as (c1 & E1 & Em). injection Em as <-.
  exists (put_fields (rgsw_fields (Some (ksk_pack c0), Some (ksk_pack c1)))). split; [unfold rgsw_to_bytes, ksk_to_wire; rewrite E0, E1; reflexivity|]. intros Hl expand derive par r' E'. pose proof (ksk_proto_typed _ c0 E0) as H0. pose proof (ksk_proto_typed _ c1 E1) as H1. apply agree_val.
  assert (Eo : mkRp (Some c0) (Some c1) = mkRp (option_map ksk_open (fst (Some (ksk_pack c0), Some (ksk_pack c1)))) (option_map ksk_open (snd (Some (ksk_pack c0), Some (ksk_pack c1))))).
  { cbn [option_map fst snd]. rewrite !ksk_open_pack; [reflexivity|exact H1|apply (fits_part _ 2 _ Hl); right; left; reflexivity|exact H0|apply (fits_part _ 1 _ Hl); left; reflexivity]. }
  rewrite <- E', Eo. apply rgsw_bytes_agree. apply rgsw_wire_roundtrip; [exact (ksk_pack_typed c0 H0)|exact (ksk_pack_typed c1 H1)|exact Hl].
Qed.
Lemma galois_proto_typed g m : galois_to_proto g = Val m -> exists c, gkp_ksk m = Some c /\ key_typed c /\ is_u32 (gkp_exponent m) /\ galois_to_wire g = Val (galois_pack m).
Proof.
  intros E. unfold galois_to_proto in E. apply bind_inv in E. destruct E as (c & E & Em). injection Em as <-. exists c. split; [reflexivity|]. split; [exact (ksk_proto_typed _ c E)|]. split; [apply u32_mod|]. unfold galois_to_wire, ksk_to_wire. rewrite E. reflexivity.
Qed.
(** The order of the map of an evaluation key is that of the iterator; any order can be read. *)
Theorem ek_bytes_back ek m : ek_to_proto ek = Val m -> forall gs, Permutation gs (ep_gk m) -> exists b, b = put_fields (ek_fields (mkEw (map galois_pack gs) (ep_ct_level m) (ep_level m))) /\ (gs = ep_gk m -> ek_to_bytes ek = Val b) /\
  (fits b -> forall expand derive par ek', ek_from_proto expand derive (mkEp gs (ep_ct_level m) (ep_level m)) par = Val ek' -> ek_from_bytes expand derive b par = Val ek').
Proof.
  intros E gs Hp. eexists. split; [reflexivity|]. unfold ek_to_proto in E. apply bind_inv in E. destruct E as (hs & E & Em). injection Em as <-. cbn [ep_gk ep_ct_level ep_level] in *.
  assert (Hh : Forall (fun m => exists c, gkp_ksk m = Some c /\ key_typed c /\ is_u32 (gkp_exponent m)) hs /\ mapM (fun eg => galois_to_wire (snd eg)) (ek_gk ek) = Val (map galois_pack hs)).
  { clear Hp. revert hs E. induction (ek_gk ek) as [|eg l IH]; intros hs E; cbn [mapM] in E |- *; [injection E as <-; split; [constructor|reflexivity]|]. apply bind_inv in E. destruct E as (g & Eg & E). apply bind_inv in E. destruct E as (hs' & Eh & E). injection E as <-. destruct (galois_proto_typed _ g Eg) as (c & H1 & H2 & H3 & H4). destruct (IH hs' Eh) as (H5 & H6). split; [constructor; [exists c; split; [exact H1|split; [exact H2|exact H3]]|exact H5]|]. rewrite H4. cbn [bind]. rewrite H6. reflexivity. }
  destruct Hh as (Hh & Ew). split; [intros ->; unfold ek_to_bytes; rewrite Ew; reflexivity|]. intros Hl expand derive par ek' E'. apply (Permutation_Forall (Permutation_sym Hp)) in Hh.
  set (w := mkEw (map galois_pack gs) (Z.of_nat (ek_ct_level ek) mod W32) (Z.of_nat (ek_level ek) mod W32)) in *.
  assert (Hg : Forall (fun g => fits (put_fields (galois_fields (galois_pack g)))) gs). { apply Forall_forall. intros g Hg. apply (fits_part _ 2 _ Hl). unfold ek_fields, w. cbn [ew_gk]. apply in_or_app. left. unfold repeated_field. rewrite !map_map. apply in_map_iff. exists g. split; [reflexivity|exact Hg]. }
  assert (Eo : mkEp gs (Z.of_nat (ek_ct_level ek) mod W32) (Z.of_nat (ek_level ek) mod W32) = ek_open w).
  { unfold ek_open, w. cbn [ew_gk ew_ct_level ew_level]. f_equal. rewrite map_map. rewrite <- (map_id gs) at 1. apply map_ext_in. intros g Hi. rewrite Forall_forall in Hh, Hg. destruct (Hh g Hi) as (c & H1 & H2 & H3). destruct g as [e o]. cbn [gkp_ksk gkp_exponent] in *. subst o. unfold galois_open, galois_pack. cbn [gkp_ksk gkp_exponent gw_ksk gw_exponent option_map]. rewrite ksk_open_pack; [reflexivity|exact H2|]. apply (fits_part _ 1 _ (Hg _ Hi)). left. reflexivity. }
  apply agree_val. rewrite <- E', Eo. apply ek_bytes_agree. apply ek_wire_roundtrip; [|exact Hl]. split; [|split; apply u32_mod]. unfold w. cbn [ew_gk]. apply Forall_map. eapply Forall_impl; [|exact Hh]. intros g (c & H1 & H2 & H3). unfold galois_typed, galois_pack. cbn [gw_ksk gw_exponent]. rewrite H1. split; [exact (ksk_pack_typed c H2)|exact H3].
Qed.
Theorem poly_bytes_back R (p : poly R) m : poly_to_proto p = Val m -> poly_to_bytes p = Val (rq_encode m) /\ (fits (rq_encode m) -> forall R' c, poly_from_bytes R' (rq_encode m) c = poly_from_proto R' m c false).
Proof.
  intros E. split; [unfold poly_to_bytes; rewrite E; reflexivity|]. intros Hl R' c. unfold poly_from_bytes, decoded. rewrite rq_roundtrip; [reflexivity|exact (poly_proto_typed R p m E)|exact Hl].
Qed.
