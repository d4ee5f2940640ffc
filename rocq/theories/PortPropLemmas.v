(** Closing lemmas for the property about reading what was written by a program that uses other roots of unity. *)
From Verif Require Import Outcome BasicSpec OutcomeLemmas ZqModel ZqProofs NumTheory NttModel PolySpec PolyRing NttPure NttStages NttProofs CbdModel CbdSpec CbdProofs.
From Verif Require Import TranscodeModel PrimesModel RnsModel RnsSpec RnsProofs RqModel RqSpec RqCtx RqRows RqProofs RingRn RqOps RqIO RqPropLemmas ParamsModel BfvSpec ParamsProofs BuildProofs ParamsPropLemmas PlainModel CipherModel OpsModel SchemeSpec CipherSpec PlainProofs RnPoly CipherProofs EncryptProofs CipherPropLemmas LinearPropLemmas SerialPropLemmas.
From Verif Require Import WireSpec WireProofs BytesModel BytesSpec BytesProofs BytesMessages BytesReadProofs BytesParams BytesPropLemmas PortSpec.
From Coq Require Import Znumtheory.
Set Default Proof Using "Type".

(** ** Polynomials *)
Lemma same_proto R c c' v v' x : ctx_ok c -> ctx_ok c' -> c_moduli c = c_moduli c' -> c_degree c = c_degree c' -> length x = c_degree c -> poly_to_proto (poly_of R c v x) = poly_to_proto (poly_of R c' v' x).
Proof.
  intros Hc Hc' Em Ed Lx. pose proof (same_q c c' Hc Hc' Em) as Eq.
  assert (K : forall d w, ctx_ok d -> length x = c_degree d -> poly_to_proto (poly_of R d w x) = (bs <- map2M (fun v qi => serialize_vec qi v) (map (fun q => map (fun a => a mod mod_p q) x) (c_q d)) (c_q d) ;; Val (mkRq (repr_code R) (Z.of_nat (c_degree d) mod W32) (concat bs) false))).
  { intros d w Hd Ld. unfold poly_to_proto. rewrite (into_pb_eq d Hd) by exact Ld. cbn [poly_of p_lazy p_ctx p_coeffs negb guard bind]. rewrite (q_ops d Hd), map_map. reflexivity. }
  rewrite (K c v Hc Lx), (K c' v' Hc') by congruence. rewrite Eq, Ed. reflexivity.
Qed.
Theorem port_poly_all : forall isp cands isp' cands', oracles isp cands -> oracles isp' cands' -> forall c c', is_context isp cands c -> is_context isp' cands' c' ->
  c_moduli c = c_moduli c' -> c_degree c = c_degree c' -> Z.of_nat (c_degree c) < 2 ^ 32 -> Z.of_nat (length (c_moduli c)) < 2 ^ 29 ->
  forall R (p : poly R) x, p_ctx p = c -> represents p x -> exists b, poly_to_bytes p = Val b /\
    (forall (p' : poly R), p_ctx p' = c' -> represents p' x -> poly_to_bytes p' = Val b) /\
    (fits b -> exists p', poly_from_bytes R b c' = Val p' /\ p_ctx p' = c' /\ represents p' x).
Proof.
  intros isp cands isp' cands' Ho Ho' c c' Hc Hc' Em Ed HN Hk R p x Ep Hr. destruct (ctx_of isp cands c Ho Hc) as (_ & Ok). destruct (ctx_of isp' cands' c' Ho' Hc') as (_ & Ok'). apply (rep_eq p c) in Hr; [|exact Ep]. destruct Hr as (Lx & E).
  rewrite Ed in HN. rewrite Em in Hk. destruct (proto_eq c' Ok' HN Hk R false x ltac:(congruence)) as (m & F1 & _ & _ & _ & F2 & _).
  assert (Em1 : poly_to_proto p = Val m) by (rewrite E, (same_proto R c c' (p_vt p) false x); assumption).
  destruct (poly_bytes_back R p m Em1) as (Eb & Hb). exists (rq_encode m). split; [exact Eb|]. split.
  - intros p' Ep' Hr'. apply (rep_eq p' c') in Hr'; [|exact Ep']. destruct Hr' as (Lx' & E'). unfold poly_to_bytes. rewrite E', (same_proto R c' c' (p_vt p') false x) by (assumption || reflexivity). rewrite F1. reflexivity.
  - intros Hl. exists (poly_of R c' false x). rewrite (Hb Hl R c'), F2. split; [reflexivity|]. split; [reflexivity|]. split; [cbn [poly_of p_ctx]; congruence|reflexivity].
Qed.

(** ** Parameters *)
Lemma build_ext isp cands : oracles isp cands -> forall id b par, is_builder b -> build isp cands id b = Val par ->
  ~ 2 ^ 62 <= pa_t par < 2 ^ 64 /\ exists l, length l = S (length (pa_moduli par)) /\ NoDup l /\ Forall (fun q => ntt_prime (b_degree b) q /\ 2 ^ 61 <= q /\ ~ In q (pa_moduli par)) l.
Proof.
  intros Ho id b par Hb E. destruct (built_all isp cands Ho id b par Hb E) as ((k & Hk & Ek) & _). unfold build in E.
  apply bind_inv in E. destruct E as ([] & E1 & E). apply bind_inv in E. destruct E as (small & E2 & E). apply bind_inv in E. destruct E as (ms & E3 & E). apply bind_inv in E. destruct E as ([] & E4 & E). apply bind_inv in E. destruct E as (plain & E5 & E). apply bind_inv in E. destruct E as (ntt & E6 & E). apply bind_inv in E. destruct E as (cps & E7 & E). apply bind_inv in E. destruct E as (ext & E8 & E). apply bind_inv in E. destruct E as (levels & E9 & E). apply bind_inv in E. destruct E as (index & E10 & E).
  injection E as <-. cbn [pa_t pa_moduli]. assert (Hd : 8 <= b_degree b <= 65536) by (rewrite Ek; change 8 with (2 ^ 3); change 65536 with (2 ^ 16); split; apply Z.pow_le_mono_r; lia). split.
  - apply plaintext_small_val in E2; [|apply Hb]. destruct small as [m|]; [apply modulus_new_inv in E2|]; change (2 ^ 64) with W64; change (2 ^ 62) with W62; lia.
  - destruct (extended_spec isp (proj1 Ho) (b_degree b) Hd ms) as [(ext' & E' & Hl & Hnd & HF)|E']; [|congruence]. exists ext'. split; [lia|]. split; [exact Hnd|]. eapply Forall_impl; [|exact HF]. cbv beta. intros q (P & R & M & I). split; [split; [exact P|split; [lia|exact M]]|]. split; [lia|exact I].
Qed.
Lemma rebuild_other isp cands isp' cands' : oracles isp cands -> oracles isp' cands' -> complete_draws cands' -> forall par, is_params isp cands par -> forall id,
  exists par', build isp' cands' id (mkBuilder (Z.of_nat (pa_degree par)) (pa_t par) (pa_variance par) (pa_moduli par) []) = Val par'.
Proof.
  intros Ho Ho' Hd par (id0 & b & Hb & E) id. destruct (built_all isp cands Ho id0 b par Hb E) as (HK & Ed & (Hv & Ev) & (Ht & Et) & Hne & Hacc & _). destruct (build_ext isp cands Ho id0 b par Hb E) as (Ht' & Hext).
  rewrite Ed, Ev, Et in *. apply (accepts_all isp' cands' Ho' Hd); assumption.
Qed.
Lemma rebuilt_numbers isp cands isp' cands' : oracles isp cands -> oracles isp' cands' -> forall par, is_params isp cands par -> forall id par',
  build isp' cands' id (mkBuilder (Z.of_nat (pa_degree par)) (pa_t par) (pa_variance par) (pa_moduli par) []) = Val par' -> is_params isp' cands' par' /\ same_numbers par par'.
Proof.
  intros Ho Ho' par Hp id par' E. pose proof (params_good isp cands par Ho Hp) as G. pose proof Hp as (id0 & b & Hb & E0). destruct (built_all isp cands Ho id0 b par Hb E0) as ((k & Hk & Ek) & Ed & (Hv & Ev) & (Ht & Et) & Hne & (_ & HF & _) & _).
  assert (Hb' : is_builder (mkBuilder (Z.of_nat (pa_degree par)) (pa_t par) (pa_variance par) (pa_moduli par) [])).
  { split; [|split; [|split; [|split]]]; cbn [b_degree b_plaintext b_variance b_moduli b_sizes]; unfold is_u64.
    - rewrite Ed. destruct Hb as (Hb & _). exact Hb.
    - lia.
    - lia.
    - eapply Forall_impl; [|exact HF]. cbv beta. intros q (P & L & _). apply prime_ge_2 in P. split; [lia|]. eapply Z.lt_trans; [exact L|reflexivity].
    - constructor. }
  split; [eexists id, _; split; [exact Hb'|exact E]|]. destruct (built_all isp' cands' Ho' id _ par' Hb' E) as (_ & Ed' & (_ & Ev') & (_ & Et') & _ & _ & Em' & _). cbn [b_degree b_plaintext b_variance b_moduli b_sizes] in *. specialize (Em' eq_refl).
  split; [apply Nat2Z.inj; congruence|]. split; [congruence|]. split; congruence.
Qed.
Theorem port_params_all : forall isp cands isp' cands', oracles isp cands -> oracles isp' cands' -> complete_draws cands' -> forall par, is_params isp cands par -> fits (params_to_bytes par) ->
  forall id, exists par', params_from_bytes isp' cands' id (params_to_bytes par) = Val par' /\ is_params isp' cands' par' /\ same_numbers par par' /\ params_to_bytes par' = params_to_bytes par.
Proof.
  intros isp cands isp' cands' Ho Ho' Hd par Hp Hl id. destruct (params_proto_back isp cands Ho par Hp 0) as (_ & ((H1 & H2 & H3 & H4) & H5)). pose proof (params_good isp cands par Ho Hp) as G.
  destruct (rebuild_other isp cands isp' cands' Ho Ho' Hd par Hp id) as (par' & E). destruct (rebuilt_numbers isp cands isp' cands' Ho Ho' par Hp id par' E) as (Hp' & Hs). exists par'. split; [|split; [exact Hp'|split; [exact Hs|]]].
  - unfold params_from_bytes, params_to_bytes, decoded. rewrite params_wire_roundtrip; [|split; [exact H1|split; [exact H2|split; [exact H3|exact H4]]]|exact Hl]. cbn [bind]. rewrite <- E.
    destruct (gp_deg _ _ _ G) as (K & HK & Ed & _). pose proof (gp_var _ _ _ G) as Hv. pose proof (gp_t _ _ _ G) as Ht. pose proof (gp_small _ _ _ G) as Hsm.
    assert (Hd' : 0 <= Z.of_nat (pa_degree par) < W32). { rewrite Ed, Nat2Z.inj_pow. change (Z.of_nat 2) with 2. assert (2 ^ Z.of_nat K <= 2 ^ 16) by (apply Z.pow_le_mono_r; lia). assert (0 < 2 ^ Z.of_nat K) by (apply Z.pow_pos_nonneg; lia). change (2 ^ 16) with 65536 in *. lia. }
    destruct (big_back (pa_t par) ltac:(lia)) as (Hb1 & Hb2). unfold params_from_proto, params_to_proto. cbn [pp_degree pp_moduli pp_variance pp_plain]. rewrite (Z.mod_small (Z.of_nat (pa_degree par)) W32), (Z.mod_small (pa_variance par) W32) by lia.
    destruct (pa_small par) as [m|]; cbn [bind]; [|rewrite Hb1; reflexivity]. destruct Hsm as (Hsm & _). rewrite (proj1 (modulus_new_p _ _ Hsm)). reflexivity.
  - destruct Hs as (S1 & S2 & S3 & S4). unfold params_to_bytes, params_to_proto. rewrite <- S1, <- S2, <- S3, <- S4. do 3 f_equal. f_equal. f_equal.
    pose proof (gp_small _ _ _ G) as A. pose proof (gp_small _ _ _ (params_good isp' cands' par' Ho' Hp')) as B. rewrite <- S4 in B.
    destruct (pa_small par) as [m|], (pa_small par') as [m'|].
    + destruct A as (A & _), B as (B & _). congruence.
    + destruct A as (A & _), B as (B & _). apply modulus_new_inv in A. assert (W62 < W64) by reflexivity. lia.
    + destruct A as (A & _), B as (B & _). apply modulus_new_inv in B. assert (W62 < W64) by reflexivity. lia.
    + reflexivity.
Qed.

(** ** Ciphertexts and keys *)
Section Two.
  Context (isp : Z -> bool) (cands : Z -> list Z) (par : params) (isp' : Z -> bool) (cands' : Z -> list Z) (par' : params).
  Lemma same_level : oracles isp cands -> is_params isp cands par -> oracles isp' cands' -> is_params isp' cands' par' -> same_numbers par par' -> forall l, (l <= max_level par)%nat ->
    (l <= max_level par')%nat /\ exists c c', par_context par l = Val c /\ par_context par' l = Val c' /\ ctx_ok c /\ ctx_ok c' /\ c_moduli c = c_moduli c' /\ c_degree c = c_degree c' /\ c_degree c = pa_degree par /\ c_degree c' = pa_degree par'.
  Proof.
    intros Ho Hp Ho' Hp' (S1 & S2 & _ & _) l Hl. assert (Hl' : (l <= max_level par')%nat).
    { destruct Hp as (id & b & Hb & E), Hp' as (id' & b' & Hb' & E'). destruct (built_all isp cands Ho id b par Hb E) as (_ & _ & _ & _ & _ & _ & _ & _ & M & _). destruct (built_all isp' cands' Ho' id' b' par' Hb' E') as (_ & _ & _ & _ & _ & _ & _ & _ & M' & _). rewrite M', <- S2, <- M. exact Hl. }
    split; [exact Hl'|]. destruct (at_level_ex isp cands par l Ho (params_good isp cands par Ho Hp) Hl) as (lv & c & A). destruct (at_level_ex isp' cands' par' l Ho' (params_good isp' cands' par' Ho' Hp') Hl') as (lv' & c' & A').
    exists c, c'. split; [apply (al_par_context isp cands par l lv c A)|]. split; [apply (al_par_context isp' cands' par' l lv' c' A')|]. split; [apply (good_ok _ (al_good _ _ _ _ _ _ A))|]. split; [apply (good_ok _ (al_good _ _ _ _ _ _ A'))|].
    rewrite (al_mod _ _ _ _ _ _ A), (al_mod _ _ _ _ _ _ A'), (al_deg _ _ _ _ _ _ A), (al_deg _ _ _ _ _ _ A'), S1, S2. auto.
  Qed.
  Definition moved (c' : ctx) (xs : list (list Z)) : list (poly Ntt) := map (poly_of Ntt c' false) xs.
  Lemma same_protos c c' (ps : list (poly Ntt)) xs : ctx_ok c -> ctx_ok c' -> c_moduli c = c_moduli c' -> c_degree c = c_degree c' -> Forall2 (fun p x => Val c = Val (p_ctx p) /\ represents p x) ps xs ->
    mapM poly_to_proto ps = mapM poly_to_proto (moved c' xs).
  Proof.
    intros Hc Hc' Em Ed H. induction H as [|p x ps xs (Ec & Hr) H IH]; [reflexivity|]. cbn [moved map mapM]. fold (moved c' xs). injection Ec as Ec. apply (rep_eq p c) in Hr; [|congruence]. destruct Hr as (Lx & E). rewrite E, (same_proto Ntt c c' (p_vt p) false x) by assumption. rewrite IH. reflexivity.
  Qed.
  Lemma moved_is c' xs l : par_context par' l = Val c' -> Forall (fun x => length x = c_degree c') xs -> Forall2 (fun p x => par_context par' l = Val (p_ctx p) /\ represents p x) (moved c' xs) xs.
  Proof. intros Ec H. induction H as [|x xs Lx H IH]; [constructor|]. constructor; [|exact IH]. split; [exact Ec|]. split; [exact Lx|reflexivity]. Qed.
  Lemma removelast_F2 {A B} (P : A -> B -> Prop) l m : Forall2 P l m -> Forall2 P (removelast l) (removelast m).
  Proof. intros H. induction H as [|a b l m Hab H IH]; [constructor|]. cbn [removelast]. destruct H; [constructor|]. constructor; [exact Hab|exact IH]. Qed.
  Lemma with_vt_is l ct xs : is_ct par' l ct xs -> is_ct par' l (with_vt ct) xs.
  Proof.
    intros (E1 & E2 & H). split; [exact E1|]. split; [exact E2|]. cbn [with_vt ct_c]. induction H as [|p x ps xs (Ec & Lx & Ep) H IH]; [constructor|]. cbn [map]. constructor; [|exact IH]. cbn [p_ctx]. split; [exact Ec|]. split; [exact Lx|]. cbn [p_ctx p_vt]. rewrite Ep. reflexivity.
  Qed.

  Theorem port_ct_all : oracles isp cands -> is_params isp cands par -> oracles isp' cands' -> is_params isp' cands' par' -> same_numbers par par' -> serializable par -> forall l, (l <= max_level par)%nat ->
    forall expand ct xs, expands_well expand -> is_ct par l ct xs -> (2 <= length xs)%nat -> ct_seed ct = None ->
    exists b, ct_to_bytes ct = Val b /\ (fits b -> exists ct', ct_from_bytes expand b par' = Val ct' /\ is_ct par' l ct' xs /\ ct_seed ct' = None).
  Proof.
    intros Ho Hp Ho' Hp' Hs Hser l Hl expand ct xs Hx Hct Hlen Es. destruct (same_level Ho Hp Ho' Hp' Hs l Hl) as (Hl' & c & c' & Ec & Ec' & Hc & Hc' & Em & Ed & _).
    destruct Hct as (E1 & E2 & H). rewrite Ec in H.
    assert (HL : Forall (fun x => length x = c_degree c') xs). { clear -H Ed. induction H as [|p x ps xs (E & Lx & _) _ IH]; constructor; [|exact IH]. injection E as E. rewrite <- E, Ed in Lx. exact Lx. }
    set (ct2 := mkCt par' None (moved c' xs) l). assert (H2 : is_ct par' l ct2 xs) by (split; [reflexivity|split; [reflexivity|apply (moved_is c' xs l Ec' HL)]]).
    assert (Hser' : serializable par') by (destruct Hs as (S1 & S2 & _); unfold serializable; rewrite <- S1, <- S2; exact Hser).
    destruct (ct_roundtrip_all isp' cands' par' Ho' Hp' Hser' l Hl' expand ct2 xs Hx H2 Hlen ltac:(intros sd E; discriminate E)) as (m & F1 & F2 & _).
    assert (F : ct_to_proto ct = Val m).
    { rewrite <- F1. unfold ct_to_proto, ct2. cbn [ct_c ct_seed ct_level]. rewrite Es, E2. pose proof (same_protos c c' (ct_c ct) xs Hc Hc' Em Ed H) as EP. inversion H as [K1 K2|p x ps xs' Hpx HF K1 K2]; [rewrite <- K2 in Hlen; cbn [length] in Hlen; lia|]. subst xs. rewrite <- K1 in EP. cbn [moved map] in EP |- *. fold (moved c' xs') in EP |- *. rewrite EP. reflexivity. }
    destruct (ct_bytes_back ct m F) as (b & Eb & Hb). exists b. split; [exact Eb|]. intros Hf. exists (with_vt ct2). split; [exact (Hb Hf expand par' _ F2)|]. split; [apply with_vt_is, H2|reflexivity].
  Qed.
  Theorem port_seeded_all : oracles isp cands -> is_params isp cands par -> oracles isp' cands' -> is_params isp' cands' par' -> same_numbers par par' -> serializable par -> forall l, (l <= max_level par)%nat ->
    forall expand ct xs x sd, expands_well expand -> is_ct par l ct (xs ++ [x]) -> (1 <= length xs)%nat -> ct_seed ct = Some sd -> seed_faithful expand ct ->
    exists b, ct_to_bytes ct = Val b /\ (fits b -> exists ct' y, ct_from_bytes expand b par' = Val ct' /\ is_ct par' l ct' (xs ++ [y]) /\ ct_seed ct' = Some sd /\
      (forall p p', nth_error (ct_c ct) (length xs) = Some p -> nth_error (ct_c ct') (length xs) = Some p' -> p_coeffs p' = p_coeffs p)).
  Proof.
    intros Ho Hp Ho' Hp' Hs Hser l Hl expand ct xs x sd Hx Hct Hlen Es Hf. destruct (same_level Ho Hp Ho' Hp' Hs l Hl) as (Hl' & c & c' & Ec & Ec' & Hc & Hc' & Em & Ed & _ & _).
    destruct Hct as (E1 & E2 & H). rewrite Ec in H. destruct (Hf sd Es) as (Lsd & front & last & c0 & G1 & G2 & G3). rewrite E1, E2, Ec in G2. injection G2 as <-.
    rewrite G1 in H. apply Forall2_app_inv_l in H. destruct H as (l1 & l2 & HF & HL2 & Eapp). inversion HL2 as [|u w us ws Huw Hn]; subst. inversion Hn; subst. apply app_inj_tail in Eapp. destruct Eapp as (<- & <-). clear HL2 Hn.
    assert (HL : Forall (fun x => length x = c_degree c') xs). { clear -HF Ed. induction HF as [|p z ps xs (E & Lx & _) _ IH]; constructor; [|exact IH]. injection E as E. rewrite <- E, Ed in Lx. exact Lx. }
    destruct (P_seed c' Hc' (c_degree c') eq_refl Ntt expand sd Hx) as (a & Ea). pose proof (seed_coeffs expand Ntt c' sd _ Ea) as Ka.
    set (ct2 := mkCt par' (Some sd) (moved c' xs ++ [P Ntt c' false a]) (ct_level ct)).
    assert (H2 : is_ct par' (ct_level ct) ct2 (xs ++ [rl a])). { split; [reflexivity|]. split; [reflexivity|]. cbn [ct2 ct_c]. apply Forall2_app; [apply (moved_is c' xs _ Ec' HL)|]. constructor; [|constructor]. split; [exact Ec'|]. split; [apply rl_length|reflexivity]. }
    assert (Hser' : serializable par') by (destruct Hs as (S1 & S2 & _); unfold serializable; rewrite <- S1, <- S2; exact Hser).
    assert (Hf2 : seed_faithful expand ct2). { intros sd' E. cbn [ct2 ct_seed] in E. injection E as <-. split; [exact Lsd|]. exists (moved c' xs), (P Ntt c' false a), c'. split; [reflexivity|]. split; [exact Ec'|exact Ka]. }
    destruct (ct_roundtrip_all isp' cands' par' Ho' Hp' Hser' _ Hl' expand ct2 (xs ++ [rl a]) Hx H2 ltac:(rewrite app_length; cbn [length]; lia) Hf2) as (m & F1 & F2 & _).
    assert (Lf : length front = length xs) by (apply Forall2_len2 in HF; exact HF).
    assert (F : ct_to_proto ct = Val m).
    { rewrite <- F1. unfold ct_to_proto, ct2. cbn [ct_c ct_seed ct_level]. rewrite Es, G1. pose proof (removelast_last front last) as R1. pose proof (removelast_last (moved c' xs) (P Ntt c' false a)) as R2. pose proof (same_protos c c' front xs Hc Hc' Em Ed HF) as EP.
      destruct front as [|f0 fr]; [cbn [length] in Lf; lia|]. destruct (moved c' xs) as [|g0 gr] eqn:Eg; [apply (f_equal (@length _)) in Eg; unfold moved in Eg; rewrite map_length in Eg; cbn [length] in Eg; lia|]. cbn [app] in *. rewrite R1, R2, EP. reflexivity. }
    destruct (ct_bytes_back ct m F) as (b & Eb & Hb). exists b. split; [exact Eb|]. intros Hfit. exists (with_vt ct2), (rl a). split; [exact (Hb Hfit expand par' _ F2)|]. split; [apply with_vt_is, H2|]. split; [reflexivity|].
    intros p p' Np Np'. rewrite G1, nth_error_app2, Lf, Nat.sub_diag in Np by lia. cbn [nth_error] in Np. injection Np as <-. cbn [with_vt ct2 ct_c] in Np'. rewrite map_app, nth_error_app2 in Np' by (unfold moved; rewrite !map_length; lia). unfold moved in Np'. rewrite !map_length, Nat.sub_diag in Np'. cbn [map nth_error] in Np'. injection Np' as <-.
    cbn [p_coeffs]. rewrite G3, Em, Ed. exact Ka.
  Qed.
  Theorem port_same_roots_all : oracles isp cands -> is_params isp cands par -> oracles isp' cands' -> is_params isp' cands' par' -> same_numbers par par' -> serializable par -> forall l, (l <= max_level par)%nat -> par_context par l = par_context par' l ->
    forall expand ct xs, expands_well expand -> is_ct par l ct xs -> (2 <= length xs)%nat -> seed_faithful expand ct ->
    exists b, ct_to_bytes ct = Val b /\ (fits b -> exists ct', ct_from_bytes expand b par' = Val ct' /\ is_ct par' l ct' xs /\ ct_seed ct' = ct_seed ct).
  Proof.
    intros Ho Hp Ho' Hp' Hs Hser l Hl Esame expand ct xs Hx Hct Hlen Hf. destruct (ct_seed ct) as [sd|] eqn:Es.
    - assert (Hne : xs <> []) by (intros ->; cbn [length] in Hlen; lia). destruct (exists_last Hne) as (ys & x & ->). rewrite app_length in Hlen. cbn [length] in Hlen.
      destruct (port_seeded_all Ho Hp Ho' Hp' Hs Hser l Hl expand ct ys x sd Hx Hct ltac:(lia) Es Hf) as (b & Eb & Hb). exists b. split; [exact Eb|]. intros Hfit. destruct (Hb Hfit) as (ct' & y & E1 & (I1 & I2 & I3) & E3 & E4). exists ct'. split; [exact E1|]. split; [|exact E3]. split; [exact I1|]. split; [exact I2|].
      destruct Hct as (_ & _ & H). apply Forall2_app_inv_r in H. destruct H as (f & g & HF & HG & Ect). inversion HG as [|p w ps ws (Ec & Lx & Ep) Hn]; subst. inversion Hn; subst.
      apply Forall2_app_inv_r in I3. destruct I3 as (f' & g' & HF' & HG' & Ect'). inversion HG' as [|p' w' ps' ws' (Ec' & Ly & Ep') Hn']; subst. inversion Hn'; subst.
      rewrite Ect'. apply Forall2_app; [exact HF'|]. constructor; [|constructor]. split; [exact Ec'|]. rewrite Esame, Ec' in Ec. injection Ec as Ec. split; [rewrite Ec; exact Lx|].
      assert (Kc : p_coeffs p' = p_coeffs p). { apply E4; [rewrite Ect, <- (Forall2_len2 _ _ _ HF)|rewrite Ect', <- (Forall2_len2 _ _ _ HF')]; rewrite nth_error_app2, Nat.sub_diag by lia; reflexivity. }
      assert (K1 : p' = mkPoly (p_ctx p') false (p_vt p') (p_coeffs p') None) by (rewrite Ep'; reflexivity). assert (K2 : p_coeffs p = map (fun op => row Ntt op x) (c_ops (p_ctx p))) by (rewrite Ep; reflexivity).
      rewrite <- Ec in K2. rewrite Kc, K2 in K1. exact K1.
    - exact (port_ct_all Ho Hp Ho' Hp' Hs Hser l Hl expand ct xs Hx Hct Hlen Es).
  Qed.
  Theorem port_sk_all : same_numbers par par' -> forall sk, is_sk par sk -> is_sk par' (key_under par' sk) /\ sk_to_bytes (key_under par' sk) = sk_to_bytes sk /\ (fits (sk_to_bytes sk) -> sk_from_bytes (sk_to_bytes sk) par' = Val (key_under par' sk)).
  Proof.
    intros (S1 & _) sk (_ & Ls & Hi). assert (H : is_sk par' (key_under par' sk)) by (split; [reflexivity|split; [cbn [key_under sk_coeffs]; congruence|exact Hi]]). split; [exact H|]. assert (E : sk_to_bytes (key_under par' sk) = sk_to_bytes sk) by reflexivity. split; [exact E|].
    intros Hf. rewrite <- E in Hf |- *. exact (proj2 (sk_bytes_all par' _ H) Hf).
  Qed.
  Lemma same_modulus : same_numbers par par' -> forall l, level_modulus par l = level_modulus par' l.
  Proof. intros (_ & S2 & _) l. unfold level_modulus. rewrite S2. reflexivity. Qed.
  Theorem port_decrypt_all : oracles isp cands -> is_params isp cands par -> oracles isp' cands' -> is_params isp' cands' par' -> same_numbers par par' -> serializable par -> supported par -> decryptable par -> forall l, (l <= max_level par)%nat ->
    forall expand sk ct m B, expands_well expand -> is_sk par sk -> encrypts par sk l ct m B -> small_noise par l B -> ct_seed ct = None ->
    exists b, ct_to_bytes ct = Val b /\ (fits b -> exists ct', ct_from_bytes expand b par' = Val ct' /\ encrypts par' (key_under par' sk) l ct' m B /\
      exists pt pt', sk_decrypt sk ct = Val pt /\ sk_decrypt (key_under par' sk) ct' = Val pt' /\
        is_pt par l pt (map (fun a => a mod (pa_t par)) m) /\ is_pt par' l pt' (map (fun a => a mod (pa_t par)) m)).
  Proof.
    intros Ho Hp Ho' Hp' Hs Hser Hsup Hdec l Hl expand sk ct m B Hx Hsk Henc Hsm Es. pose proof Henc as (xs & e & Hct & Hlen & Lm & Le & He & Hcong).
    destruct (port_ct_all Ho Hp Ho' Hp' Hs Hser l Hl expand ct xs Hx Hct Hlen Es) as (b & Eb & Hb). exists b. split; [exact Eb|]. intros Hf. destruct (Hb Hf) as (ct' & Ect' & Hct' & _). exists ct'. split; [exact Ect'|].
    pose proof Hs as (S1 & S2 & S3 & S4). pose proof (same_modulus Hs l) as EQ.
    assert (Henc' : encrypts par' (key_under par' sk) l ct' m B). { exists xs, e. rewrite <- S1, <- S4, <- EQ. split; [exact Hct'|]. split; [exact Hlen|]. split; [exact Lm|]. split; [exact Le|]. split; [exact He|exact Hcong]. }
    split; [exact Henc'|]. destruct (same_level Ho Hp Ho' Hp' Hs l Hl) as (Hl' & _). destruct (port_sk_all Hs sk Hsk) as (Hsk' & _).
    destruct (decrypt_all isp cands par Ho Hp l Hl Hsup Hdec sk ct m B Hsk Henc Hsm) as (pt & D1 & D2 & _).
    destruct (decrypt_all isp' cands' par' Ho' Hp' l Hl') with (sk := key_under par' sk) (ct := ct') (m := m) (B := B) as (pt' & D3 & D4 & _); try assumption.
    - unfold supported. rewrite <- S2. exact Hsup.
    - unfold decryptable, decryption_base in *. rewrite (gp_sizes _ _ _ (params_good isp' cands' par' Ho' Hp')). rewrite (gp_sizes _ _ _ (params_good isp cands par Ho Hp)) in Hdec. rewrite <- S4, <- S2. exact Hdec.
    - unfold small_noise. rewrite <- S4, <- EQ. exact Hsm.
    - exists pt, pt'. rewrite <- S4 in D4. auto.
  Qed.
End Two.
