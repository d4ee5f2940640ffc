(** The computations of the example programs. *)
From Coq Require Import Znumtheory.
From Verif Require Import Outcome BasicSpec OutcomeLemmas ZqModel ZqProofs NumTheory NttModel PolySpec PolyRing NttPure NttStages NttProofs CbdModel CbdSpec CbdProofs.
From Verif Require Import TranscodeModel PrimesModel RnsModel RnsSpec RnsProofs RqModel RqSpec RqCtx RqRows RqProofs RingRn RqOps RqIO RqPropLemmas ParamsModel BfvSpec ParamsProofs BuildProofs ParamsPropLemmas PlainModel CipherModel OpsModel SchemeSpec CipherSpec PlainProofs PlainPropLemmas RnPoly CipherProofs EncryptProofs CipherPropLemmas LinearPropLemmas.
From Verif Require Import MulPropLemmas KeysModel KeysSpec KeyPropLemmas EvalSpec EvalPropLemmas RgswSpec RgswPropLemmas CircuitSpec CircuitProofs CircuitPropLemmas PolyEncProofs PirLists ProgramsModel ProgramsSpec.
From Verif Require Import BasicSpec.
Set Default Proof Using "Type".

(** ** Bounds *)
Lemma geometric_mono S S' n : 0 <= S <= S' -> 0 <= geometric S n <= geometric S' n.
Proof.
  intros H. induction n as [|n IH]; cbn [geometric]; [lia|]. assert (0 <= S * geometric S n) by (apply Z.mul_nonneg_nonneg; lia).
  assert (S * geometric S n <= S' * geometric S' n) by (apply Z.mul_le_mono_nonneg; lia). lia.
Qed.
Lemma mul_factor_mono t S S' n : 0 <= t -> 0 <= S <= S' -> 0 <= mul_factor t S n <= mul_factor t S' n.
Proof.
  intros Ht H. destruct (geometric_mono S S' n H) as (H0 & H1). unfold mul_factor. assert (0 <= t * ((2 ^ 44 + 1) * geometric S n)) by (apply Z.mul_nonneg_nonneg; lia).
  split; [apply Z.div_pos; lia|]. apply Z.div_le_mono; [lia|]. apply Z.add_le_mono_r, Z.mul_le_mono_nonneg_l; lia.
Qed.
Lemma mul_noise_mono n t Q S S' n1 n2 B1 B1' B2 B2' : 0 <= t -> 0 < Q -> 0 <= S <= S' -> 0 <= B1 <= B1' -> 0 <= B2 <= B2' -> mul_noise n t Q S n1 n2 B1 B2 <= mul_noise n t Q S' n1 n2 B1' B2'.
Proof.
  intros Ht HQ HS H1 H2. unfold mul_noise. destruct (mul_factor_mono t S S' n1 Ht HS) as (F1 & F2). destruct (mul_factor_mono t S S' n2 Ht HS) as (F3 & F4). destruct (geometric_mono S S' (n1 + n2 - 1) HS) as (G1 & G2).
  assert (A1 : mul_factor t S n1 * (B2 + 1) <= mul_factor t S' n1 * (B2' + 1)) by (apply Z.mul_le_mono_nonneg; lia). assert (A2 : mul_factor t S n2 * (B1 + 1) <= mul_factor t S' n2 * (B1' + 1)) by (apply Z.mul_le_mono_nonneg; lia).
  apply Z.add_le_mono; [apply Z.add_le_mono_r, Z.mul_le_mono_nonneg_l; lia|]. apply Z.div_le_mono; [lia|]. apply Z.add_le_mono.
  - apply Z.mul_le_mono_nonneg_l; [lia|]. apply Z.mul_le_mono_nonneg_l; [lia|]. apply Z.mul_le_mono_nonneg_l; [lia|]. apply Z.mul_le_mono_nonneg; lia.
  - apply Z.mul_le_mono_nonneg_l; [lia|]. apply Z.mul_le_mono_nonneg_l; lia.
Qed.
Lemma mul_noise_nonneg n t Q S n1 n2 B1 B2 : 0 <= t -> 0 < Q -> 0 <= S -> 0 <= B1 -> 0 <= B2 -> 0 <= mul_noise n t Q S n1 n2 B1 B2.
Proof.
  intros Ht HQ HS H1 H2. unfold mul_noise. destruct (mul_factor_mono t S S n1 Ht ltac:(lia)) as (F1 & _). destruct (mul_factor_mono t S S n2 Ht ltac:(lia)) as (F3 & _). destruct (geometric_mono S S (n1 + n2 - 1) ltac:(lia)) as (G1 & _).
  assert (0 <= mul_factor t S n1 * (B2 + 1)) by (apply Z.mul_nonneg_nonneg; lia). assert (0 <= mul_factor t S n2 * (B1 + 1)) by (apply Z.mul_nonneg_nonneg; lia).
  assert (0 <= Z.of_nat n * (mul_factor t S n1 * (B2 + 1) + mul_factor t S n2 * (B1 + 1))) by (apply Z.mul_nonneg_nonneg; lia). assert (0 <= (B1 + 1) * (B2 + 1)) by (apply Z.mul_nonneg_nonneg; lia).
  assert (0 <= Z.of_nat n * (t * ((B1 + 1) * (B2 + 1)))) by (repeat (apply Z.mul_nonneg_nonneg; [lia|]); lia). assert (0 <= Q * ((2 ^ 42 + 1) * geometric S (n1 + n2 - 1))) by (repeat (apply Z.mul_nonneg_nonneg; [lia|]); lia).
  assert (0 <= (2 ^ 43 * (Z.of_nat n * (t * ((B1 + 1) * (B2 + 1)))) + Q * ((2 ^ 42 + 1) * geometric S (n1 + n2 - 1))) / (2 ^ 43 * Q)) by (apply Z.div_pos; lia). lia.
Qed.
Lemma norm1_nonneg' s : 0 <= norm1 s.
Proof. unfold norm1. induction s as [|a s IH]; cbn [fold_right]; lia. Qed.
Lemma norm1_below q v : canonical q v -> norm1 v <= Z.of_nat (length v) * (q - 1).
Proof. unfold norm1. induction 1 as [|a v Ha _ IH]; cbn [fold_right length]; lia. Qed.
Lemma norm1_pad1 n w : 0 <= w -> norm1 (pad n [w]) = w.
Proof. intros H. unfold pad, norm1. cbn [length app fold_right]. enough (E : fold_right (fun a m => Z.abs a + m) 0 (repeat 0 (n - 1)) = 0) by lia. generalize (n - 1)%nat. intros k. induction k as [|k IH]; cbn [repeat fold_right]; lia. Qed.
Lemma pad1_mul n x y : (0 < n)%nat -> negacyclic n (pad n [x]) (pad n [y]) = pad n [x * y].
Proof.
  intros Hn. change (pad n [x]) with (const n x). rewrite negacyclic_const_l; [|exact Hn|unfold pad; cbn [app length]; rewrite repeat_length; lia]. unfold pad. cbn [app length map]. f_equal. generalize (n - 1)%nat. intros k. induction k as [|k IH]; [reflexivity|]. cbn [repeat map]. rewrite IH. f_equal. lia.
Qed.
Lemma pad1_add n x y : zipWith Z.add (pad n [x]) (pad n [y]) = pad n [x + y].
Proof. unfold pad. cbn [length app zipWith]. f_equal. generalize (n - 1)%nat. intros k. induction k as [|k IH]; [reflexivity|]. cbn [repeat zipWith]. rewrite IH. reflexivity. Qed.
Lemma pad1_mod n t x : map (fun a => a mod t) (pad n [x]) = pad n [x mod t].
Proof. unfold pad. cbn [length app map]. f_equal. generalize (n - 1)%nat. intros k. induction k as [|k IH]; [reflexivity|]. cbn [repeat map]. rewrite IH, Zmod_0_l. reflexivity. Qed.

(** ** Vectors of slots *)
Lemma zipWith_map_l {A B C D} (f : B -> C -> D) (g : A -> B) l : forall l', zipWith f (map g l) l' = zipWith (fun a => f (g a)) l l'.
Proof. induction l as [|a l IH]; intros [|b l']; cbn [map zipWith]; [reflexivity..|]. rewrite IH. reflexivity. Qed.
Lemma zipWith_repeat0 (f : Z -> Z -> Z) n : f 0 0 = 0 -> zipWith f (repeat 0 n) (repeat 0 n) = repeat 0 n.
Proof. intros H. induction n as [|n IH]; [reflexivity|]. cbn [repeat zipWith]. rewrite IH, H. reflexivity. Qed.
Lemma sum_zeros n : sum_of (repeat 0 n) = 0.
Proof. unfold sum_of. induction n as [|n IH]; cbn [repeat fold_right]; lia. Qed.
Lemma zipWith_pad_l (f : Z -> Z -> Z) : (forall x, f x 0 = 0) -> forall v n, zipWith f v (repeat 0 n) = repeat 0 (Nat.min (length v) n).
Proof. intros H. induction v as [|a v IH]; intros [|n]; cbn [repeat zipWith length Nat.min]; [reflexivity..|]. rewrite IH, H. reflexivity. Qed.
Lemma zipWith_pad_r (f : Z -> Z -> Z) : (forall x, f 0 x = 0) -> forall v n, zipWith f (repeat 0 n) v = repeat 0 (Nat.min n (length v)).
Proof. intros H v n. revert v. induction n as [|n IH]; intros [|a v]; cbn [repeat zipWith length Nat.min]; [reflexivity..|]. rewrite IH, H. reflexivity. Qed.
Lemma inner_pad t v w : 0 < t -> forall n k, sum_of (zipWith (fun x y => (x * y) mod t) (v ++ repeat 0 n) (w ++ repeat 0 k)) mod t = inner v w mod t.
Proof.
  intros Ht. unfold inner. revert w. induction v as [|x v IH]; intros w n k.
  - cbn [app]. rewrite (zipWith_pad_r (fun x y => (x * y) mod t)) by (intros; apply Zmod_0_l). rewrite sum_zeros. reflexivity.
  - destruct w as [|y w].
    + cbn [app]. rewrite (zipWith_pad_l (fun x y => (x * y) mod t)) by (intros; rewrite Z.mul_0_r; apply Zmod_0_l). rewrite sum_zeros. reflexivity.
    + cbn [app zipWith]. unfold sum_of in *. cbn [fold_right]. rewrite Z.add_mod_idemp_l by lia. rewrite <- Z.add_mod_idemp_r by lia. rewrite IH. apply Z.add_mod_idemp_r. lia.
Qed.

Section Program.
  Context (isp : Z -> bool) (cands : Z -> list Z) (par : params) (Ho : oracles isp cands) (Hp : is_params isp cands par) (HP : program_params par).
  Context (sk : secret_key) (pk : public_key) (HK : key_pair par sk pk).
  Set Default Proof Using "All".
  Notation N := (pa_degree par).
  Notation t := (pa_t par).
  Notation Q := (level_modulus par 0).
  Notation S1 := (norm1 (sk_coeffs sk)).
  Notation E := (encryption_noise par).
  Notation G := (params_good isp cands par Ho Hp).

  Lemma prog_N : (0 < N)%nat.
  Proof. destruct (gp_deg _ _ _ G) as (K & _ & -> & _). apply Nat.neq_0_lt_0, Nat.pow_nonzero. lia. Qed.
  Lemma prog_t : 2 <= t.
  Proof. exact (proj1 (gp_t _ _ _ G)). Qed.
  Lemma prog_Q : 0 < Q.
  Proof. pose proof prog_t. destruct HP as (_ & _ & HtQ & _). lia. Qed.
  Lemma prog_S : 0 <= S1 <= key_norm par.
  Proof. split; [apply norm1_nonneg'|exact (proj1 (proj2 HK))]. Qed.
  Lemma prog_noise : pk_noise par S1 (2 * pa_variance par) <= E.
  Proof. pose proof prog_S. pose proof (gp_var _ _ _ G). unfold encryption_noise, pk_noise. apply Z.add_le_mono_l, Z.mul_le_mono_nonneg_r; lia. Qed.
  Lemma prog_E : 0 <= E.
  Proof. pose proof prog_S. pose proof (gp_var _ _ _ G). unfold encryption_noise, pk_noise. assert (0 <= Z.of_nat N * (2 * pa_variance par) * (2 * pa_variance par)) by (repeat apply Z.mul_nonneg_nonneg; lia). assert (0 <= key_norm par * (2 * pa_variance par)) by (apply Z.mul_nonneg_nonneg; lia). lia. Qed.
  Lemma small_le B B' : B <= B' -> small_noise par 0 B' -> small_noise par 0 B.
  Proof. pose proof prog_t. unfold small_noise. intros Hle Hs. eapply Z.le_trans; [|exact Hs]. apply Z.mul_le_mono_nonneg_l; [lia|]. apply Z.mul_le_mono_nonneg_l; lia. Qed.
  Lemma weaken ct m B B' : B <= B' -> encrypts par sk 0 ct m B -> encrypts par sk 0 ct m B'.
  Proof. intros H (xs & e & H1 & H2 & H3 & H4 & H5 & H6). exists xs, e. do 4 (split; [assumption|]). split; [exact (bounded_weaken _ _ _ H H5)|exact H6]. Qed.
  Lemma ratio_one : level_ratio par 0 0 = 1.
  Proof. unfold level_ratio. rewrite skipn_all. reflexivity. Qed.
  Lemma divided_one S B : divided_noise S 1 B = B.
  Proof. unfold divided_noise. rewrite Z.div_1_r. lia. Qed.
  Lemma switching_eq : switching_noise par = switch_noise par 0 (key_base par 0) (2 * pa_variance par).
  Proof. unfold switching_noise, key_noise. rewrite ratio_one, divided_one. reflexivity. Qed.

  (** *** Encryption *)
  Lemma plain_enc k v : usable par (mkEnc k 0) -> values par v ->
    exists pt m, encode_u64 false v (mkEnc k 0) par = Val pt /\ plain_ok par (mkPlain pt 0 m v) /\ (k = EncPoly -> m = pad N v) /\ (k = EncSimd -> encodes par 0 m v).
  Proof.
    intros Hu (Hv & Lv). destruct HP as (_ & _ & HtQ & H64). pose proof prog_t. destruct k.
    - destruct (encode_poly_all isp cands par Ho Hp 0 (Nat.le_0_l _) HtQ false v Lv Hv) as (pt & E1 & Hpt & _); [eapply Forall_impl; [|exact Hv]; cbv beta; unfold is_u64; intros; lia|].
      exists pt, (pad N v). split; [exact E1|]. split; [|split; [reflexivity|discriminate]]. split; [apply Nat.le_0_l|]. split; [exact Hpt|]. apply Forall_pad; [lia|exact Hv].
    - destruct (fresh_plain_all isp cands par Ho Hp (fun e => Hu eq_refl e) 0 (Nat.le_0_l _) HtQ v Hv Lv) as (pt & m & E1 & Hpt & He). exists pt, m. split; [exact E1|]. split; [exact Hpt|]. split; [discriminate|auto].
  Qed.
  Lemma plain_enc1 x : 0 <= x < t -> exists pt, encode_u64 false [x] (mkEnc EncPoly 0) par = Val pt /\ plain_ok par (mkPlain pt 0 (pad N [x]) []).
  Proof.
    intros Hx. pose proof prog_N. destruct (plain_enc EncPoly [x]) as (pt & m & E1 & H1 & H2 & _); [discriminate|split; [constructor; [exact Hx|constructor]|cbn [length]; lia]|]. rewrite (H2 eq_refl) in H1. exists pt. split; [exact E1|exact H1].
  Qed.
  Lemma pk_fresh pt m s d : plain_ok par (mkPlain pt 0 m s) -> fresh_ok d -> exists ct, pk_encrypt pk pt (f_u d) (f_e1 d) (f_e2 d) = Val ct /\ length (ct_c ct) = 2%nat /\ input_ok par sk (mkInput ct 0 m s E).
  Proof.
    intros Hpt (W0 & W1 & W2). destruct HP as (_ & _ & HtQ & _). destruct HK as (Hsk & _ & Hpk). destruct Hpt as (_ & Hm & Hc). cbn [p_pt p_message p_level] in *.
    destruct (pk_encrypt_all isp cands par Ho Hp 0 0 (Nat.le_0_l _) (Nat.le_0_l _) sk pk _ _ _ _ pt m Hsk Hpk W0 W1 W2 Hm Hc HtQ) as (ct & E1 & _ & L & He). exists ct. split; [exact E1|]. split; [exact L|]. split; [apply Nat.le_0_l|]. cbn [i_level i_ct i_message i_noise].
    refine (weaken _ _ _ _ _ He). exact prog_noise.
  Qed.
  Lemma encrypted1 x d : 0 <= x < t -> fresh_ok d -> exists ct, encrypted par pk EncPoly [x] d = Val ct /\ encrypts2 par sk 0 ct (pad N [x]) E.
  Proof.
    intros Hx Hd. destruct (plain_enc1 x Hx) as (pt & E1 & Hpt). destruct (pk_fresh pt _ _ d Hpt Hd) as (ct & E2 & L & (_ & He)). exists ct. unfold encrypted. rewrite E1. cbn [bind]. split; [exact E2|]. split; [exact L|exact He].
  Qed.
  Lemma encrypted_list vs d : Forall (fun a => 0 <= a < t) vs -> (forall i, fresh_ok (d i)) -> exists cts, encrypted_each par pk vs d = Val cts /\ Forall2 (fun x ct => encrypts2 par sk 0 ct (pad N [x]) E) vs cts.
  Proof.
    intros Hv Hd. unfold encrypted_each. enough (forall k, exists cts, mapM (fun p => encrypted par pk EncPoly [fst p] (d (snd p))) (combine vs (seq k (length vs))) = Val cts /\ Forall2 (fun x ct => encrypts2 par sk 0 ct (pad N [x]) E) vs cts) by auto.
    induction Hv as [|x vs Hx _ IH]; intros k; [exists []; split; [reflexivity|constructor]|]. destruct (IH (S k)) as (cts & E1 & H1). destruct (encrypted1 x (d k) Hx (Hd k)) as (ct & E2 & H2). exists (ct :: cts). cbn [length seq combine mapM fst snd]. rewrite E2. cbn [bind]. rewrite E1. split; [reflexivity|constructor; assumption].
  Qed.

  (** *** Decryption *)
  Lemma decrypted_poly ct m B : encrypts par sk 0 ct m B -> small_noise par 0 B -> decrypted sk EncPoly ct = Val (map (fun a => a mod t) m).
  Proof.
    intros He Hs. pose proof prog_t. destruct HP as (Hsup & Hdec & HtQ & H64). destruct (decrypt_all isp cands par Ho Hp 0 (Nat.le_0_l _) Hsup Hdec sk ct m B (proj1 HK) He Hs) as (pt & E1 & Hpt & En). unfold decrypted. rewrite E1. cbn [bind].
    assert (C : canonical t (map (fun a => a mod t) m)) by (apply Forall_forall; intros a Ha; apply in_map_iff in Ha; destruct Ha as (x & <- & _); apply Z.mod_pos_bound; lia).
    apply (decode_poly_all isp cands par Ho Hp 0 (Nat.le_0_l _) HtQ pt _ Hpt C); [|left; exact En]. eapply Forall_impl; [|exact C]. cbv beta. unfold is_u64. intros. lia.
  Qed.
  Lemma decrypted_poly1 ct x B : encrypts2 par sk 0 ct (pad N [x]) B -> small_noise par 0 B -> exists v, decrypted sk EncPoly ct = Val v /\ get v 0 = Val (x mod t).
  Proof. intros (_ & He) Hs. rewrite (decrypted_poly ct _ B He Hs), pad1_mod. eexists. split; [reflexivity|]. unfold pad. cbn [app get nth_error unwrap]. reflexivity. Qed.
  Lemma circuit_simd V c k B : env_ok isp cands par sk V -> slots_ok par V -> pa_ntt par <> None -> slotwise c = true -> estimate par sk V c = Some (0%nat, k, B) -> small_noise par 0 B ->
    exists ct, run V c = Val ct /\ decrypted sk EncSimd ct = Val (slot_meaning N t V c).
  Proof.
    intros HV Hs Hn Hc He Hsm. destruct HP as (Hsup & Hdec & _). destruct (circuit_slots_all isp cands par Ho Hp Hn Hsup Hdec sk (proj1 HK) V HV Hs c 0%nat k B Hc He Hsm) as (ct & pt & E1 & E2 & E3). exists ct. split; [exact E1|]. unfold decrypted. rewrite E2. cbn [bind]. exact E3.
  Qed.
  Lemma circuit_enc V c k B : env_ok isp cands par sk V -> estimate par sk V c = Some (0%nat, k, B) -> exists ct, run V c = Val ct /\ length (ct_c ct) = k /\ encrypts par sk 0 ct (meaning N V c) B.
  Proof. intros HV He. destruct HP as (Hsup & _). exact (proj2 (circuit_all isp cands par Ho Hp Hsup sk (proj1 HK) V HV c 0%nat k B He)). Qed.

  (** *** Single steps on constants *)
  Lemma add2 a b m1 m2 B1 B2 : encrypts2 par sk 0 a m1 B1 -> encrypts2 par sk 0 b m2 B2 -> exists ct, ct_add a b = Val ct /\ encrypts2 par sk 0 ct (zipWith Z.add m1 m2) (B1 + B2 + 1).
  Proof.
    intros (La & Ha) (Lb & Hb). destruct (circuit_enc (mkEnv [mkInput a 0 m1 [] B1; mkInput b 0 m2 [] B2] [] [] [] [] []) (Add (Input 0) (Input 1)) 2 (B1 + B2 + 1)) as (ct & E1 & L & He).
    - unfold env_ok. cbn [inputs plains rkeys ekeys mkeys gkeys]. split; [|repeat split; constructor]. constructor; [split; [apply Nat.le_0_l|exact Ha]|]. constructor; [split; [apply Nat.le_0_l|exact Hb]|constructor].
    - cbn [estimate with_item nth_error inputs i_level i_ct i_noise with_state]. rewrite La, Lb. reflexivity.
    - cbn [run pick inputs nth_error bind i_ct] in E1. exists ct. split; [exact E1|]. split; [exact L|exact He].
  Qed.
  Lemma mul_plain1 ct x B w pt : encrypts2 par sk 0 ct (pad N [x]) B -> 0 <= B -> 0 <= w < t -> plain_ok par (mkPlain pt 0 (pad N [w]) []) ->
    exists r, ct_mul_pt ct pt = Val r /\ encrypts2 par sk 0 r (pad N [x * w]) (w * (B + 1)).
  Proof.
    intros (La & Ha) HB Hw Hpt. destruct (circuit_enc (mkEnv [mkInput ct 0 (pad N [x]) [] B] [mkPlain pt 0 (pad N [w]) []] [] [] [] []) (MulPlain (Input 0) 0) 2 (norm1 (pad N [w]) * (B + 1))) as (r & E1 & L & He).
    - unfold env_ok. cbn [inputs plains rkeys ekeys mkeys gkeys]. split; [constructor; [split; [apply Nat.le_0_l|exact Ha]|constructor]|]. split; [constructor; [exact Hpt|constructor]|]. repeat split; constructor.
    - cbn [estimate with_item nth_error inputs plains i_level i_ct i_noise with_state p_level p_message]. rewrite La. reflexivity.
    - cbn [run pick inputs plains nth_error bind i_ct p_pt] in E1. exists r. split; [exact E1|]. split; [exact L|]. cbn [meaning of inputs plains nth_error i_message p_message] in He. rewrite (pad1_mul N x w prog_N) in He. rewrite norm1_pad1 in He by lia. exact He.
  Qed.
  Lemma product2 rk a b m1 m2 : relin_key par sk rk -> products_fit par -> encrypts2 par sk 0 a m1 E -> encrypts2 par sk 0 b m2 E ->
    exists r, product rk a b = Val r /\ encrypts2 par sk 0 r (negacyclic N m1 m2) (product_noise par).
  Proof.
    intros (Eb & Hrk) (Hf & Hr) (La & Ha) (Lb & Hb). set (V := mkEnv [mkInput a 0 m1 [] E; mkInput b 0 m2 [] E] [] [mkRkey rk 0 0 (2 * pa_variance par)] [] [] []).
    destruct (circuit_enc V (Relin 0 (Mul (Input 0) (Input 1))) 2 (mul_noise N t Q S1 2 2 E E + switching_noise par)) as (r & E1 & L & He).
    - unfold env_ok, V. cbn [inputs plains rkeys ekeys mkeys gkeys]. split; [constructor; [split; [apply Nat.le_0_l|exact Ha]|constructor; [split; [apply Nat.le_0_l|exact Hb]|constructor]]|]. split; [constructor|]. split; [constructor; [exact Hrk|constructor]|]. repeat split; constructor.
    - cbn [estimate with_item nth_error inputs rkeys i_level i_ct i_noise with_state V r_from r_key r_level r_noise]. rewrite La, Lb. unfold mul_room_b, mul_room in *. rewrite (proj2 (Z.leb_le _ _) Hf), (proj2 (Z.leb_le _ _) Hr). cbn [andb Nat.eqb only_if with_state Nat.add Nat.sub]. rewrite ratio_one, divided_one, Eb, <- switching_eq. reflexivity.
    - cbn [run pick inputs rkeys nth_error bind i_ct V r_key] in E1. exists r. unfold product. split; [exact E1|]. split; [exact L|]. refine (weaken _ _ _ _ _ He). unfold product_noise. apply Z.add_le_mono_r, mul_noise_mono; pose proof prog_t; pose proof prog_Q; pose proof prog_S; pose proof prog_E; lia.
  Qed.

  (** *** Sums of two vectors *)
  Theorem sum_of_two_ok k v1 v2 d1 d2 : usable par (mkEnc k 0) -> values par v1 -> values par v2 -> fresh_ok d1 -> fresh_ok d2 -> small_noise par 0 (2 * E + 1) ->
    sum_of_two par sk pk k v1 v2 d1 d2 = Val (zipWith (fun a b => (a + b) mod t) (pad N v1) (pad N v2)).
  Proof.
    intros Hu H1 H2 D1 D2 Hs. destruct (plain_enc k v1 Hu H1) as (p1 & m1 & E1 & P1 & M1 & S1'). destruct (plain_enc k v2 Hu H2) as (p2 & m2 & E2 & P2 & M2 & S2').
    destruct (pk_fresh p1 _ _ d1 P1 D1) as (c1 & F1 & L1 & I1). destruct (pk_fresh p2 _ _ d2 P2 D2) as (c2 & F2 & L2 & I2). unfold sum_of_two. rewrite E1. cbn [bind]. rewrite E2. cbn [bind]. rewrite F1. cbn [bind]. rewrite F2. cbn [bind].
    destruct k.
    - destruct (add2 c1 c2 m1 m2 E E (conj L1 (proj2 I1)) (conj L2 (proj2 I2))) as (ct & -> & (_ & He)). cbn [bind]. rewrite (decrypted_poly ct _ _ He) by (replace (E + E + 1) with (2 * E + 1) by lia; exact Hs). f_equal. rewrite (M1 eq_refl), (M2 eq_refl). generalize (pad N v1) (pad N v2). clear. induction l as [|a l IH]; intros [|b l']; cbn [zipWith map]; [reflexivity..|]. rewrite IH. reflexivity.
    - destruct (circuit_simd (mkEnv [mkInput c1 0 m1 v1 E; mkInput c2 0 m2 v2 E] [] [] [] [] []) (Add (Input 0) (Input 1)) 2 (E + E + 1)) as (ct & R & Hd).
      + unfold env_ok. cbn [inputs plains rkeys ekeys mkeys gkeys]. split; [constructor; [exact I1|constructor; [exact I2|constructor]]|]. repeat split; constructor.
      + unfold slots_ok. cbn [inputs plains gkeys]. split; [constructor; [exact (S1' eq_refl)|constructor; [exact (S2' eq_refl)|constructor]]|]. split; constructor.
      + exact (fun e => Hu eq_refl e).
      + reflexivity.
      + cbn [estimate with_item nth_error inputs i_level i_ct i_noise with_state]. rewrite L1, L2. reflexivity.
      + replace (E + E + 1) with (2 * E + 1) by lia. exact Hs.
      + cbn [run pick inputs nth_error bind i_ct] in R. rewrite R. cbn [bind]. exact Hd.
  Qed.

  (** *** Weighted sums *)
  Lemma inner_cons x v y w : inner (x :: v) (y :: w) = x * y + inner v w.
  Proof. reflexivity. Qed.
  Lemma weights_fold B vs cts : 0 <= B -> Forall2 (fun x ct => encrypts2 par sk 0 ct (pad N [x]) B) vs cts -> forall ws, Forall (fun a => 0 <= a < t) ws -> forall acc a A, encrypts2 par sk 0 acc (pad N [a]) A ->
    exists r, foldM (fun acc p => w <- encode_u64 false [snd p] (mkEnc EncPoly 0) par ;; c <- ct_mul_pt (fst p) w ;; ct_add acc c) (combine cts ws) acc = Val r /\
      encrypts2 par sk 0 r (pad N [a + inner vs ws]) (A + Z.of_nat (Nat.min (length vs) (length ws)) * ((t - 1) * (B + 1) + 1)).
  Proof.
    intros HB F. induction F as [|x ct vs cts Hc _ IH]; intros ws Hws acc a A Hacc.
    - exists acc. cbn [combine foldM length Nat.min Z.of_nat]. split; [reflexivity|]. unfold inner. cbn [zipWith]. change (sum_of []) with 0. rewrite Z.add_0_r, Z.mul_0_l, Z.add_0_r. exact Hacc.
    - destruct Hws as [|w ws Hw Hws].
      + exists acc. cbn [combine foldM length Nat.min Z.of_nat]. split; [reflexivity|]. unfold inner. cbn [zipWith]. change (sum_of []) with 0. rewrite Z.add_0_r, Z.mul_0_l, Z.add_0_r. exact Hacc.
      + cbn [combine foldM fst snd]. destruct (plain_enc1 w Hw) as (pt & E1 & Hpt). rewrite E1. cbn [bind]. destruct (mul_plain1 ct x B w pt Hc HB Hw Hpt) as (c & E2 & H2). rewrite E2. cbn [bind].
        destruct (add2 acc c _ _ _ _ Hacc H2) as (s & E3 & (L3 & H3)). rewrite E3. cbn [bind]. rewrite pad1_add in H3.
        assert (H3' : encrypts2 par sk 0 s (pad N [a + x * w]) (A + ((t - 1) * (B + 1) + 1))) by (split; [exact L3|]; refine (weaken _ _ _ _ _ H3); assert (w * (B + 1) <= (t - 1) * (B + 1)) by (apply Z.mul_le_mono_nonneg_r; lia); lia).
        destruct (IH ws Hws s _ _ H3') as (r & E4 & H4). exists r. split; [exact E4|]. rewrite inner_cons. cbn [length Nat.min]. replace (a + (x * w + inner vs ws)) with (a + x * w + inner vs ws) by lia.
        replace (A + Z.of_nat (S (Nat.min (length vs) (length ws))) * ((t - 1) * (B + 1) + 1)) with (A + ((t - 1) * (B + 1) + 1) + Z.of_nat (Nat.min (length vs) (length ws)) * ((t - 1) * (B + 1) + 1)) by lia. exact H4.
  Qed.
  Theorem plain_weights_ok vs ws d : Forall (fun a => 0 <= a < t) vs -> Forall (fun a => 0 <= a < t) ws -> vs <> [] -> ws <> [] -> (forall i, fresh_ok (d i)) ->
    small_noise par 0 (plain_weights_noise par (Z.of_nat (Nat.min (length vs) (length ws)))) -> plain_weights par sk pk vs ws d = Val (inner vs ws mod t).
  Proof.
    intros Hv Hw Nv Nw Hd Hs. pose proof prog_E as HE. unfold plain_weights. destruct (encrypted_list vs d Hv Hd) as (cts & E1 & F). rewrite E1. cbn [bind]. unfold weighted_sum_plain. destruct F as [|x ct vs cts Hc F]; [congruence|]. destruct Hw as [|w ws Hw Hws]; [congruence|].
    cbn [combine foldM fst snd]. destruct (plain_enc1 w Hw) as (pt & E2 & Hpt). rewrite E2. cbn [bind]. destruct (mul_plain1 ct x E w pt Hc HE Hw Hpt) as (c & E3 & (L3 & H3)). rewrite E3. cbn [bind].
    assert (Ep : ct_par c = par) by (destruct H3 as (xs & e & Hi & _); exact (proj1 Hi)). rewrite (proj1 (zero_all par c Ep)). cbn [bind].
    assert (H3' : encrypts2 par sk 0 c (pad N [x * w]) ((t - 1) * (E + 1))) by (split; [exact L3|]; refine (weaken _ _ _ _ _ H3); apply Z.mul_le_mono_nonneg_r; lia).
    destruct (weights_fold E vs cts HE F ws Hws c _ _ H3') as (r & E4 & H4). rewrite E4. cbn [bind]. destruct (decrypted_poly1 r _ _ H4) as (v & -> & Eg).
    - unfold plain_weights_noise in Hs. cbn [length Nat.min] in Hs. refine (small_le _ _ _ Hs). lia.
    - cbn [bind]. exact Eg.
  Qed.
  Theorem simd_weights_ok vs ws ek d : values par vs -> values par ws -> sum_key par sk ek -> pa_ntt par <> None -> fresh_ok d -> small_noise par 0 (simd_weights_noise par) ->
    simd_weights par sk pk ek vs ws d = Val (inner vs ws mod t).
  Proof.
    intros Hv Hw (has & Hek & Hsum) Hn Hd Hs. pose proof prog_E as HE. pose proof prog_N as HN. pose proof prog_t as Ht. destruct (plain_enc EncSimd vs (fun _ e => Hn e) Hv) as (p1 & m1 & E1 & P1 & _ & S1'). destruct (plain_enc EncSimd ws (fun _ e => Hn e) Hw) as (p2 & m2 & E2 & P2 & _ & S2').
    destruct (pk_fresh p1 _ _ d P1 Hd) as (c1 & F1 & L1 & I1). unfold simd_weights, encrypted. rewrite E1. cbn [bind]. rewrite F1. cbn [bind]. rewrite E2. cbn [bind]. unfold weighted_sum_simd.
    destruct (circuit_simd (mkEnv [mkInput c1 0 m1 vs E] [mkPlain p2 0 m2 ws] [] [mkEkey ek 0 0 has (2 * pa_variance par)] [] []) (InnerSum 0 (MulPlain (Input 0) 0)) 2 (inner_sum_noise par (norm1 m2 * (E + 1)))) as (ct & R & Hdec).
    - unfold env_ok. cbn [inputs plains rkeys ekeys mkeys gkeys]. split; [constructor; [exact I1|constructor]|]. split; [constructor; [exact P2|constructor]|]. split; [constructor|]. split; [constructor; [exact Hek|constructor]|]. split; constructor.
    - unfold slots_ok. cbn [inputs plains gkeys]. split; [constructor; [exact (S1' eq_refl)|constructor]|]. split; [constructor; [exact (S2' eq_refl)|constructor]|constructor].
    - exact Hn.
    - reflexivity.
    - cbn [estimate with_item nth_error inputs plains ekeys i_level i_ct i_noise with_state p_level p_message e_from e_to e_has e_noise]. rewrite L1. cbn [Nat.eqb only_if with_state andb]. rewrite Hsum. cbn [only_if]. unfold inner_sum_noise, galois_noise. rewrite ratio_one, divided_one, <- switching_eq. reflexivity.
    - refine (small_le _ _ _ Hs). unfold simd_weights_noise, inner_sum_noise. assert (norm1 m2 <= Z.of_nat N * (t - 1)).
      { destruct P2 as (_ & Hpt & Hc). cbn [p_pt p_message p_level] in *. assert (L : length m2 = N) by (destruct (at_level_ex isp cands par 0 Ho G (Nat.le_0_l _)) as (lv & c & A); destruct (pt_P isp cands Ho par G 0 lv c A p2 m2 Hpt) as (x & _ & <-); apply rl_length). rewrite <- L at 1. apply norm1_below. exact Hc. }
      assert (norm1 m2 * (E + 1) <= Z.of_nat N * (t - 1) * (E + 1)) by (apply Z.mul_le_mono_nonneg_r; lia). assert (Z.of_nat N * (norm1 m2 * (E + 1) + 2 + switching_noise par) <= Z.of_nat N * (Z.of_nat N * (t - 1) * (E + 1) + 2 + switching_noise par)) by (apply Z.mul_le_mono_nonneg_l; lia). lia.
    - cbn [run pick inputs plains ekeys nth_error bind i_ct p_pt e_key] in R. destruct (ct_mul_pt c1 p2) as [tmp| |]; try discriminate R. cbn [bind] in *. rewrite R. cbn [bind]. rewrite Hdec. cbn [bind slot_meaning of inputs plains nth_error i_slots p_slots].
      unfold pad. rewrite inner_pad by lia. destruct N as [|n]; [lia|]. reflexivity.
  Qed.

  (** *** Inner products *)
  Lemma products_fold rk vs cs : relin_key par sk rk -> products_fit par -> Forall2 (fun x ct => encrypts2 par sk 0 ct (pad N [x]) E) vs cs -> forall ws ds, Forall2 (fun x ct => encrypts2 par sk 0 ct (pad N [x]) E) ws ds -> forall acc a A, encrypts2 par sk 0 acc (pad N [a]) A ->
    exists r, foldM (fun acc p => c <- product rk (fst p) (snd p) ;; ct_add acc c) (combine cs ds) acc = Val r /\
      encrypts2 par sk 0 r (pad N [a + inner vs ws]) (A + Z.of_nat (Nat.min (length vs) (length ws)) * (product_noise par + 1)).
  Proof.
    intros Hrk Hf F. induction F as [|x c vs cs Hc _ IH]; intros ws ds F2 acc a A Hacc.
    - exists acc. cbn [combine foldM length Nat.min Z.of_nat]. split; [reflexivity|]. unfold inner. cbn [zipWith]. change (sum_of []) with 0. rewrite Z.add_0_r, Z.mul_0_l, Z.add_0_r. exact Hacc.
    - destruct F2 as [|w d ws ds Hd F2].
      + exists acc. cbn [combine foldM length Nat.min Z.of_nat]. split; [reflexivity|]. unfold inner. cbn [zipWith]. change (sum_of []) with 0. rewrite Z.add_0_r, Z.mul_0_l, Z.add_0_r. exact Hacc.
      + cbn [combine foldM fst snd]. destruct (product2 rk c d _ _ Hrk Hf Hc Hd) as (p & E2 & H2). rewrite (pad1_mul N x w prog_N) in H2. rewrite E2. cbn [bind].
        destruct (add2 acc p _ _ _ _ Hacc H2) as (s & E3 & H3). rewrite E3. cbn [bind]. rewrite pad1_add in H3.
        destruct (IH ws ds F2 s _ _ H3) as (r & E4 & H4). exists r. split; [exact E4|]. rewrite inner_cons. cbn [length Nat.min]. replace (a + (x * w + inner vs ws)) with (a + x * w + inner vs ws) by lia.
        replace (A + Z.of_nat (S (Nat.min (length vs) (length ws))) * (product_noise par + 1)) with (A + product_noise par + 1 + Z.of_nat (Nat.min (length vs) (length ws)) * (product_noise par + 1)) by lia. exact H4.
  Qed.
  Theorem plain_inner_product_ok vs ws rk d1 d2 : Forall (fun a => 0 <= a < t) vs -> Forall (fun a => 0 <= a < t) ws -> vs <> [] -> ws <> [] -> relin_key par sk rk -> products_fit par -> (forall i, fresh_ok (d1 i)) -> (forall i, fresh_ok (d2 i)) ->
    small_noise par 0 (plain_product_noise par (Z.of_nat (Nat.min (length vs) (length ws)))) -> plain_inner_product par sk pk rk vs ws d1 d2 = Val (inner vs ws mod t).
  Proof.
    intros Hv Hw Nv Nw Hrk Hf D1 D2 Hs. unfold plain_inner_product. destruct (encrypted_list vs d1 Hv D1) as (cs & E1 & F). rewrite E1. cbn [bind]. destruct (encrypted_list ws d2 Hw D2) as (ds & E2 & F2). rewrite E2. cbn [bind].
    destruct F as [|x c vs cs Hc F]; [congruence|]. destruct F2 as [|w d ws ds Hd F2]; [congruence|]. cbn [combine foldM fst snd].
    destruct (product2 rk c d _ _ Hrk Hf Hc Hd) as (p & E3 & (L3 & H3)). rewrite (pad1_mul N x w prog_N) in H3. rewrite E3. cbn [bind].
    assert (Ep : ct_par p = par) by (destruct H3 as (xs & e & Hi & _); exact (proj1 Hi)). rewrite (proj1 (zero_all par p Ep)). cbn [bind].
    destruct (products_fold rk vs cs Hrk Hf F ws ds F2 p _ _ (conj L3 H3)) as (r & E4 & H4). rewrite E4. cbn [bind]. destruct (decrypted_poly1 r _ _ H4) as (v & -> & Eg).
    - unfold plain_product_noise in Hs. cbn [length Nat.min] in Hs. refine (small_le _ _ _ Hs). lia.
    - cbn [bind]. exact Eg.
  Qed.
  Lemma plain_norm pt m s : plain_ok par (mkPlain pt 0 m s) -> norm1 m <= Z.of_nat N * (t - 1).
  Proof.
    intros (_ & Hpt & Hc). cbn [p_pt p_message p_level] in *. assert (L : length m = N) by (destruct (at_level_ex isp cands par 0 Ho G (Nat.le_0_l _)) as (lv & c & A); destruct (pt_P isp cands Ho par G 0 lv c A pt m Hpt) as (x & _ & <-); apply rl_length).
    rewrite <- L. apply norm1_below. exact Hc.
  Qed.
  Lemma product_le : mul_noise N t Q S1 2 2 E E + switching_noise par <= product_noise par.
  Proof. unfold product_noise. apply Z.add_le_mono_r, mul_noise_mono; pose proof prog_t; pose proof prog_Q; pose proof prog_S; pose proof prog_E; lia. Qed.
  Theorem simd_inner_product_ok vs ws ek rk d1 d2 : values par vs -> values par ws -> sum_key par sk ek -> relin_key par sk rk -> products_fit par -> pa_ntt par <> None -> fresh_ok d1 -> fresh_ok d2 -> small_noise par 0 (simd_product_noise par) ->
    simd_inner_product par sk pk ek rk vs ws d1 d2 = Val (inner vs ws mod t).
  Proof.
    intros Hv Hw (has & Hek & Hsum) (Eb & Hrk) (Hf & Hr) Hn D1 D2 Hs. pose proof prog_N as HN. pose proof prog_t as Ht. destruct (plain_enc EncSimd vs (fun _ e => Hn e) Hv) as (p1 & m1 & E1 & P1 & _ & S1'). destruct (plain_enc EncSimd ws (fun _ e => Hn e) Hw) as (p2 & m2 & E2 & P2 & _ & S2').
    destruct (pk_fresh p1 _ _ d1 P1 D1) as (c1 & F1 & L1 & I1). destruct (pk_fresh p2 _ _ d2 P2 D2) as (c2 & F2 & L2 & I2). unfold simd_inner_product. rewrite E1. cbn [bind]. rewrite E2. cbn [bind]. rewrite F1. cbn [bind]. rewrite F2. cbn [bind].
    destruct (circuit_simd (mkEnv [mkInput c1 0 m1 vs E; mkInput c2 0 m2 ws E] [] [mkRkey rk 0 0 (2 * pa_variance par)] [mkEkey ek 0 0 has (2 * pa_variance par)] [] []) (InnerSum 0 (Relin 0 (Mul (Input 0) (Input 1)))) 2 (inner_sum_noise par (mul_noise N t Q S1 2 2 E E + switching_noise par))) as (ct & R & Hdec).
    - unfold env_ok. cbn [inputs plains rkeys ekeys mkeys gkeys]. split; [constructor; [exact I1|constructor; [exact I2|constructor]]|]. split; [constructor|]. split; [constructor; [exact Hrk|constructor]|]. split; [constructor; [exact Hek|constructor]|]. split; constructor.
    - unfold slots_ok. cbn [inputs plains gkeys]. split; [constructor; [exact (S1' eq_refl)|constructor; [exact (S2' eq_refl)|constructor]]|]. split; constructor.
    - exact Hn.
    - reflexivity.
    - cbn [estimate with_item nth_error inputs plains rkeys ekeys i_level i_ct i_noise with_state r_from r_level r_key r_noise e_from e_to e_has e_noise]. rewrite L1, L2. unfold mul_room_b, mul_room in *. rewrite (proj2 (Z.leb_le _ _) Hf), (proj2 (Z.leb_le _ _) Hr). cbn [andb Nat.eqb only_if with_state Nat.add Nat.sub]. rewrite Hsum. cbn [only_if].
      unfold inner_sum_noise, galois_noise. rewrite ratio_one, !divided_one, Eb, <- switching_eq. reflexivity.
    - refine (small_le _ _ _ Hs). unfold simd_product_noise, inner_sum_noise. pose proof product_le as H. assert (Z.of_nat N * (mul_noise N t Q S1 2 2 E E + switching_noise par + 2 + switching_noise par) <= Z.of_nat N * (product_noise par + 2 + switching_noise par)) by (apply Z.mul_le_mono_nonneg_l; lia). lia.
    - cbn [run pick inputs plains rkeys ekeys nth_error bind i_ct p_pt e_key r_key] in R. unfold product. destruct (ct_mul c1 c2) as [c| |]; try discriminate R. cbn [bind] in *. destruct (relinearizes rk c) as [c'| |]; try discriminate R. cbn [bind] in *. rewrite R. cbn [bind]. rewrite Hdec. cbn [bind slot_meaning of inputs plains nth_error i_slots p_slots].
      unfold pad. rewrite inner_pad by lia. destruct N as [|n]; [lia|]. reflexivity.
  Qed.

  (** *** The polynomial *)
  Lemma switching_nonneg : 0 <= switching_noise par.
  Proof.
    rewrite switching_eq. unfold switch_noise. pose proof (gp_var _ _ _ G). apply Z.mul_nonneg_nonneg; [lia|]. assert (F : Forall (fun q => 1 < q) (level_moduli (pa_moduli par) 0)).
    { unfold level_moduli. rewrite Nat.sub_0_r, firstn_all. eapply Forall_impl; [|exact (gp_friendly _ _ _ G)]. intros q (Hq & _). pose proof (prime_ge_2 q Hq). lia. }
    unfold largest_digits. destruct (Z.eqb_spec (key_base par 0) 0) as [_|Hne].
    - apply sum_of_nonneg. apply Forall_forall. intros x Hx. apply in_map_iff in Hx. destruct Hx as (q & <- & Hq). apply (proj1 (Forall_forall _ _) F) in Hq. lia.
    - assert (Hb : 0 < key_base par 0). { unfold key_base in *. destruct (level_moduli (pa_moduli par) 0) as [|q [|? ?]]; [lia| |lia]. pose proof (Z.log2_up_nonneg q). pose proof (Z.div_pos (Z.log2_up q) 2 ltac:(lia) ltac:(lia)). lia. }
      apply Z.mul_nonneg_nonneg; [|pose proof (Z.pow_pos_nonneg 2 (key_base par 0) ltac:(lia) ltac:(lia)); lia]. unfold digit_count. pose proof (Z.log2_up_nonneg (hd 0 (level_moduli (pa_moduli par) 0))). apply Z.div_pos; lia.
  Qed.
  Lemma product_nonneg : 0 <= product_noise par.
  Proof. unfold product_noise. pose proof switching_nonneg. pose proof prog_t. pose proof prog_Q. pose proof prog_S. pose proof prog_E. apply Z.add_nonneg_nonneg; [apply mul_noise_nonneg; lia|lia]. Qed.
  Lemma polynomial_slots x : 0 < t -> Forall (fun a => 0 <= a < t) x -> forall n,
    zipWith (fun a b => (a + b) mod t)
      (zipWith (fun a b => (a + b) mod t)
        (zipWith (fun a b => (a * b) mod t) (zipWith (fun a b => (a * b) mod t) (x ++ repeat 0 n) (x ++ repeat 0 n)) (repeat 3 (length x) ++ repeat 0 n))
        (zipWith (fun a b => (a * b) mod t) (x ++ repeat 0 n) (repeat 2 (length x) ++ repeat 0 n)))
      (repeat 1 (length x) ++ repeat 0 n) = map (fun a => polynomial_at a mod t) x ++ repeat 0 n.
  Proof.
    intros Ht Hx n. induction Hx as [|a x Ha _ IH].
    - cbn [app length repeat map]. rewrite !zipWith_repeat0 by reflexivity. reflexivity.
    - cbn [app length repeat map zipWith]. rewrite IH. f_equal. unfold polynomial_at. rewrite Z.mul_mod_idemp_l by lia. rewrite <- Z.add_mod by lia. rewrite Z.add_mod_idemp_l by lia. f_equal. ring.
  Qed.
  Definition polynomial_circuit : circuit := AddPlain (Add (MulPlain (Relin 0 (Mul (Input 0) (Input 0))) 0) (MulPlain (Input 0) 1)) 2.
  Lemma simd_polynomial_steps x rk d : values par x -> 3 < t -> relin_key par sk rk -> products_fit par -> pa_ntt par <> None -> fresh_ok d ->
    exists V B, env_ok isp cands par sk V /\ slots_ok par V /\ estimate par sk V polynomial_circuit = Some (0%nat, 2%nat, B) /\ B <= polynomial_noise par (Z.of_nat N * (t - 1)) /\
      slot_meaning N t V polynomial_circuit = pad N (map (fun a => polynomial_at a mod t) x) /\ forall r, run V polynomial_circuit = Val r -> polynomial par sk pk rk EncSimd x d = decrypted sk EncSimd r.
  Proof.
    intros Hx H3 (Eb & Hrk) (Hf & Hr) Hn D. pose proof prog_E as HE. destruct HP as (_ & _ & HtQ & _). assert (Hc : forall a, 0 <= a < t -> values par (repeat a (length x))) by (intros a Ha; split; [apply Forall_forall; intros b Hb; apply repeat_spec in Hb; subst b; exact Ha|rewrite repeat_length; exact (proj2 Hx)]).
    pose proof (plain_enc EncSimd x (fun _ e => Hn e) Hx) as (p1 & m1 & E1 & P1 & _ & S1'). pose proof (plain_enc EncSimd _ (fun _ e => Hn e) (Hc 3 ltac:(lia))) as (q3 & n3 & F3 & P3 & _ & S3). pose proof (plain_enc EncSimd _ (fun _ e => Hn e) (Hc 2 ltac:(lia))) as (q2 & n2 & F2 & P2 & _ & S2). pose proof (plain_enc EncSimd _ (fun _ e => Hn e) (Hc 1 ltac:(lia))) as (q1 & n1 & F1 & Q1 & _ & T1).
    destruct (pk_fresh p1 _ _ d P1 D) as (c1 & Ec & L1 & I1).
    exists (mkEnv [mkInput c1 0 m1 x E] [mkPlain q3 0 n3 (repeat 3 (length x)); mkPlain q2 0 n2 (repeat 2 (length x)); mkPlain q1 0 n1 (repeat 1 (length x))] [mkRkey rk 0 0 (2 * pa_variance par)] [] [] []).
    exists (norm1 n3 * (mul_noise N t Q S1 2 2 E E + switching_noise par + 1) + norm1 n2 * (E + 1) + 1 + 1). unfold polynomial_circuit. split; [|split; [|split; [|split; [|split]]]].
    - unfold env_ok. cbn [inputs plains rkeys ekeys mkeys gkeys]. split; [constructor; [exact I1|constructor]|]. split; [constructor; [exact P3|constructor; [exact P2|constructor; [exact Q1|constructor]]]|]. split; [constructor; [exact Hrk|constructor]|]. repeat split; constructor.
    - unfold slots_ok. cbn [inputs plains gkeys]. split; [constructor; [exact (S1' eq_refl)|constructor]|]. split; [constructor; [exact (S3 eq_refl)|constructor; [exact (S2 eq_refl)|constructor; [exact (T1 eq_refl)|constructor]]]|constructor].
    - cbn [estimate with_item nth_error inputs plains rkeys ekeys i_level i_ct i_noise with_state r_from r_level r_key r_noise p_level p_message]. rewrite L1. unfold mul_room_b, mul_room in *. rewrite (proj2 (Z.leb_le _ _) Hf), (proj2 (Z.leb_le _ _) Hr). cbn [andb Nat.eqb only_if with_state Nat.add Nat.sub]. rewrite (proj2 (Z.leb_le _ _) HtQ). cbn [only_if].
      rewrite ratio_one, !divided_one, Eb, <- switching_eq. reflexivity.
    - unfold polynomial_noise. pose proof product_le as H. pose proof (plain_norm _ _ _ P3) as B3. pose proof (plain_norm _ _ _ P2) as B2. pose proof (norm1_nonneg' n3). pose proof (norm1_nonneg' n2).
      pose proof switching_nonneg as Hsw.
      pose proof (mul_noise_nonneg N t Q S1 2 2 E E ltac:(lia) prog_Q ltac:(apply norm1_nonneg') HE HE).
      assert (norm1 n3 * (mul_noise N t Q S1 2 2 E E + switching_noise par + 1) <= Z.of_nat N * (t - 1) * (product_noise par + 1)) by (apply Z.mul_le_mono_nonneg; lia). assert (norm1 n2 * (E + 1) <= Z.of_nat N * (t - 1) * (E + 1)) by (apply Z.mul_le_mono_nonneg_r; lia). lia.
    - cbn [slot_meaning of inputs plains nth_error i_slots p_slots]. unfold pad. rewrite !repeat_length, map_length. apply polynomial_slots; [lia|exact (proj1 Hx)].
    - intros r R. unfold polynomial, encrypted. rewrite E1. cbn [bind]. rewrite Ec. cbn [bind]. cbn [run pick inputs plains rkeys nth_error bind i_ct p_pt r_key] in R. unfold product. destruct (ct_mul c1 c1) as [c| |]; try discriminate R. cbn [bind] in *. destruct (relinearizes rk c) as [c'| |]; try discriminate R. cbn [bind] in *. rewrite F3. cbn [bind]. rewrite F2. cbn [bind]. rewrite F1. cbn [bind].
      destruct (ct_mul_pt c' q3) as [r3| |]; try discriminate R. cbn [bind] in *. destruct (ct_mul_pt c1 q2) as [r2| |]; try discriminate R. cbn [bind] in *. destruct (ct_add r3 r2) as [r'| |]; try discriminate R. cbn [bind] in *. rewrite R. reflexivity.
  Qed.
  Theorem simd_polynomial_ok x rk d : values par x -> 3 < t -> relin_key par sk rk -> products_fit par -> pa_ntt par <> None -> fresh_ok d -> small_noise par 0 (polynomial_noise par (Z.of_nat N * (t - 1))) ->
    polynomial par sk pk rk EncSimd x d = Val (pad N (map (fun a => polynomial_at a mod t) x)).
  Proof.
    intros Hx H3 Hrk Hf Hn D Hs. destruct (simd_polynomial_steps x rk d Hx H3 Hrk Hf Hn D) as (V & B & HV & HS & He & HB & Hm & Hr). destruct (circuit_simd V polynomial_circuit 2 B HV HS Hn eq_refl He (small_le _ _ HB Hs)) as (ct & R & Hdec).
    rewrite (Hr ct R), Hdec, Hm. reflexivity.
  Qed.
  Lemma simd_polynomial_run x rk d : values par x -> 3 < t -> relin_key par sk rk -> products_fit par -> pa_ntt par <> None -> fresh_ok d ->
    exists ct m B, encrypts2 par sk 0 ct m B /\ polynomial par sk pk rk EncSimd x d = decrypted sk EncSimd ct.
  Proof.
    intros Hx H3 Hrk Hf Hn D. destruct (simd_polynomial_steps x rk d Hx H3 Hrk Hf Hn D) as (V & B & HV & _ & He & _ & _ & Hr). destruct (circuit_enc V polynomial_circuit 2 B HV He) as (ct & R & L & Hc). exists ct, (meaning N V polynomial_circuit), B. split; [split; [exact L|exact Hc]|exact (Hr ct R)].
  Qed.
  Lemma add_plain1 ct x B w pt : encrypts2 par sk 0 ct (pad N [x]) B -> 0 <= w < t -> plain_ok par (mkPlain pt 0 (pad N [w]) []) -> exists r, ct_add_pt ct pt = Val r /\ encrypts2 par sk 0 r (pad N [x + w]) (B + 1).
  Proof.
    intros (La & Ha) Hw Hpt. destruct HP as (_ & _ & HtQ & _). pose proof (circuit_enc (mkEnv [mkInput ct 0 (pad N [x]) [] B] [mkPlain pt 0 (pad N [w]) []] [] [] [] []) (AddPlain (Input 0) 0) 2 (B + 1)) as (r & E1 & L & He).
    - unfold env_ok. cbn [inputs plains rkeys ekeys mkeys gkeys]. split; [constructor; [split; [apply Nat.le_0_l|exact Ha]|constructor]|]. split; [constructor; [exact Hpt|constructor]|]. repeat split; constructor.
    - cbn [estimate with_item nth_error inputs plains i_level i_ct i_noise with_state p_level p_message]. rewrite La, (proj2 (Z.leb_le _ _) HtQ). reflexivity.
    - cbn [run pick inputs plains nth_error bind i_ct p_pt] in E1. exists r. split; [exact E1|]. split; [exact L|]. cbn [meaning of inputs plains nth_error i_message p_message] in He. rewrite pad1_add in He. exact He.
  Qed.
  Theorem plain_polynomial_ok x rk d : 0 <= x < t -> 3 < t -> relin_key par sk rk -> products_fit par -> fresh_ok d -> small_noise par 0 (polynomial_noise par 3) ->
    polynomial par sk pk rk EncPoly [x] d = Val (pad N [polynomial_at x mod t]).
  Proof.
    intros Hx H3 Hrk Hf D Hs. pose proof prog_E as HE. pose proof (encrypted1 x d Hx D) as (c & E1 & H1). unfold polynomial. rewrite E1. cbn [bind]. pose proof (product2 rk c c _ _ Hrk Hf H1 H1) as (c2 & E2 & H2). rewrite (pad1_mul N x x prog_N) in H2. rewrite E2. cbn [bind length repeat].
    pose proof (plain_enc1 3 ltac:(lia)) as (q3 & F3 & P3). pose proof (plain_enc1 2 ltac:(lia)) as (q2 & F2 & P2). pose proof (plain_enc1 1 ltac:(lia)) as (q1 & F1 & P1). rewrite F3. cbn [bind]. rewrite F2. cbn [bind]. rewrite F1. cbn [bind].
    pose proof product_nonneg as HPn.
    pose proof (mul_plain1 c2 _ _ 3 q3 H2 HPn ltac:(lia) P3) as (r3 & G3 & I3). rewrite G3. cbn [bind]. pose proof (mul_plain1 c _ _ 2 q2 H1 HE ltac:(lia) P2) as (r2 & G2 & I2). rewrite G2. cbn [bind].
    pose proof (add2 r3 r2 _ _ _ _ I3 I2) as (r & G4 & I4). rewrite pad1_add in I4. rewrite G4. cbn [bind]. pose proof (add_plain1 r _ _ 1 q1 I4 ltac:(lia) P1) as (r' & G5 & (_ & I5)). rewrite G5. cbn [bind].
    rewrite (decrypted_poly r' _ _ I5), pad1_mod; [do 2 f_equal; f_equal; unfold polynomial_at; f_equal; ring|]. refine (small_le _ _ _ Hs). unfold polynomial_noise. lia.
  Qed.
End Program.
