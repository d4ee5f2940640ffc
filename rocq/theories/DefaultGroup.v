(** The default parameters in groups: decryption there works modulo more of the moduli. *)
From Verif Require Import Outcome BasicSpec OutcomeLemmas ZqModel ZqProofs NumTheory PrimesModel PrimesProofs PrimeCert NttModel PolySpec PolyRing NttPure NttStages NttProofs CbdModel CbdSpec CbdProofs.
From Verif Require Import TranscodeModel RnsModel RnsSpec RnsProofs RqModel RqSpec RqCtx RqRows RqProofs RingRn RqOps RqIO RqPropLemmas ParamsModel BfvSpec ParamsProofs BuildProofs ParamsPropLemmas PlainModel CipherModel SchemeSpec CipherSpec PlainProofs PlainPropLemmas RnPoly CipherProofs EncryptProofs CipherPropLemmas DefaultModel DefaultSpec DefaultCerts DefaultPropLemmas OpsModel KeysModel KeysSpec EvalSpec MbfvModel MbfvSpec MbfvProofs MbfvPropLemmas.
From Coq Require Import Znumtheory.
Set Default Proof Using "Type".

Lemma sum_one par sk : is_sk par sk -> sum_sks par [sk] = sk.
Proof.
  intros (<- & L & _). destruct sk as [p s]. cbn [sk_par sk_coeffs] in *. unfold sum_sks. cbn [map fold_right sk_coeffs]. f_equal. rewrite <- L. clear. induction s as [|a s IH]; [reflexivity|]. cbn [length repeat zipWith]. rewrite IH, Z.add_0_r. reflexivity.
Qed.
Lemma two_moduli row : In row default_rows -> (1 < length (snd row))%nat -> 2 ^ 60 * (2 * 2 ^ 62 * 41) <= (2 ^ 60 - 1) * prod_list (snd row).
Proof. intros Hi Hl. cbn [default_rows In] in Hi. repeat (destruct Hi as [<-|Hi]; [cbn [fst snd length] in *; first [lia|vm_compute; discriminate]|]). destruct Hi. Qed.
Lemma default_group_all : forall isp cands, oracles isp cands -> forall nb row par, In row default_rows -> default_params isp cands nb row par ->
  forall l ps ct m B, (l <= max_level par)%nat -> ps <> [] -> Forall (fun p => is_sk par (fst p) /\ words (snd p)) ps -> 0 <= B ->
  encrypts2 par (sum_sks par (map fst ps)) l ct m B -> small_noise par l (B + group_noise par (length ps)) ->
  exists pt, dec_protocol ps ct = Val pt /\ is_pt par l pt (map (fun a => a mod pa_t par) m).
Proof.
  intros isp cands Ho nb row par Hi Hd l ps ct m B Hl Hne H HB He Hn. pose proof (proj1 Hd) as Hp. pose proof (params_good isp cands par Ho Hp) as G. pose proof (gp_t _ _ _ G) as Ht. pose proof (gp_var _ _ _ G) as Hv.
  assert (H62 : pa_t par < 2 ^ 62) by (destruct Hd as (_ & _ & _ & _ & _ & H62 & _); exact H62).
  assert (HQ : 2 * pa_t par <= level_modulus par l).
  { unfold small_noise in Hn. assert (0 <= group_noise par (length ps)) by (unfold group_noise; nia). assert (2 * pa_t par * 1 <= 2 * pa_t par * (B + group_noise par (length ps) + 1)) by (apply Z.mul_le_mono_nonneg_l; lia). lia. }
  assert (HQ0 : level_modulus par l <= level_modulus par 0).
  { destruct (at_level_ex isp cands par l Ho G Hl) as (lv & c & A). pose proof (moduli_range isp cands Ho par G l lv c A) as HR. unfold level_modulus, level_moduli. rewrite Nat.sub_0_r, firstn_all. set (k := (length (pa_moduli par) - l)%nat). assert (E : prod_list (pa_moduli par) = prod_list (firstn k (pa_moduli par)) * prod_list (skipn k (pa_moduli par))) by (rewrite <- prod_list_app, firstn_skipn; reflexivity). rewrite E.
    rewrite <- (firstn_skipn k (pa_moduli par)) in HR. apply Forall_app in HR. destruct HR as (HR1 & HR2). pose proof (prod_list_pos _ HR1) as P1. pose proof (prod_list_pos _ HR2) as P2. set (a := prod_list (firstn _ _)) in *. set (b := prod_list (skipn _ _)) in *. rewrite <- (Z.mul_1_r a) at 1. apply Z.mul_le_mono_nonneg_l; lia. }
  assert (Hg : group_decryptable par) by (apply (group_room_all isp cands par Ho Hp); [apply Z.lt_trans with (2 ^ 62); [exact H62|reflexivity]|lia]).
  destruct (group_dec_all isp cands par Ho Hp l Hl (default_supported _ _ _ _ _ Hi Hd) Hg ps ct m B Hne H He Hn) as (pt & E & Hpt & _). exists pt. split; assumption.
Qed.
Lemma default_group_roundtrip_all : forall isp cands, oracles isp cands -> forall nb row par, In row default_rows -> default_params isp cands nb row par -> (1 < length (snd row))%nat ->
  forall expand sk sd rng rng' pt m, expands_well expand -> words rng -> words rng' -> is_sk par sk -> is_pt par 0 pt m -> canonical (pa_t par) m ->
  exists ct pt', sk_encrypt expand sk pt sd rng = Val ct /\ dec_protocol [(sk, rng')] ct = Val pt' /\ is_pt par 0 pt' m.
Proof.
  intros isp cands Ho nb row par Hi Hd Hlen expand sk sd rng rng' pt m Hx Hw Hw' Hsk Hpt Hm. destruct (default_level0 _ _ _ _ _ Hd) as (EQ & HtQ). pose proof (proj1 Hd) as Hp.
  assert (H62 : pa_t par < 2 ^ 62) by (destruct Hd as (_ & _ & _ & _ & _ & H62 & _); exact H62).
  destruct (sk_encrypt_all isp cands par Ho Hp 0%nat (Nat.le_0_l _) expand sk sd rng pt m Hx Hw Hsk Hpt Hm ltac:(lia)) as (ct & Ect & Henc & _ & L2). pose proof (proj1 (proj2 (proj2 (proj2 Hd)))) as Ev. rewrite Ev in Henc.
  destruct (default_group_all isp cands Ho nb row par Hi Hd 0%nat [(sk, rng')] ct m (2 * 10)) as (pt' & Edec & Hpt').
  - apply Nat.le_0_l.
  - discriminate.
  - constructor; [split; assumption|constructor].
  - lia.
  - cbn [map fst]. rewrite (sum_one par sk Hsk). split; [exact L2|exact Henc].
  - unfold small_noise, group_noise. rewrite EQ, Ev. cbn [length]. pose proof (two_moduli row Hi Hlen). lia.
  - exists ct, pt'. split; [exact Ect|]. split; [exact Edec|]. replace (map (fun a => a mod pa_t par) m) with m in Hpt'; [exact Hpt'|]. clear - Hm. induction Hm as [|a m Ha _ IH]; [reflexivity|]. cbn [map]. rewrite <- IH, (Z.mod_small a) by exact Ha. reflexivity.
Qed.
