(** The voting example. *)
From Coq Require Import Znumtheory.
From Verif Require Import Outcome BasicSpec OutcomeLemmas ZqModel ZqProofs NumTheory NttModel PolySpec PolyRing NttPure NttStages NttProofs CbdModel CbdSpec CbdProofs.
From Verif Require Import TranscodeModel PrimesModel RnsModel RnsSpec RnsProofs RqModel RqSpec RqCtx RqRows RqProofs RingRn RqOps RqIO RqPropLemmas ParamsModel BfvSpec ParamsProofs BuildProofs ParamsPropLemmas PlainModel CipherModel OpsModel SchemeSpec CipherSpec PlainProofs PlainPropLemmas RnPoly CipherProofs EncryptProofs CipherPropLemmas LinearPropLemmas.
From Verif Require Import DefaultModel DefaultSpec DefaultCerts DefaultPropLemmas KeysModel KeysSpec EvalSpec MbfvModel MbfvSpec MbfvProofs MbfvPropLemmas PolyEncProofs VotingModel VotingSpec.
Set Default Proof Using "Type".

(** ** Sums *)
Lemma norm1_bounded B s : bounded_by B s -> norm1 s <= Z.of_nat (length s) * B.
Proof. unfold bounded_by, norm1. induction 1 as [|a s Ha _ IH]; cbn [fold_right length]; lia. Qed.
Lemma bounded_sum par B sks : 0 <= B -> Forall (fun sk => length (sk_coeffs sk) = pa_degree par /\ bounded_by B (sk_coeffs sk)) sks ->
  length (sk_coeffs (sum_sks par sks)) = pa_degree par /\ bounded_by (Z.of_nat (length sks) * B) (sk_coeffs (sum_sks par sks)).
Proof.
  intros HB H. unfold sum_sks. cbn [sk_coeffs]. induction H as [|sk sks (L & Hb) _ (IHl & IHb)]; cbn [map fold_right length].
  - split; [apply repeat_length|]. apply Forall_forall. intros a Ha. apply repeat_spec in Ha. subst a. change (Z.abs 0 <= Z.of_nat (@length secret_key []) * B). cbn [length Z.of_nat Z.abs]. lia.
  - set (w := fold_right _ _ _) in *. clearbody w. rewrite <- L in *. clear L. replace (Z.of_nat (S (length sks)) * B) with (B + Z.of_nat (length sks) * B) by lia. set (K := Z.of_nat (length sks) * B) in *. clearbody K. clear HB. revert w IHl IHb. unfold bounded_by in *.
    induction Hb as [|a s Ha _ IH]; intros [|b w] Hl Hw; try discriminate Hl; cbn [zipWith length] in *; [split; constructor|]. apply Forall_cons_iff in Hw. destruct Hw as (Hb1 & Hw). cbv beta in Hb1, Ha. destruct (IH w ltac:(lia) Hw) as (I1 & I2). split; [lia|]. constructor; [lia|exact I2].
Qed.
Lemma pad_add n x y : (0 < n)%nat -> zipWith Z.add (pad n [x]) (pad n [y]) = pad n [x + y].
Proof.
  intros Hn. unfold pad. cbn [length app zipWith]. f_equal. induction (n - 1)%nat as [|k IH]; [reflexivity|]. cbn [repeat zipWith]. rewrite IH. reflexivity.
Qed.
Lemma count_cons b bs : ballot_ok b -> count (b :: bs) = b_vote b + count bs.
Proof. intros (Hv & _). unfold count. cbn [filter]. destruct Hv as [-> | ->]; cbn [Z.eqb Pos.eqb]; cbn [length]; lia. Qed.
Lemma count_range bs : 0 <= count bs <= Z.of_nat (length bs).
Proof. unfold count. induction bs as [|b bs IH]; cbn [filter length]; [lia|]. destruct (b_vote b =? 1); cbn [length]; lia. Qed.
Lemma expected_sum bs : Forall ballot_ok bs -> forall s, 0 <= s -> s + Z.of_nat (length bs) < W64 -> foldM (fun s b => chk64 (s + b_vote b)) bs s = Val (s + count bs).
Proof.
  induction 1 as [|b bs Hb _ IH]; intros s Hs Hlt; cbn [foldM length] in *; [unfold count; cbn; rewrite Z.add_0_r; reflexivity|]. rewrite (count_cons b bs Hb). pose proof (proj1 Hb) as Hv.
  unfold chk64. rewrite chk_val by lia. cbn [bind]. rewrite IH by lia. f_equal. lia.
Qed.

  Lemma setup_val par crp ys sks shares : Forall2 (fun y sk => sk_random par (y_sk y) = Val sk) ys sks -> mapM (fun p => pk_share_new (fst p) crp (snd p)) (combine sks (map y_pk ys)) = Val shares ->
    voting_setup par crp ys = Val (combine sks shares) /\ length shares = length sks.
  Proof.
    intros H. revert shares. unfold voting_setup. induction H as [|y sk ys sks E _ IH]; intros shares Hs; cbn [map combine mapM fst snd] in *; [injection Hs as <-; split; reflexivity|].
    rewrite E. cbn [bind]. destruct (pk_share_new sk crp (y_pk y)) as [sh| |]; try discriminate. cbn [bind] in *. destruct (mapM _ (combine sks (map y_pk ys))) as [shs| |] eqn:Em; try discriminate. cbn [bind] in Hs. injection Hs as <-.
    destruct (IH shs eq_refl) as (-> & L). cbn [bind combine length]. split; [reflexivity|lia].
  Qed.
  Lemma combine_fst {A B} (xs : list A) : forall ys : list B, length xs = length ys -> map fst (combine xs ys) = xs.
  Proof. induction xs as [|x xs IH]; intros [|y ys] L; try discriminate L; [reflexivity|]. cbn [combine map fst]. rewrite IH by (cbn in L; lia). reflexivity. Qed.
  Lemma combine_snd {A B} (xs : list A) : forall ys : list B, length xs = length ys -> map snd (combine xs ys) = ys.
  Proof. induction xs as [|x xs IH]; intros [|y ys] L; try discriminate L; [reflexivity|]. cbn [combine map snd]. rewrite IH by (cbn in L; lia). reflexivity. Qed.

Section Group.
  Set Default Proof Using "All".
  Variables (isp : Z -> bool) (cands : Z -> list Z) (Ho : oracles isp cands) (par : params) (Hp : is_params isp cands par).
  Notation N := (pa_degree par).
  Notation t := (pa_t par).
  Notation G := (params_good isp cands par Ho Hp).

  Lemma keys_ex ys : Forall party_ok ys -> exists sks, Forall2 (fun y sk => sk_random par (y_sk y) = Val sk) ys sks /\ Forall (fun sk => is_sk par sk /\ bounded_by (2 * pa_variance par) (sk_coeffs sk)) sks.
  Proof.
    induction 1 as [|y ys Hy _ (sks & I1 & I2)]; [exists []; split; constructor|]. destruct (sk_random_all isp cands par Ho Hp (y_sk y) (proj1 Hy)) as (sk & E & Hsk & Hb & _).
    exists (sk :: sks). split; constructor; auto.
  Qed.
  Lemma cast_ex S pk B bs : is_sk par S -> is_pk par S 0 pk B -> t <= level_modulus par 0 -> 2 <= t -> Forall ballot_ok bs ->
    exists cts, voting_cast par pk bs = Val cts /\ Forall2 (fun b ct => encrypts2 par S 0 ct (pad N [b_vote b]) (pk_noise par (norm1 (sk_coeffs S)) B)) bs cts.
  Proof.
    intros HS Hpk HtQ Ht2 H. assert (HN : (0 < N)%nat) by (destruct (gp_deg _ _ _ G) as (K & _ & -> & _); apply Nat.neq_0_lt_0, Nat.pow_nonzero; lia). unfold voting_cast. induction H as [|b bs Hb _ (cts & Ec & Hcts)]; [exists []; split; [reflexivity|constructor]|]. destruct Hb as (Hv & W0 & W1 & W2).
    destruct (encode_poly_all isp cands par Ho Hp 0 (Nat.le_0_l _) HtQ false [b_vote b]) as (pt & Ept & Hpt & _); [cbn [length]; lia|constructor; [lia|constructor]|constructor; [unfold is_u64; lia|constructor]|].
    destruct (pk_encrypt_all isp cands par Ho Hp 0 0 (Nat.le_0_l _) (Nat.le_0_l _) S pk B (b_u b) (b_e1 b) (b_e2 b) pt _ HS Hpk W0 W1 W2 Hpt) as (ct & Ect & _ & L2 & Henc); [apply Forall_pad; [lia|constructor; [lia|constructor]]|exact HtQ|].
    exists (ct :: cts). cbn [mapM]. rewrite Ept. cbn [bind]. rewrite Ect. cbn [bind]. rewrite Ec. split; [reflexivity|]. constructor; [|exact Hcts]. split; [exact L2|]. exact Henc.
  Qed.
  Lemma encrypts2_add S a b m1 m2 B1 B2 : is_sk par S -> encrypts2 par S 0 a m1 B1 -> encrypts2 par S 0 b m2 B2 -> exists ct, ct_add a b = Val ct /\ encrypts2 par S 0 ct (zipWith Z.add m1 m2) (B1 + B2 + 1).
  Proof.
    intros HS (La & Ha) (Lb & Hb). destruct (proj1 (enc_add_all isp cands par Ho Hp 0 (Nat.le_0_l _) S a b m1 m2 B1 B2 HS Ha Hb ltac:(congruence))) as (ct & E & He). exists ct. split; [exact E|]. split; [|exact He].
    destruct Ha as (xs & e1 & Ha & _). destruct Hb as (ys & e2 & Hb & _). pose proof (Forall2_length_eq _ _ _ (proj2 (proj2 Ha))) as Lx. pose proof (Forall2_length_eq _ _ _ (proj2 (proj2 Hb))) as Ly.
    destruct (add_all isp cands par Ho Hp 0 (Nat.le_0_l _) a b xs ys Ha Hb ltac:(congruence)) as (ct' & E' & _ & Hi & _); [intros ->; cbn in Lx; lia|]. rewrite E in E'. injection E' as <-.
    rewrite (Forall2_length_eq _ _ _ (proj2 (proj2 Hi))). unfold add_parts. rewrite map_length, combine_length. lia.
  Qed.
  Lemma tally_from S B bs cts : is_sk par S -> Forall2 (fun b ct => encrypts2 par S 0 ct (pad N [b_vote b]) B) bs cts -> Forall ballot_ok bs -> forall acc x Bx, encrypts2 par S 0 acc (pad N [x]) Bx ->
    exists ct, foldM ct_add cts acc = Val ct /\ encrypts2 par S 0 ct (pad N [x + count bs]) (Bx + Z.of_nat (length bs) * (B + 1)).
  Proof.
    intros HS H. assert (HN : (0 < N)%nat) by (destruct (gp_deg _ _ _ G) as (K & _ & -> & _); apply Nat.neq_0_lt_0, Nat.pow_nonzero; lia). induction H as [|b ct bs cts Hc _ IH]; intros Hok acc x Bx Hacc; cbn [foldM length].
    - exists acc. split; [reflexivity|]. unfold count. cbn [filter length Z.of_nat]. rewrite Z.add_0_r, Z.mul_0_l, Z.add_0_r. exact Hacc.
    - inversion Hok as [|? ? Hb Hbs]; subst. destruct (encrypts2_add S acc ct _ _ _ _ HS Hacc Hc) as (s & -> & Hs). rewrite (pad_add N x (b_vote b) HN) in Hs. cbn [bind]. destruct (IH Hbs s _ _ Hs) as (r & -> & Hr). exists r. split; [reflexivity|].
      rewrite (count_cons b bs Hb). replace (x + (b_vote b + count bs)) with (x + b_vote b + count bs) by lia. replace (Bx + Z.of_nat (Datatypes.S (length bs)) * (B + 1)) with (Bx + B + 1 + Z.of_nat (length bs) * (B + 1)) by lia. exact Hr.
  Qed.
  Lemma tally_ex S B bs cts : is_sk par S -> bs <> [] -> Forall2 (fun b ct => encrypts2 par S 0 ct (pad N [b_vote b]) B) bs cts -> Forall ballot_ok bs ->
    exists ct, voting_tally par cts = Val ct /\ encrypts2 par S 0 ct (pad N [count bs]) (Z.of_nat (length bs) * (B + 1) - 1).
  Proof.
    intros HS Hne H Hok. destruct H as [|b ct bs cts Hc H]; [congruence|]. unfold voting_tally. cbn [foldM]. assert (Ep : ct_par ct = par) by (destruct Hc as (_ & xs & e & Hi & _); exact (proj1 Hi)).
    rewrite (proj1 (zero_all par ct Ep)). cbn [bind]. apply Forall_cons_iff in Hok. destruct Hok as (Hb & Hbs). destruct (tally_from S B bs cts HS H Hbs ct _ _ Hc) as (r & -> & Hr). exists r. split; [reflexivity|]. rewrite (count_cons b bs Hb). cbn [length].
    replace (Z.of_nat (Datatypes.S (length bs)) * (B + 1) - 1) with (B + Z.of_nat (length bs) * (B + 1)) by lia. exact Hr.
  Qed.
End Group.

(** ** The parameters of the example *)
Lemma voting_build : forall isp cands, oracles isp cands -> complete_draws cands -> forall id,
  exists par, voting_params isp cands id = Val par /\ is_params isp cands par /\ Z.of_nat (pa_degree par) = 4096 /\ pa_t par = 4096 /\ pa_variance par = 10 /\ pa_moduli par = voting_moduli.
Proof.
  intros isp cands Ho Hd id. assert (Hr : row_good (4096, voting_moduli)) by (apply (proj1 (Forall_forall _ _) table_good); unfold default_table, voting_moduli; cbn [In]; tauto).
  destruct Hr as ((k & Hk & En) & Hne & Hnd & Hqs & Hext). cbn [fst snd] in *. unfold voting_params.
  assert (Hb : is_builder (mkBuilder 4096 4096 10 voting_moduli [])). { unfold is_builder, is_u64. cbn [b_degree b_plaintext b_variance b_moduli b_sizes]. split; [lia|]. split; [lia|]. split; [lia|]. split; [|constructor]. eapply Forall_impl; [|exact Hqs]. cbv beta. intros q (P & L & _). apply prime_ge_2 in P. change W64 with (4 * 2 ^ 62). lia. }
  destruct (accepts_all isp cands Ho Hd id 4096 4096 10 voting_moduli) as (par & Eb); [exists k; split; [lia|exact En]|lia|lia|lia|exact Hne| |exact Hext|].
  - split; [exact Hnd|]. split; [exact Hqs|]. split; [vm_compute; reflexivity|]. unfold voting_moduli. repeat (constructor; [vm_compute; reflexivity|]). constructor.
  - exists par. split; [exact Eb|]. split; [exists id, (mkBuilder 4096 4096 10 voting_moduli []); auto|]. pose proof (built_all isp cands Ho id _ par Hb Eb) as (_ & Ed & (_ & Ev) & (_ & Et) & _ & _ & Em & _). specialize (Em eq_refl). cbn [b_degree b_plaintext b_variance b_moduli] in *. auto.
Qed.

(** ** The program *)
Lemma firstn_all_lt {A} (l : list A) : Z.of_nat (length l) < 2 ^ 32 -> firstn (Z.to_nat (len l mod 2 ^ 32)) l = l.
Proof. intros H. unfold len. rewrite Z.mod_small by lia. rewrite Nat2Z.id. apply firstn_all. Qed.
Lemma rounds_val n : n mod 2 ^ 32 <> 0 -> rounds n = Val (Z.to_nat (n mod 2 ^ 32)).
Proof. intros H. unfold rounds. cbv zeta. replace (n mod 2 ^ 32 =? 0) with false by (symmetry; apply Z.eqb_neq; exact H). reflexivity. Qed.
Lemma firstn_rounds {A} (l : list A) : Z.of_nat (length (firstn (Z.to_nat (len l mod 2 ^ 32)) l)) = Z.of_nat (length l) mod 2 ^ 32.
Proof. rewrite firstn_length. unfold len. pose proof (Z.mod_pos_bound (Z.of_nat (length l)) (2 ^ 32) ltac:(lia)). pose proof (Z.mod_le (Z.of_nat (length l)) (2 ^ 32) ltac:(lia) ltac:(lia)). lia. Qed.

Theorem voting_all : forall isp cands, oracles isp cands -> complete_draws cands -> forall id rows parties ballots, rows_ok rows -> Forall party_ok parties -> Forall ballot_ok ballots -> Z.of_nat (length ballots) < 2 ^ 64 ->
  Z.of_nat (length parties) mod 2 ^ 32 <> 0 -> Z.of_nat (length ballots) mod 2 ^ 32 <> 0 ->
  let r := count (firstn (Z.to_nat (Z.of_nat (length ballots) mod 2 ^ 32)) ballots) mod 4096 in
  voting isp cands id rows parties ballots = if r =? count ballots then Val r else Panic.
Proof.
  intros isp cands Ho Hd id rows parties ballots Hrows Hys Hbs Hlt Hp0 Hb0 r. destruct (voting_build isp cands Ho Hd id) as (par & Epar & Hp & EN & Et & Ev & Em). unfold voting. rewrite Epar. cbn [bind].
  assert (E0 : level_modulus par 0 = prod_list voting_moduli) by (unfold level_modulus, level_moduli; rewrite Em; reflexivity).
  assert (EQ : prod_list voting_moduli = 0xffffee001 * 0xffffc4001 * 0x1ffffe0001) by reflexivity.
  pose proof (params_good isp cands par Ho Hp) as G.
  destruct (proj1 (crp_all isp cands par Ho Hp) 0%nat rows (Nat.le_0_l _)) as (crp & a & Ecrp & Hcrp).
  { unfold level_moduli. rewrite Em. cbn [length Nat.sub firstn voting_moduli]. revert Hrows. unfold rows_ok. clear - EN. intros H. induction H as [|q w qs ws (Hl & Hc) _ IH]; constructor; [split; [lia|exact Hc]|exact IH]. }
  unfold crp_new. rewrite Ecrp. cbn [bind]. rewrite (rounds_val (len parties)) by exact Hp0. cbn [bind].
  pose proof (firstn_rounds parties) as Lys. set (ys := firstn _ parties) in *. assert (Hy : Forall party_ok ys) by (apply Forall_firstn; exact Hys). clearbody ys.
  destruct (keys_ex isp cands Ho par Hp ys Hy) as (sks & F & Hsks). pose proof (Forall2_length_eq _ _ _ F) as Lsk.
  set (ps := combine sks (map y_pk ys)). assert (Lps : length ps = length ys) by (unfold ps; rewrite combine_length, map_length; lia).
  assert (Eps : map fst ps = sks) by (apply combine_fst; rewrite map_length; lia).
  assert (Hps : Forall (fun p => is_sk par (fst p) /\ words (snd p)) ps).
  { apply Forall_forall. intros (sk, w) Hi. cbn [fst snd]. split; [apply in_combine_l in Hi; exact (proj1 (proj1 (Forall_forall _ _) Hsks sk Hi))|]. apply in_combine_r, in_map_iff in Hi. destruct Hi as (y & <- & Hi). exact (proj1 (proj2 (proj1 (Forall_forall _ _) Hy y Hi))). }
  pose proof (Z.mod_pos_bound (Z.of_nat (length parties)) (2 ^ 32) ltac:(lia)) as Hpb. pose proof (Z.mod_pos_bound (Z.of_nat (length ballots)) (2 ^ 32) ltac:(lia)) as Hbb.
  assert (Hne : ps <> []) by (intros E; rewrite E in Lps; cbn [length] in Lps; lia).
  destruct (group_pk_all isp cands par Ho Hp ps crp a Hne Hps Hcrp) as (pk & Epk & Hpk & _). rewrite Eps in Hpk. unfold pk_protocol in Epk. destruct (mapM _ ps) as [shares| |] eqn:Es; try discriminate Epk. cbn [bind] in Epk.
  destruct (setup_val par crp ys sks shares F Es) as (Eset & Lsh). rewrite Eset. cbn [bind]. rewrite (combine_snd sks shares) by lia. rewrite (combine_fst sks shares) by lia. rewrite Epk. cbn [bind].
  rewrite (rounds_val (len ballots)) by exact Hb0. cbn [bind]. fold (len ballots) in r. pose proof (firstn_rounds ballots) as Lbs. set (bs := firstn _ ballots) in *. assert (Hb : Forall ballot_ok bs) by (apply Forall_firstn; exact Hbs). clearbody bs.
  destruct (bounded_sum par 20 sks ltac:(lia)) as (LS & HS). { eapply Forall_impl; [|exact Hsks]. cbv beta. rewrite Ev. intros sk ((_ & L & _) & Hb'). split; [exact L|exact Hb']. }
  set (S := sum_sks par sks) in *. assert (HSk : is_sk par S). { split; [reflexivity|]. split; [exact LS|]. eapply Forall_impl; [|exact HS]. cbv beta. intros z Hz. unfold is_i64. lia. }
  pose proof (norm1_bounded _ _ HS) as HN. rewrite LS, EN in HN. rewrite <- Lsk, Lys in HN. assert (ES : sum_sks par sks = S) by reflexivity. clearbody S.
  assert (HtQ : pa_t par <= level_modulus par 0) by (rewrite Et, E0, EQ; lia).
  destruct (cast_ex isp cands Ho par Hp S pk _ bs HSk Hpk HtQ ltac:(lia) Hb) as (cts & Ects & Hcts). rewrite Ects. cbn [bind].
  destruct (tally_ex isp cands Ho par Hp S _ bs cts HSk ltac:(intros E; rewrite E in Lbs; cbn [length] in Lbs; lia) Hcts Hb) as (ct & Ect & Hct). rewrite Ect. cbn [bind].
  set (ds := combine sks (map y_dec ys)). assert (Eds : map fst ds = sks) by (apply combine_fst; rewrite map_length; lia). assert (Lds : length ds = length ys) by (unfold ds; rewrite combine_length, map_length; lia).
  assert (Hds : Forall (fun p => is_sk par (fst p) /\ words (snd p)) ds).
  { apply Forall_forall. intros (sk, w) Hi. cbn [fst snd]. split; [apply in_combine_l in Hi; exact (proj1 (proj1 (Forall_forall _ _) Hsks sk Hi))|]. apply in_combine_r, in_map_iff in Hi. destruct Hi as (y & <- & Hi). exact (proj2 (proj2 (proj1 (Forall_forall _ _) Hy y Hi))). }
  assert (Esh : mapM (fun p => dec_share_new (fst p) ct (y_dec (snd p))) (combine sks ys) = mapM (fun p => dec_share_new (fst p) ct (snd p)) ds).
  { unfold ds. clear. revert ys. induction sks as [|sk sks IH]; intros [|y ys]; try reflexivity. cbn [combine map mapM fst snd]. rewrite IH. reflexivity. }
  rewrite Esh. destruct (group_dec_all isp cands par Ho Hp 0 (Nat.le_0_l _)) with (ps := ds) (ct := ct) (m := pad (pa_degree par) [count bs]) (B := Z.of_nat (length bs) * (pk_noise par (norm1 (sk_coeffs S)) (group_noise par (length ps)) + 1) - 1) as (pt & Ept & Hpt & Enone).
  - unfold supported. rewrite Em. split; vm_compute; [reflexivity|discriminate].
  - apply (group_room_all isp cands par Ho Hp); rewrite ?Et; [reflexivity|]. rewrite E0, EQ. lia.
  - intros E. rewrite E in Lds. cbn [length] in Lds. lia.
  - exact Hds.
  - rewrite Eds, ES. exact Hct.
  - unfold small_noise, pk_noise, group_noise. rewrite Lds, Lps, E0, EQ, Et, Ev, EN, Lys, Lbs. set (P := Z.of_nat (length parties) mod 2 ^ 32) in *. set (V := Z.of_nat (length ballots) mod 2 ^ 32) in *. set (n1 := norm1 (sk_coeffs S)) in *. clearbody P V n1. clear - HN Hpb Hbb.
    assert (V * (4096 * (2 * 10) * (P * (2 * 10)) + 2 * 10 + n1 * (2 * 10) + 1) <= (2 ^ 32) * (4096 * (2 * 10) * (2 ^ 32 * (2 * 10)) + 2 * 10 + (4096 * (2 ^ 32 * 20)) * (2 * 10) + 1)) by (apply (Z.le_trans _ (V * (4096 * (2 * 10) * (2 ^ 32 * (2 * 10)) + 2 * 10 + (4096 * (2 ^ 32 * 20)) * (2 * 10) + 1))); [apply Z.mul_le_mono_nonneg_l|apply Z.mul_le_mono_nonneg_r]; lia). lia.
  - unfold dec_protocol in Ept. destruct (mapM _ ds) as [dsh| |]; try discriminate Ept. cbn [bind] in Ept |- *. rewrite Ept. cbn [bind].
    assert (Em2 : map (fun z => z mod pa_t par) (pad (pa_degree par) [count bs]) = r :: repeat 0 (pa_degree par - 1)).
    { unfold pad. rewrite map_app. cbn [map length app]. rewrite Et. f_equal. clear. induction (pa_degree par - 1)%nat as [|k IH]; [reflexivity|]. cbn [repeat map]. rewrite IH. reflexivity. }
    assert (Hr : 0 <= r < 4096) by (apply Z.mod_pos_bound; lia).
    assert (Hm : Forall (fun z => 0 <= z < 4096) (r :: repeat 0 (pa_degree par - 1))) by (constructor; [exact Hr|]; apply Forall_forall; intros z Hz; apply repeat_spec in Hz; lia).
    rewrite Em2 in Hpt. rewrite (decode_poly_all isp cands par Ho Hp 0 (Nat.le_0_l _) HtQ pt _ Hpt); cycle 1.
    + unfold canonical. rewrite Et. exact Hm.
    + eapply Forall_impl; [|exact Hm]. cbv beta. intros z Hz. unfold is_u64. change W64 with (2 ^ 64). lia.
    + left. exact Enone.
    + cbn [bind]. change (get (r :: repeat 0 (pa_degree par - 1)) 0) with (@Val Z r). cbn [bind]. rewrite (expected_sum ballots Hbs 0 ltac:(lia)) by (change W64 with (2 ^ 64); lia). cbn [bind]. rewrite Z.add_0_l. destruct (r =? count ballots); reflexivity.
Qed.
Theorem voting_rounds : forall isp cands, oracles isp cands -> complete_draws cands -> forall id rows parties ballots, rows_ok rows -> Forall party_ok parties ->
  Z.of_nat (length parties) mod 2 ^ 32 = 0 \/ Z.of_nat (length ballots) mod 2 ^ 32 = 0 -> voting isp cands id rows parties ballots = Panic.
Proof.
  intros isp cands Ho Hd id rows parties ballots Hrows Hys H. destruct (voting_build isp cands Ho Hd id) as (par & Epar & Hp & EN & Et & Ev & Em). unfold voting. rewrite Epar. cbn [bind].
  destruct (proj1 (crp_all isp cands par Ho Hp) 0%nat rows (Nat.le_0_l _)) as (crp & a & Ecrp & Hcrp).
  { unfold level_moduli. rewrite Em. cbn [length Nat.sub firstn voting_moduli]. revert Hrows. unfold rows_ok. clear - EN. intros H. induction H as [|q w qs ws (Hl & Hc) _ IH]; constructor; [split; [lia|exact Hc]|exact IH]. }
  unfold crp_new. rewrite Ecrp. cbn [bind]. destruct (Z.eq_dec (len parties mod 2 ^ 32) 0) as [E|E]; [unfold rounds; rewrite E; reflexivity|]. destruct H as [H|H]; [contradiction|].
  rewrite (rounds_val (len parties) E). cbn [bind]. pose proof (firstn_rounds parties) as Lys. set (ys := firstn _ parties) in *. assert (Hy : Forall party_ok ys) by (apply Forall_firstn; exact Hys). clearbody ys.
  destruct (keys_ex isp cands Ho par Hp ys Hy) as (sks & F & Hsks). pose proof (Forall2_length_eq _ _ _ F) as Lsk.
  set (ps := combine sks (map y_pk ys)). assert (Lps : length ps = length ys) by (unfold ps; rewrite combine_length, map_length; lia).
  assert (Hps : Forall (fun p => is_sk par (fst p) /\ words (snd p)) ps).
  { apply Forall_forall. intros (sk, w) Hi. cbn [fst snd]. split; [apply in_combine_l in Hi; exact (proj1 (proj1 (Forall_forall _ _) Hsks sk Hi))|]. apply in_combine_r, in_map_iff in Hi. destruct Hi as (y & <- & Hi). exact (proj1 (proj2 (proj1 (Forall_forall _ _) Hy y Hi))). }
  pose proof (Z.mod_pos_bound (Z.of_nat (length parties)) (2 ^ 32) ltac:(lia)) as Hpb. assert (Hne : ps <> []) by (intros E'; rewrite E' in Lps; cbn [length] in Lps; unfold len in E; lia).
  destruct (group_pk_all isp cands par Ho Hp ps crp a Hne Hps Hcrp) as (pk & Epk & _). unfold pk_protocol in Epk. destruct (mapM _ ps) as [shares| |] eqn:Es; try discriminate Epk. cbn [bind] in Epk.
  destruct (setup_val par crp ys sks shares F Es) as (Eset & Lsh). rewrite Eset. cbn [bind]. rewrite (combine_snd sks shares) by lia. rewrite Epk. cbn [bind]. unfold rounds, len. rewrite H. reflexivity.
Qed.
Theorem voting_correct_all : forall isp cands, oracles isp cands -> complete_draws cands -> forall id rows parties ballots, rows_ok rows -> Forall party_ok parties -> Forall ballot_ok ballots ->
  parties <> [] -> ballots <> [] -> Z.of_nat (length parties) < 2 ^ 32 -> Z.of_nat (length ballots) < 2 ^ 32 -> count ballots < 4096 -> voting isp cands id rows parties ballots = Val (count ballots).
Proof.
  intros isp cands Ho Hd id rows parties ballots Hrows Hys Hbs Hp0 Hb0 Hp Hb Hc.
  assert (Np : 0 < Z.of_nat (length parties)) by (destruct parties; [congruence|cbn [length]; lia]). assert (Nb : 0 < Z.of_nat (length ballots)) by (destruct ballots; [congruence|cbn [length]; lia]).
  assert (Ep : Z.of_nat (length parties) mod 2 ^ 32 = Z.of_nat (length parties)) by (apply Z.mod_small; lia). assert (Eb : Z.of_nat (length ballots) mod 2 ^ 32 = Z.of_nat (length ballots)) by (apply Z.mod_small; lia).
  rewrite (voting_all isp cands Ho Hd id rows parties ballots Hrows Hys Hbs) by (rewrite ?Ep, ?Eb; lia). pose proof (count_range ballots). rewrite Eb, Nat2Z.id, firstn_all. rewrite (Z.mod_small (count ballots)) by lia. rewrite Z.eqb_refl. reflexivity.
Qed.
Theorem voting_wraps_all : forall isp cands, oracles isp cands -> complete_draws cands -> forall id rows parties ballots, rows_ok rows -> Forall party_ok parties -> Forall ballot_ok ballots ->
  Z.of_nat (length ballots) < 2 ^ 64 -> 4096 <= count ballots -> voting isp cands id rows parties ballots = Panic.
Proof.
  intros isp cands Ho Hd id rows parties ballots Hrows Hys Hbs Hb Hc.
  destruct (Z.eq_dec (Z.of_nat (length parties) mod 2 ^ 32) 0) as [E|E]; [exact (voting_rounds isp cands Ho Hd id rows parties ballots Hrows Hys (or_introl E))|].
  destruct (Z.eq_dec (Z.of_nat (length ballots) mod 2 ^ 32) 0) as [E'|E']; [exact (voting_rounds isp cands Ho Hd id rows parties ballots Hrows Hys (or_intror E'))|].
  rewrite (voting_all isp cands Ho Hd id rows parties ballots Hrows Hys Hbs Hb E E'). match goal with |- context [count ?l mod 4096] => pose proof (Z.mod_pos_bound (count l) 4096 ltac:(lia)) end.
  match goal with |- context [?a =? ?b] => destruct (Z.eqb_spec a b) end; [lia|reflexivity].
Qed.
