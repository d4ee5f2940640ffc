(** Closing lemmas for the properties about linear operations and modulus switching of ciphertexts. *)
From Verif Require Import Outcome BasicSpec OutcomeLemmas ZqModel ZqProofs NumTheory NttModel PolySpec PolyRing NttPure NttStages NttProofs CbdModel CbdSpec CbdProofs.
From Verif Require Import TranscodeModel RnsModel RnsSpec RnsProofs RqModel RqSpec RqCtx RqRows RqProofs RingRn RqOps RqIO ParamsModel BfvSpec ParamsProofs BuildProofs PrimeCert ExampleParams ParamsPropLemmas PlainModel CipherModel OpsModel SchemeSpec CipherSpec PlainProofs PlainPropLemmas RnPoly CipherProofs EncryptProofs CipherPropLemmas.
From Coq Require Import Znumtheory.
Set Default Proof Using "Type".

Lemma rl_sub {n} (x y : Rn n) : rl (x - y)%R = zipWith Z.sub (rl x) (rl y).
Proof. reflexivity. Qed.
Lemma rl_opp {n} (x : Rn n) : rl (- x)%R = map Z.opp (rl x).
Proof. reflexivity. Qed.
Section Props.
  Context (isp : Z -> bool) (cands : Z -> list Z) (par : params).
  Notation N := (pa_degree par).
  Notation t := (pa_t par).
  Add Ring RnLL : (Rn_ring N).
  Lemma parts_add (vxs vys : list (bool * Rn N)) : map rl (map snd (map (fun p => (fst (fst p) && fst (snd p), snd (fst p) + snd (snd p))%R) (combine vxs vys))) = add_parts (map rl (map snd vxs)) (map rl (map snd vys)).
  Proof. revert vys. induction vxs as [|x vxs IH]; intros [|y vys]; try reflexivity. unfold add_parts in *. cbn [combine map fst snd]. f_equal. apply IH. Qed.
  Lemma parts_sub (vxs vys : list (bool * Rn N)) : map rl (map snd (map (fun p => (fst (fst p) && fst (snd p), snd (fst p) - snd (snd p))%R) (combine vxs vys))) = sub_parts (map rl (map snd vxs)) (map rl (map snd vys)).
  Proof. revert vys. induction vxs as [|x vxs IH]; intros [|y vys]; try reflexivity. unfold sub_parts in *. cbn [combine map fst snd]. f_equal. apply IH. Qed.
  Lemma snd_add (vxs vys : list (bool * Rn N)) : map snd (map (fun p => (fst (fst p) && fst (snd p), snd (fst p) + snd (snd p))%R) (combine vxs vys)) = map (fun p => fst p + snd p)%R (combine (map snd vxs) (map snd vys)).
  Proof. revert vys. induction vxs as [|x vxs IH]; intros [|y vys]; try reflexivity. cbn [combine map fst snd]. f_equal. apply IH. Qed.
  Lemma snd_sub (vxs vys : list (bool * Rn N)) : map snd (map (fun p => (fst (fst p) && fst (snd p), snd (fst p) - snd (snd p))%R) (combine vxs vys)) = map (fun p => fst p - snd p)%R (combine (map snd vxs) (map snd vys)).
  Proof. revert vys. induction vxs as [|x vxs IH]; intros [|y vys]; try reflexivity. cbn [combine map fst snd]. f_equal. apply IH. Qed.

  Theorem add_all : oracles isp cands -> is_params isp cands par -> forall l, (l <= max_level par)%nat -> forall a b xs ys, is_ct par l a xs -> is_ct par l b ys -> length xs = length ys -> xs <> [] ->
    exists ct, ct_add a b = Val ct /\ ct_seed ct = None /\ is_ct par l ct (add_parts xs ys) /\
      forall s, length s = N -> phase N s (add_parts xs ys) = zipWith Z.add (phase N s xs) (phase N s ys).
  Proof.
    intros Ho Hp l Hl a b xs ys Ha Hb Hlen Hne. pose proof (params_good isp cands par Ho Hp) as G. destruct (at_level_ex isp cands par l Ho G Hl) as (lv & c & A).
    destruct (ct_parts isp cands Ho par G l lv c A a xs Ha) as (vxs & Ea & <-). destruct (ct_parts isp cands Ho par G l lv c A b ys Hb) as (vys & Eb & <-). rewrite !map_length in Hlen.
    rewrite Ea, Eb, (ct_add_P isp cands par l lv c Ho G A) by (exact Hlen || intros ->; apply Hne; reflexivity). eexists. split; [reflexivity|]. split; [reflexivity|]. rewrite <- parts_add. split; [apply (parts_ct isp cands Ho par G l lv c A)|].
    intros s Ls. change s with (rl (mkR s Ls)). rewrite !phase_rphase, snd_add, rphase_add by (rewrite !map_length; exact Hlen). reflexivity.
  Qed.
  Theorem sub_all : oracles isp cands -> is_params isp cands par -> forall l, (l <= max_level par)%nat -> forall a b xs ys, is_ct par l a xs -> is_ct par l b ys -> length xs = length ys -> xs <> [] ->
    exists ct, ct_sub a b = Val ct /\ ct_seed ct = None /\ is_ct par l ct (sub_parts xs ys) /\
      forall s, length s = N -> phase N s (sub_parts xs ys) = zipWith Z.sub (phase N s xs) (phase N s ys).
  Proof.
    intros Ho Hp l Hl a b xs ys Ha Hb Hlen Hne. pose proof (params_good isp cands par Ho Hp) as G. destruct (at_level_ex isp cands par l Ho G Hl) as (lv & c & A).
    destruct (ct_parts isp cands Ho par G l lv c A a xs Ha) as (vxs & Ea & <-). destruct (ct_parts isp cands Ho par G l lv c A b ys Hb) as (vys & Eb & <-). rewrite !map_length in Hlen.
    rewrite Ea, Eb, (ct_sub_P isp cands par l lv c Ho G A) by (exact Hlen || intros ->; apply Hne; reflexivity). eexists. split; [reflexivity|]. split; [reflexivity|]. rewrite <- parts_sub. split; [apply (parts_ct isp cands Ho par G l lv c A)|].
    intros s Ls. change s with (rl (mkR s Ls)). rewrite !phase_rphase, snd_sub, rphase_sub by (rewrite !map_length; exact Hlen). apply rl_sub.
  Qed.
  Theorem neg_all : oracles isp cands -> is_params isp cands par -> forall l, (l <= max_level par)%nat -> forall a xs, is_ct par l a xs ->
    exists ct, ct_neg a = Val ct /\ ct_seed ct = None /\ is_ct par l ct (map (map Z.opp) xs) /\
      forall s, length s = N -> phase N s (map (map Z.opp) xs) = map Z.opp (phase N s xs).
  Proof.
    intros Ho Hp l Hl a xs Ha. pose proof (params_good isp cands par Ho Hp) as G. destruct (at_level_ex isp cands par l Ho G Hl) as (lv & c & A).
    destruct (ct_parts isp cands Ho par G l lv c A a xs Ha) as (vxs & Ea & <-). rewrite Ea, (ct_neg_P isp cands par l lv c Ho G A). eexists. split; [reflexivity|]. split; [reflexivity|].
    assert (E : map rl (map snd (map (fun vx : bool * Rn N => (fst vx, (- snd vx)%R)) vxs)) = map (map Z.opp) (map rl (map snd vxs))) by (rewrite !map_map; reflexivity). rewrite <- E.
    split; [apply (parts_ct isp cands Ho par G l lv c A)|]. intros s Ls. change s with (rl (mkR s Ls)). rewrite !phase_rphase, map_map. cbn [snd]. rewrite <- (map_map snd (fun x => - x)%R), rphase_opp. apply rl_opp.
  Qed.
  Theorem enc_add_all : oracles isp cands -> is_params isp cands par -> forall l, (l <= max_level par)%nat -> forall sk a b m1 m2 B1 B2, is_sk par sk -> encrypts par sk l a m1 B1 -> encrypts par sk l b m2 B2 -> length (ct_c a) = length (ct_c b) ->
    (exists ct, ct_add a b = Val ct /\ encrypts par sk l ct (zipWith Z.add m1 m2) (B1 + B2 + 1)) /\
    (exists ct, ct_sub a b = Val ct /\ encrypts par sk l ct (zipWith Z.sub m1 m2) (B1 + B2 + 1)) /\
    (exists ct, ct_neg a = Val ct /\ encrypts par sk l ct (map Z.opp m1) (B1 + 1)).
  Proof.
    intros Ho Hp l Hl sk a b m1 m2 B1 B2 (Esk & Ls & Hi) Ha Hb Hlen. pose proof (params_good isp cands par Ho Hp) as G. destruct (at_level_ex isp cands par l Ho G Hl) as (lv & c & A). pose proof (gp_t _ _ _ G) as Ht.
    destruct (encrypts_parts isp cands Ho par G l lv c A sk a m1 B1 Ls Ha) as (vxs & x & e1 & Ea & L1 & L1' & <- & (He1 & He1') & Hc1). destruct (encrypts_parts isp cands Ho par G l lv c A sk b m2 B2 Ls Hb) as (vys & y & e2 & Eb & L2 & L2' & <- & (He2 & He2') & Hc2).
    rewrite Ea, Eb. set (Q := prod_list (level_moduli (pa_moduli par) l)) in *. set (s := mkR (sk_coeffs sk) Ls) in *. assert (Hxy : length vxs = length vys) by congruence. assert (Hne : vxs <> []) by (intros ->; cbn in L1; lia). split; [|split].
    - rewrite (ct_add_P isp cands par l lv c Ho G A) by assumption. eexists. split; [reflexivity|]. rewrite <- rl_add.
      apply (parts_encrypts isp cands Ho par G l lv c A) with (e := (e1 + e2 + (rscaled Q t x + rscaled Q t y - rscaled Q t (x + y)))%R) (Hl := Ls).
      + rewrite map_length, combine_length. lia.
      + pose proof (rnorm_add N (e1 + e2)%R (rscaled Q t x + rscaled Q t y - rscaled Q t (x + y))%R). pose proof (rnorm_add N e1 e2). pose proof (rscaled_add Q t x y ltac:(lia)). lia.
      + fold s Q. rewrite snd_add, rphase_add by (rewrite !map_length; exact Hxy). eapply rcong_trans; [apply rcong_add; [exact Hc1|exact Hc2]|].
        match goal with |- rcong _ ?u ?w => replace w with u by ring end. apply rcong_refl.
    - rewrite (ct_sub_P isp cands par l lv c Ho G A) by assumption. eexists. split; [reflexivity|]. rewrite <- rl_sub.
      apply (parts_encrypts isp cands Ho par G l lv c A) with (e := (e1 - e2 + (rscaled Q t x - rscaled Q t y - rscaled Q t (x - y)))%R) (Hl := Ls).
      + rewrite map_length, combine_length. lia.
      + pose proof (rnorm_add N (e1 - e2)%R (rscaled Q t x - rscaled Q t y - rscaled Q t (x - y))%R). pose proof (rnorm_sub N e1 e2). pose proof (rscaled_sub Q t x y ltac:(lia)). lia.
      + fold s Q. rewrite snd_sub, rphase_sub by (rewrite !map_length; exact Hxy). eapply rcong_trans; [apply rcong_sub; [exact Hc1|exact Hc2]|].
        match goal with |- rcong _ ?u ?w => replace w with u by ring end. apply rcong_refl.
    - rewrite (ct_neg_P isp cands par l lv c Ho G A). eexists. split; [reflexivity|]. rewrite <- rl_opp.
      apply (parts_encrypts isp cands Ho par G l lv c A) with (e := (- e1 + (- rscaled Q t x - rscaled Q t (- x)))%R) (Hl := Ls).
      + rewrite map_length. exact L1.
      + pose proof (rnorm_add N (- e1)%R (- rscaled Q t x - rscaled Q t (- x))%R). pose proof (rnorm_opp N e1). pose proof (rscaled_opp Q t x ltac:(lia)). lia.
      + fold s Q. rewrite map_map. cbn [snd]. rewrite <- (map_map snd (fun x => - x)%R), rphase_opp. eapply rcong_trans; [apply rcong_opp; exact Hc1|].
        match goal with |- rcong _ ?u ?w => replace w with u by ring end. apply rcong_refl.
  Qed.
  (** Plaintext operands *)
  Theorem add_pt_all : oracles isp cands -> is_params isp cands par -> forall l, (l <= max_level par)%nat -> forall a x xs pt m, is_ct par l a (x :: xs) -> is_pt par l pt m -> canonical t m -> t <= level_modulus par l ->
    (exists ct, ct_add_pt a pt = Val ct /\ ct_seed ct = None /\ is_ct par l ct (zipWith Z.add x (scaled (level_modulus par l) t m) :: xs)) /\
    (exists ct, ct_sub_pt a pt = Val ct /\ ct_seed ct = None /\ is_ct par l ct (zipWith Z.sub x (scaled (level_modulus par l) t m) :: xs)) /\
    (exists ct, pt_sub_ct pt a = Val ct /\ ct_seed ct = None /\ is_ct par l ct (zipWith Z.sub (scaled (level_modulus par l) t m) x :: map (map Z.opp) xs)).
  Proof.
    intros Ho Hp l Hl a x xs pt m Ha Hpt Hm HtQ. pose proof (params_good isp cands par Ho Hp) as G. destruct (at_level_ex isp cands par l Ho G Hl) as (lv & c & A).
    destruct (pt_P isp cands Ho par G l lv c A pt m Hpt) as (mr & -> & <-). destruct (ct_parts isp cands Ho par G l lv c A a _ Ha) as ([|(v & xr) vxs] & Ea & Ex); [discriminate|]. cbn [map snd] in Ex. injection Ex as <- <-. rewrite Ea.
    unfold level_modulus in *. rewrite <- rl_scaled, <- rl_add, <- !rl_sub. split; [|split].
    - rewrite (ct_add_pt_P isp cands par l lv c Ho G A) by assumption. eexists. split; [reflexivity|]. split; [reflexivity|]. exact (parts_ct isp cands Ho par G l lv c A None ((false, xr + rscaled _ t mr)%R :: vxs)).
    - rewrite (ct_sub_pt_P isp cands par l lv c Ho G A) by assumption. eexists. split; [reflexivity|]. split; [reflexivity|]. exact (parts_ct isp cands Ho par G l lv c A None ((false, xr - rscaled _ t mr)%R :: vxs)).
    - rewrite (pt_sub_ct_P isp cands par l lv c Ho G A) by assumption. eexists. split; [reflexivity|]. split; [reflexivity|].
      assert (E : map rl (map snd (map (fun vx : bool * Rn N => (fst vx, (- snd vx)%R)) vxs)) = map (map Z.opp) (map rl (map snd vxs))) by (rewrite !map_map; reflexivity). rewrite <- E.
      exact (parts_ct isp cands Ho par G l lv c A None ((false, rscaled _ t mr - xr)%R :: map (fun vx => (fst vx, - snd vx)%R) vxs)).
  Qed.
  Theorem enc_add_pt_all : oracles isp cands -> is_params isp cands par -> forall l, (l <= max_level par)%nat -> forall sk a m1 B pt m2, is_sk par sk -> encrypts par sk l a m1 B -> is_pt par l pt m2 -> canonical t m2 -> t <= level_modulus par l ->
    (exists ct, ct_add_pt a pt = Val ct /\ encrypts par sk l ct (zipWith Z.add m1 m2) (B + 1)) /\
    (exists ct, ct_sub_pt a pt = Val ct /\ encrypts par sk l ct (zipWith Z.sub m1 m2) (B + 1)) /\
    (exists ct, pt_sub_ct pt a = Val ct /\ encrypts par sk l ct (zipWith Z.sub m2 m1) (B + 1)).
  Proof.
    intros Ho Hp l Hl sk a m1 B pt m2 (Esk & Ls & Hi) Ha Hpt Hm HtQ. pose proof (params_good isp cands par Ho Hp) as G. destruct (at_level_ex isp cands par l Ho G Hl) as (lv & c & A). pose proof (gp_t _ _ _ G) as Ht.
    destruct (pt_P isp cands Ho par G l lv c A pt m2 Hpt) as (y & -> & <-). destruct (encrypts_parts isp cands Ho par G l lv c A sk a m1 B Ls Ha) as (vxs & x & e & Ea & L1 & _ & <- & (He & He') & Hc).
    rewrite Ea. unfold level_modulus in *. set (Q := prod_list (level_moduli (pa_moduli par) l)) in *. set (s := mkR (sk_coeffs sk) Ls) in *. destruct vxs as [|(v & x0) vxs]; [cbn in L1; lia|]. cbn [map snd] in Hc. rewrite rphase_cons in Hc.
    rewrite <- rl_add, <- !rl_sub. split; [|split].
    - rewrite (ct_add_pt_P isp cands par l lv c Ho G A) by assumption. eexists. split; [reflexivity|].
      apply (parts_encrypts isp cands Ho par G l lv c A) with (e := (e + (rscaled Q t x + rscaled Q t y - rscaled Q t (x + y)))%R) (Hl := Ls); [exact L1| |].
      + pose proof (rnorm_add N e (rscaled Q t x + rscaled Q t y - rscaled Q t (x + y))%R). pose proof (rscaled_add Q t x y ltac:(lia)). lia.
      + fold s Q. cbn [map snd]. rewrite rphase_cons. replace (x0 + rscaled Q t y + s * rphase s (map snd vxs))%R with (x0 + s * rphase s (map snd vxs) + rscaled Q t y)%R by ring. eapply rcong_trans; [apply rcong_add; [exact Hc|apply rcong_refl]|].
        match goal with |- rcong _ ?u ?w => replace w with u by ring end. apply rcong_refl.
    - rewrite (ct_sub_pt_P isp cands par l lv c Ho G A) by assumption. eexists. split; [reflexivity|].
      apply (parts_encrypts isp cands Ho par G l lv c A) with (e := (e + (rscaled Q t x - rscaled Q t y - rscaled Q t (x - y)))%R) (Hl := Ls); [exact L1| |].
      + pose proof (rnorm_add N e (rscaled Q t x - rscaled Q t y - rscaled Q t (x - y))%R). pose proof (rscaled_sub Q t x y ltac:(lia)). lia.
      + fold s Q. cbn [map snd]. rewrite rphase_cons. replace (x0 - rscaled Q t y + s * rphase s (map snd vxs))%R with (x0 + s * rphase s (map snd vxs) - rscaled Q t y)%R by ring. eapply rcong_trans; [apply rcong_sub; [exact Hc|apply rcong_refl]|].
        match goal with |- rcong _ ?u ?w => replace w with u by ring end. apply rcong_refl.
    - rewrite (pt_sub_ct_P isp cands par l lv c Ho G A) by assumption. eexists. split; [reflexivity|].
      apply (parts_encrypts isp cands Ho par G l lv c A) with (e := (- e + (rscaled Q t y - rscaled Q t x - rscaled Q t (y - x)))%R) (Hl := Ls); [cbn [length] in *; rewrite map_length; exact L1| |].
      + pose proof (rnorm_add N (- e)%R (rscaled Q t y - rscaled Q t x - rscaled Q t (y - x))%R). pose proof (rnorm_opp N e). pose proof (rscaled_sub Q t y x ltac:(lia)). lia.
      + fold s Q. cbn [map snd]. rewrite rphase_cons, map_map. cbn [snd]. rewrite <- (map_map snd (fun x => - x)%R), rphase_opp. replace (rscaled Q t y - x0 + s * - rphase s (map snd vxs))%R with (rscaled Q t y - (x0 + s * rphase s (map snd vxs)))%R by ring. eapply rcong_trans; [apply rcong_sub; [apply rcong_refl|exact Hc]|].
        match goal with |- rcong _ ?u ?w => replace w with u by ring end. apply rcong_refl.
  Qed.
  Theorem mul_pt_all : oracles isp cands -> is_params isp cands par -> forall l, (l <= max_level par)%nat -> forall a xs pt m, is_ct par l a xs -> xs <> [] -> is_pt par l pt m ->
    exists ct, ct_mul_pt a pt = Val ct /\ ct_seed ct = None /\ is_ct par l ct (map (fun x => negacyclic N x m) xs) /\
      forall s, length s = N -> phase N s (map (fun x => negacyclic N x m) xs) = negacyclic N (phase N s xs) m.
  Proof.
    intros Ho Hp l Hl a xs pt m Ha Hne Hpt. pose proof (params_good isp cands par Ho Hp) as G. destruct (at_level_ex isp cands par l Ho G Hl) as (lv & c & A).
    destruct (pt_P isp cands Ho par G l lv c A pt m Hpt) as (mr & -> & <-). destruct (ct_parts isp cands Ho par G l lv c A a _ Ha) as (vxs & Ea & <-). rewrite Ea.
    rewrite (ct_mul_pt_P isp cands par l lv c Ho G A) by (intros ->; apply Hne; reflexivity). eexists. split; [reflexivity|]. split; [reflexivity|].
    assert (E : forall w, map rl (map snd (map (fun vx : bool * Rn N => (fst vx && w, (snd vx * mr)%R)) vxs)) = map (fun x => negacyclic N x (rl mr)) (map rl (map snd vxs))) by (intros w; rewrite !map_map; apply map_ext; intros; apply rl_mul). rewrite <- (E (p_vt (pt_poly pt))).
    split; [apply (parts_ct isp cands Ho par G l lv c A)|]. intros s Ls. change s with (rl (mkR s Ls)). rewrite !phase_rphase, map_map. cbn [snd]. rewrite <- (map_map snd (fun x => x * mr)%R), rphase_mul. apply rl_mul.
  Qed.
  Theorem enc_mul_pt_all : oracles isp cands -> is_params isp cands par -> forall l, (l <= max_level par)%nat -> forall sk a m1 B pt m2, is_sk par sk -> encrypts par sk l a m1 B -> is_pt par l pt m2 ->
    exists ct, ct_mul_pt a pt = Val ct /\ encrypts par sk l ct (negacyclic N m1 m2) (norm1 m2 * (B + 1)).
  Proof.
    intros Ho Hp l Hl sk a m1 B pt m2 (Esk & Ls & Hi) Ha Hpt. pose proof (params_good isp cands par Ho Hp) as G. destruct (at_level_ex isp cands par l Ho G Hl) as (lv & c & A). pose proof (gp_t _ _ _ G) as Ht.
    destruct (pt_P isp cands Ho par G l lv c A pt m2 Hpt) as (y & -> & <-). destruct (encrypts_parts isp cands Ho par G l lv c A sk a m1 B Ls Ha) as (vxs & x & e & Ea & L1 & _ & <- & (He & He') & Hc).
    rewrite Ea. set (Q := prod_list (level_moduli (pa_moduli par) l)) in *. set (s := mkR (sk_coeffs sk) Ls) in *. rewrite <- rl_mul. rewrite (ct_mul_pt_P isp cands par l lv c Ho G A) by (intros ->; cbn in L1; lia). eexists. split; [reflexivity|].
    apply (parts_encrypts isp cands Ho par G l lv c A) with (e := (e * y + (rscaled Q t x * y - rscaled Q t (x * y)))%R) (Hl := Ls); [rewrite map_length; exact L1| |].
    - pose proof (rnorm_add N (e * y)%R (rscaled Q t x * y - rscaled Q t (x * y))%R). pose proof (rnorm_mul1' e y). pose proof (rscaled_mul Q t x y ltac:(lia)). pose proof (rnorm1_nonneg y). rewrite rnorm1_norm1 in *.
      assert (norm1 (rl y) * rnorm e <= norm1 (rl y) * B) by (apply Z.mul_le_mono_nonneg_l; assumption). lia.
    - fold s Q. rewrite map_map. cbn [snd]. rewrite <- (map_map snd (fun x => x * y)%R), rphase_mul. eapply rcong_trans; [apply rcong_mul; [apply (HQ isp cands par l lv c Ho G A)|exact Hc|apply rcong_refl]|].
      match goal with |- rcong _ ?u ?w => replace w with u by ring end. apply rcong_refl.
  Qed.
  (** Modulus switching *)
  Lemma switch_loop a target l : ct_par a = par -> ct_level a = l -> (l <= target)%nat -> (target <= max_level par)%nat -> ct_switch_to_level a target = iterM (target - l) ct_switch_down a.
  Proof. intros <- <- H1 H2. unfold ct_switch_to_level. destruct (Nat.ltb_spec target (ct_level a)); [lia|]. destruct (Nat.ltb_spec (max_level (ct_par a)) target); [lia|]. reflexivity. Qed.
  Theorem switch_all : oracles isp cands -> is_params isp cands par -> forall l target, (l <= target)%nat -> (target <= max_level par)%nat ->
    forall a xs, is_ct par l a xs -> exists ct ys, ct_switch_to_level a target = Val ct /\ is_ct par target ct ys /\ length ys = length xs /\ (l = target -> ct = a) /\ ((l < target)%nat -> ct_seed ct = None).
  Proof.
    intros Ho Hp l target Hll Hl a xs Ha. pose proof (params_good isp cands par Ho Hp) as G. destruct (at_level_ex isp cands par target Ho G Hl) as (lv' & c' & A'). destruct (at_level_ex isp cands par l Ho G ltac:(lia)) as (lv & c & A).
    destruct (ct_parts isp cands Ho par G l lv c A a _ Ha) as (vxs & Ea & <-). rewrite (switch_loop a target l (proj1 Ha) (proj1 (proj2 Ha)) Hll Hl).
    remember (target - l)%nat as k eqn:Ek. assert (target = l + k)%nat by lia. subst target. clear Ek. rewrite Ea.
    destruct (iter_switch_P isp cands par Ho G k l lv c lv' c' (ct_seed a) vxs A A') as (sd & vys & -> & Ly & Esd & E0 & _). exists (mkCt par sd (parts c' vys) (l + k)), (map rl (map snd vys)). split; [reflexivity|].
    split; [apply (parts_ct isp cands Ho par G (l + k) lv' c' A')|]. split; [rewrite !map_length; exact Ly|]. split.
    - intros E. assert (k = O) by lia. subst k. clear Ea. rewrite Nat.add_0_r in *. rewrite (E0 eq_refl), Esd. replace c' with c; [reflexivity|].
      pose proof (al_par_context isp cands par l lv c A) as E1. pose proof (al_par_context isp cands par l lv' c' A') as E2. congruence.
    - intros Hlt; cbn [ct_seed]; rewrite Esd; destruct k; [lia|reflexivity].
  Qed.
  Theorem enc_switch_all : oracles isp cands -> is_params isp cands par -> forall l target, (l <= target)%nat -> (target <= max_level par)%nat ->
    forall sk a m B, is_sk par sk -> encrypts par sk l a m B -> exists ct, ct_switch_to_level a target = Val ct /\
    encrypts par sk target ct m (dropped_noise (norm1 (sk_coeffs sk)) (length (ct_c a)) (dropped (pa_moduli par) l (target - l)) B).
  Proof.
    intros Ho Hp l target Hll Hl sk a m B (Esk & Ls & Hi) He. pose proof (params_good isp cands par Ho Hp) as G. destruct (at_level_ex isp cands par target Ho G Hl) as (lv' & c' & A'). destruct (at_level_ex isp cands par l Ho G ltac:(lia)) as (lv & c & A).
    assert (Hct : ct_par a = par /\ ct_level a = l) by (destruct He as (? & ? & (E1 & E2 & _) & _); auto).
    destruct (encrypts_parts isp cands Ho par G l lv c A sk a m B Ls He) as (vxs & mr & e & Ea & L1 & L1' & <- & (He1 & He1') & Hc). rewrite (switch_loop a target l (proj1 Hct) (proj2 Hct) Hll Hl). rewrite <- L1'.
    pose proof (dropped_pos isp cands par Ho G l (target - l) ltac:(lia)) as Hpos. remember (target - l)%nat as k eqn:Ek. assert (target = l + k)%nat by lia. subst target. clear Ek. rewrite Ea.
    destruct (iter_switch_P isp cands par Ho G k l lv c lv' c' (ct_seed a) vxs A A') as (sd & vys & -> & Ly & Esd & _ & Hn). destruct (Hn _ _ _ Hc) as (e' & He' & Hc'). eexists. split; [reflexivity|].
    apply (parts_encrypts isp cands Ho par G (l + k) lv' c' A') with (e := e') (Hl := Ls); [lia| |exact Hc']. rewrite rnorm1_norm1 in He'. rewrite rl_mkR in He'. eapply Z.le_trans; [exact He'|]. apply dropped_noise_mono; assumption.
  Qed.
  Theorem switch_down_all : oracles isp cands -> is_params isp cands par -> forall l, (l < max_level par)%nat -> forall a xs, is_ct par l a xs ->
    exists ct, ct_switch_down a = Val ct /\ ct_seed ct = None /\ is_ct par (S l) ct (map (map (round_div (nth (length (pa_moduli par) - 1 - l) (pa_moduli par) 0))) xs).
  Proof.
    intros Ho Hp l Hl a xs Ha. pose proof (params_good isp cands par Ho Hp) as G. destruct (at_level_ex isp cands par (S l) Ho G Hl) as (lv' & c' & A'). destruct (at_level_ex isp cands par l Ho G ltac:(lia)) as (lv & c & A).
    destruct (ct_parts isp cands Ho par G l lv c A a _ Ha) as (vxs & Ea & <-). rewrite Ea, (ct_switch_down_P isp cands par l lv c Ho G A lv' c' _ vxs A'). eexists. split; [reflexivity|]. split; [reflexivity|].
    rewrite (last_dropped isp cands par Ho G l lv c A). set (q := nth _ _ 0).
    assert (E : map rl (map snd (map (fun vx : bool * Rn N => (fst vx, rround q (snd vx))) vxs)) = map (map (round_div q)) (map rl (map snd vxs))) by (rewrite !map_map; reflexivity). rewrite <- E.
    apply (parts_ct isp cands Ho par G (S l) lv' c' A').
  Qed.
  Theorem switch_errors_all : forall a target, 
    (max_level (ct_par a) <= ct_level a -> ct_switch_down a = Err NoMoreContext)%nat /\
    (target < ct_level a \/ max_level (ct_par a) < target -> ct_switch_to_level a target = Err (InvalidLevel (Z.of_nat target) (Z.of_nat (ct_level a)) (Z.of_nat (max_level (ct_par a)))))%nat.
  Proof.
    intros a target. split.
    - intros H. unfold ct_switch_down. destruct (Nat.leb_spec (max_level (ct_par a)) (ct_level a)); [reflexivity|lia].
    - intros H. unfold ct_switch_to_level. destruct (Nat.ltb_spec target (ct_level a)); [reflexivity|]. destruct (Nat.ltb_spec (max_level (ct_par a)) target); [reflexivity|lia].
  Qed.
  (** The zero ciphertext, and what is refused *)
  Theorem zero_all : forall a, ct_par a = par -> ct_add (ct_zero par) a = Val a /\ ct_sub (ct_zero par) a = ct_neg a /\ (ct_c a <> [] -> ct_add a (ct_zero par) = Val a /\ ct_sub a (ct_zero par) = Val a).
  Proof.
    intros a <-. assert (Hs : par_same (ct_par a) (ct_par a) = true) by (unfold par_same; apply Z.eqb_refl). unfold ct_add, ct_sub, ct_zero, is_empty. cbn [ct_par ct_c length Nat.eqb]. rewrite Hs. cbn [guard bind].
    split; [reflexivity|]. split; [reflexivity|]. intros Hne. destruct (ct_c a); [congruence|]. split; reflexivity.
  Qed.
  Theorem mismatch_all : forall a b, ct_c a <> [] -> ct_c b <> [] -> pa_id (ct_par a) <> pa_id (ct_par b) \/ ct_level a <> ct_level b \/ length (ct_c a) <> length (ct_c b) -> ct_add a b = Panic /\ ct_sub a b = Panic.
  Proof.
    intros a b Ha Hb H. unfold ct_add, ct_sub, ct_op2, is_empty. destruct (par_same (ct_par a) (ct_par b)) eqn:E; [|split; reflexivity]. cbn [guard bind]. apply Z.eqb_eq in E.
    destruct (ct_c a) as [|a0 la] eqn:Ea; [congruence|]. destruct (ct_c b) as [|b0 lb] eqn:Eb; [congruence|]. cbn [length Nat.eqb]. destruct (Nat.eqb_spec (ct_level a) (ct_level b)); [|split; reflexivity]. cbn [guard bind].
    destruct (Nat.eqb_spec (length la) (length lb)) as [El|]; [|split; reflexivity]. exfalso. destruct H as [H|[H|H]]; [congruence|congruence|]. apply H. cbn [length]. congruence.
  Qed.
  Theorem mismatch_pt_all : oracles isp cands -> is_params isp cands par -> forall l, (l <= max_level par)%nat -> forall a pt m, is_pt par l pt m -> ct_par a = par -> ct_c a = [] \/ ct_level a <> l ->
    ct_add_pt a pt = Panic /\ ct_sub_pt a pt = Panic /\ pt_sub_ct pt a = Panic /\ (ct_c a <> [] -> ct_mul_pt a pt = Panic).
  Proof.
    intros Ho Hp l Hl a pt m Hpt Ea H. pose proof (params_good isp cands par Ho Hp) as G. destruct (at_level_ex isp cands par l Ho G Hl) as (lv & c & A). destruct (pt_P isp cands Ho par G l lv c A pt m Hpt) as (x & -> & _).
    assert (E : forall f, ct_op_pt f a (mkPt par (pt_enc pt) (P Ntt c (p_vt (pt_poly pt)) x)) = Panic).
    { intros f. unfold ct_op_pt, is_empty, par_same. cbn [pt_par]. rewrite Ea, Z.eqb_refl. cbn [guard bind]. rewrite (pt_level_P isp cands par l lv c Ho G A). destruct (Nat.eqb_spec (length (ct_c a)) 0) as [E0|E0]; [reflexivity|]. cbn [negb guard bind].
      destruct (Nat.eqb_spec (ct_level a) l); [|reflexivity]. destruct H as [H|H]; [rewrite H in E0; cbn in E0; congruence|congruence]. }
    unfold pt_sub_ct, ct_add_pt, ct_sub_pt. rewrite !E. split; [reflexivity|]. split; [reflexivity|]. split; [reflexivity|]. intros Hne. unfold ct_mul_pt, is_empty, par_same. cbn [pt_par]. rewrite Ea, Z.eqb_refl. cbn [guard bind].
    destruct (ct_c a) as [|p ps]; [congruence|]. cbn [length Nat.eqb]. rewrite (pt_level_P isp cands par l lv c Ho G A). cbn [bind]. destruct (Nat.eqb_spec (ct_level a) l); [|reflexivity]. destruct H; congruence.
  Qed.
End Props.
