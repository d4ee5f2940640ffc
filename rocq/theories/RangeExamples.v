(** Concrete values for PropsRange.v. *)
From Verif Require Import Outcome BasicSpec NttModel PolySpec RnsModel RnsSpec RqModel RqSpec ParamsModel BfvSpec BuildProofs PrimeCert ExampleParams ParamsPropLemmas PlainModel SchemeSpec PlainProofs PlainPropLemmas DefaultPropLemmas RangeSpec RangePropLemmas.

(** t = 17, degree 8, moduli 1048433 and 1048273: slots up to 33 are reduced, 34 panics; coefficients below 4 * 1048433 are
    accepted at the last level, which 4193732 is not; at level 0 all are; the vectors; the signed and the large encoders. *)
Definition res {A} (r : M A) : Z := match r with Val _ => 0 | Err _ => 1 | Panic => 2 end.
Definition range_run (pe : M params) : list Z :=
  match pe with
  | Val par =>
      [res (encode_u64 false [33] (mkEnc EncSimd 0) par); res (encode_u64 false [34] (mkEnc EncSimd 0) par); res (encode_u64 true [34] (mkEnc EncSimd 1) par);
       res (encode_u64 false [0; 4193731] (mkEnc EncPoly 1) par); res (encode_u64 false [0; 4193732] (mkEnc EncPoly 1) par); res (encode_u64 true [0; 4193732] (mkEnc EncPoly 1) par);
       res (encode_u64 false [W64 - 1] (mkEnc EncPoly 0) par); res (encode_vec_u64 false (repeat 0 8 ++ [33]) (mkEnc EncSimd 0) par); res (encode_vec_u64 false (repeat 0 8 ++ [34]) (mkEnc EncSimd 0) par);
       res (encode_u64 false (repeat 0 8 ++ [34]) (mkEnc EncSimd 0) par); res (encode_u64 false [34] (mkEnc EncSimd 2) par);
       res (encode_big [34] (mkEnc EncSimd 0) par); res (encode_big [34; W64] (mkEnc EncSimd 0) par); res (encode_big [4193732; W64] (mkEnc EncPoly 1) par);
       res (encode_i64 [-9223372036854775808; 34] (mkEnc EncSimd 1) par)]
  | _ => []
  end.
Lemma range_run_eq : range_run par_ex = [0; 2; 2; 0; 2; 2; 0; 0; 2; 1; 1; 2; 1; 0; 0].
Proof. vm_compute. reflexivity. Qed.
Lemma range_ex : exists par, is_params isp_bfv cands_bfv par /\ range_run (Val par) = [0; 2; 2; 0; 2; 2; 0; 0; 2; 1; 1; 2; 1; 0; 0] /\
  available par (mkEnc EncSimd 0) /\ too_large par (mkEnc EncSimd 0) [34] /\ ~ too_large par (mkEnc EncSimd 0) [33] /\ available par (mkEnc EncPoly 1) /\ too_large par (mkEnc EncPoly 1) [0; 4193732] /\
  ~ too_large par (mkEnc EncPoly 0) [W64 - 1] /\ pa_t par <= 4 * level_modulus par 1.
Proof.
  destruct params_exist_all as (par & E & Hp & Em & Et & _ & _ & En). exists par. split; [exact Hp|]. split; [rewrite <- E; exact range_run_eq|]. pose proof (max_level_eq _ _ par oracles_bfv Hp) as Hl. rewrite Em in Hl. cbn [length] in Hl.
  unfold available, usable, too_large. cbn [e_kind e_level]. rewrite Et, Hl. unfold level_modulus. rewrite Em.
  split; [split; [intros _; exact En|lia]|]. split; [constructor; lia|]. split; [intros H; inversion H as [? ? H'|? ? H']; [lia|inversion H']|]. split; [split; [discriminate|lia]|].
  split; [split; [reflexivity|]; apply Exists_cons_tl, Exists_cons_hd; vm_compute; discriminate|]. split; [intros (H & _); discriminate|]. vm_compute. discriminate.
Qed.
(** A plaintext modulus more than four times the modulus of the last level. *)
Lemma low_ex : exists par, is_params isp_bfv cands_bfv par /\ pa_t par < 2 ^ 64 /\ 4 * level_modulus par (max_level par) < pa_t par.
Proof.
  destruct (ex_params 401 [97; 193]) as (par & Hp & Em & Et & _); [lia|discriminate| |cbn; lia|vm_compute; reflexivity|vm_compute; reflexivity|].
  - constructor; [|constructor; [|constructor]]; cbn; intuition discriminate.
  - exists par. split; [exact Hp|]. rewrite (max_level_eq _ _ par oracles_bfv Hp). unfold level_modulus. rewrite Em, Et. split; [reflexivity|vm_compute; reflexivity].
Qed.
(** A plaintext modulus above 2^64, and one equal to it. *)
Lemma high_ex t : 2 ^ 64 <= t < 17592186028033 * 17592185438209 -> forallb (fun q => Z.gcd t q =? 1) [17592186028033; 17592185438209] = true ->
  exists par, is_params isp_bfv cands_bfv par /\ pa_t par = t /\ t <= level_modulus par 0.
Proof.
  intros Ht Hg. cbn [forallb] in Hg. rewrite !andb_true_iff, !Z.eqb_eq in Hg. destruct Hg as (Hg1 & Hg2 & _).
  set (b := mkBuilder 8 t 10 [17592186028033; 17592185438209] []). assert (Hb : is_builder b) by (unfold is_builder, is_u64, b; cbn [b_degree b_plaintext b_variance b_moduli b_sizes]; split; [lia|]; split; [lia|]; split; [lia|]; split; [|constructor]; repeat (constructor; [lia|]); constructor).
  destruct (accepts_all isp_bfv cands_bfv oracles_bfv cands_bfv_complete 1 8 t 10 [17592186028033; 17592185438209]) as (par & E).
  - exists 3. split; [lia|reflexivity].
  - lia.
  - lia.
  - lia.
  - discriminate.
  - split; [repeat (constructor; [cbn [In]; lia|]); constructor|]. split; [|split; [cbn [prod_list fold_right]; lia|constructor; [exact Hg1|constructor; [exact Hg2|constructor]]]].
    repeat (constructor; [split; [apply certified; vm_compute; reflexivity|split; [lia|reflexivity]]|]). constructor.
  - exists [4611686018427322369; 4611686018427289601; 4611686018425815041]. split; [reflexivity|]. split; [repeat (constructor; [cbn [In]; lia|]); constructor|].
    repeat (constructor; [split; [split; [apply certified; vm_compute; reflexivity|split; [lia|reflexivity]]|split; [lia|cbn [In]; lia]]|]). constructor.
  - assert (Hp : is_params isp_bfv cands_bfv par) by (exists 1, b; split; [exact Hb|exact E]). exists par. split; [exact Hp|]. pose proof (built_all isp_bfv cands_bfv oracles_bfv 1 b par Hb E) as (_ & _ & _ & (_ & Et) & _ & _ & Hm & _). cbn [b b_plaintext] in Et. specialize (Hm eq_refl). cbn [b b_moduli] in Hm.
    split; [exact Et|]. unfold level_modulus. rewrite Hm. change (prod_list (level_moduli [17592186028033; 17592185438209] 0)) with (17592186028033 * (17592185438209 * 1)). lia.
Qed.
Lemma above_ex : exists par, is_params isp_bfv cands_bfv par /\ 2 ^ 64 < pa_t par /\ pa_t par <= level_modulus par 0.
Proof. destruct (high_ex (2 ^ 65)) as (par & Hp & Et & H); [split; [lia|reflexivity]|vm_compute; reflexivity|]. exists par. split; [exact Hp|]. rewrite Et. split; [reflexivity|exact H]. Qed.
