(** The statements of PropsNtt.v, assembled. *)
From Verif Require Import Outcome OutcomeLemmas BasicSpec ZqModel ZqProofs ZqPow NumTheory NttModel PolySpec PolyRing NttPure NttStages NttProofs.
From Coq Require Import Znumtheory.

Lemma supports_all : forall isp, prime_oracle isp -> forall p n, 2 <= p < 2 ^ 62 ->
  (supports_ntt isp p n = Val true <->
   exists k, 3 <= k /\ n = 2 ^ k /\ prime p /\ p mod (2 * n) = 1).
Proof.
  intros isp Hisp p n Hp. assert (HW : (2 ^ 62) * 4 = W64) by reflexivity. split.
  - intros E. destruct (supports_ntt_inv isp p n Hp E) as (K & HK & -> & Em & Ei). exists (Z.of_nat K).
    split; [lia|]. split; [reflexivity|]. split; [|exact Em]. apply (Hisp p); [unfold is_u64; lia|exact Ei].
  - intros (k & Hk & -> & Hpr & Em). unfold supports_ntt.
    assert (8 <= 2 ^ k) by (change 8 with (2 ^ 3); apply Z.pow_le_mono_r; lia).
    rewrite bind_guard.
    2:{ rewrite andb_true_iff. split; [apply Z.leb_le; lia|]. unfold is_power_of_two. rewrite Z.log2_pow2 by lia.
        rewrite andb_true_iff. split; [apply Z.ltb_lt; lia|apply Z.eqb_refl]. }
    pose proof (mod_1_ge p (2 * 2 ^ k) ltac:(lia) ltac:(lia) Em).
    cbv zeta. rewrite Z.shiftl_mul_pow2 by lia. change (2 ^ 1) with 2. rewrite (Z.mod_small (2 ^ k * 2)) by lia.
    rewrite bind_guard by (apply negb_true_iff, Z.eqb_neq; lia). rewrite (Z.mul_comm (2 ^ k)), Em. cbn [Z.eqb Pos.eqb andb].
    f_equal. apply (Hisp p); [unfold is_u64; lia|exact Hpr].
Qed.
Lemma new_none_all : forall isp, prime_oracle isp -> forall p m, modulus_new p = Val m -> forall cands size,
  supports_ntt isp p (Z.of_nat size) = Val false -> ntt_new isp cands m size = Val None.
Proof. intros isp Hisp. use_modulus m. exact (ntt_new_none isp m). Qed.
Lemma cong_m1 p x : 2 <= p -> x mod p = p - 1 <-> cong p x (-1).
Proof.
  intros Hp. unfold cong. replace ((-1) mod p) with (p - 1); [reflexivity|].
  replace (-1) with (p - 1 + (-1) * p) by ring. rewrite Z_mod_plus_full, Z.mod_small by lia. reflexivity.
Qed.
Lemma new_some_all : forall isp, prime_oracle isp -> forall p m, modulus_new p = Val m -> forall cands size,
  canonical p cands -> supports_ntt isp p (Z.of_nat size) = Val true ->
  (exists c, In c cands /\ c ^ ((p - 1) / 2) mod p = p - 1) ->
  exists op, ntt_new isp cands m size = Val (Some op).
Proof.
  intros isp Hisp. use_modulus m. intros cands size Hc Es (c & Hin & Hq). apply ntt_new_total; try assumption.
  exists c. split; [exact Hin|]. apply cong_m1; [apply valid_fields, Hm|exact Hq].
Qed.

Lemma inverse_all : forall isp, prime_oracle isp -> forall p m, modulus_new p = Val m -> forall cands, canonical p cands ->
  forall n op, ntt_new isp cands m n = Val (Some op) -> forall a, length a = n -> canonical p a ->
  (exists b, ntt_forward op a = Val b /\ length b = n /\ canonical p b /\ ntt_backward op b = Val a) /\
  (exists b, ntt_backward op a = Val b /\ length b = n /\ canonical p b /\ ntt_forward op b = Val a).
Proof.
  intros isp Hisp. use_modulus m. intros cands Hc n op E a Ha Hca.
  destruct (ntt_new_ok isp Hisp m Hm cands n op Hc E) as (K & w & Hok & <- & <-). pose proof (p_pos op K w Hok).
  assert (B4 : forall x, canonical (mod_p (nt_p op)) x -> below (4 * mod_p (nt_p op)) x) by (intros x; apply below_le; lia).
  assert (B2 : forall x, canonical (mod_p (nt_p op)) x -> below (2 * mod_p (nt_p op)) x) by (intros x; apply below_le; lia).
  split.
  - exists (NTT op a). rewrite (forward_NTT op K w Hok) by auto. rewrite (NTT_length op K w Hok) by exact Ha.
    pose proof (NTT_canonical op K w Hok a). rewrite (backward_INTT op K w Hok); [|apply (NTT_length op K w Hok), Ha|auto].
    rewrite (INTT_NTT op K w Hok) by exact Ha. rewrite rmod_small by exact Hca. auto.
  - exists (INTT op a). rewrite (backward_INTT op K w Hok) by auto. rewrite (INTT_length op K w Hok) by exact Ha.
    pose proof (INTT_canonical op K w Hok a). rewrite (forward_NTT op K w Hok); [|apply (INTT_length op K w Hok), Ha|auto].
    rewrite (NTT_INTT op K w Hok) by exact Ha. rewrite rmod_small by exact Hca. auto.
Qed.
Lemma length_all : forall op a, length a <> nt_size op ->
  ntt_forward op a = Panic /\ ntt_backward op a = Panic.
Proof.
  intros op a H. unfold ntt_forward, ntt_backward. apply Nat.eqb_neq in H. rewrite H. split; reflexivity.
Qed.

Lemma evaluation_all : forall isp, prime_oracle isp -> forall p m, modulus_new p = Val m -> forall cands, canonical p cands ->
  forall k op, ntt_new isp cands m (2 ^ k)%nat = Val (Some op) ->
  let n := (2 ^ k)%nat in
  exists psi, 0 <= psi < p /\ psi ^ Z.of_nat n mod p = p - 1 /\
    (forall a, length a = n -> canonical p a -> exists b, ntt_forward op a = Val b /\ length b = n /\
       forall i, (i < n)%nat -> nth i b 0 = eval a (psi ^ (2 * bitrev k (Z.of_nat i) + 1)) mod p) /\
    (forall i, (i < n)%nat -> (psi ^ (2 * bitrev k (Z.of_nat i) + 1)) ^ Z.of_nat n mod p = p - 1) /\
    (forall x, x ^ Z.of_nat n mod p = p - 1 ->
       exists! i, (i < n)%nat /\ x mod p = psi ^ (2 * bitrev k (Z.of_nat i) + 1) mod p).
Proof.
  intros isp Hisp. use_modulus m. intros cands Hc k op E.
  destruct (ntt_new_ok isp Hisp m Hm cands _ op Hc E) as (K & w & Hok & Em & En).
  assert (K = k) as ->.
  { rewrite (ok_size _ _ _ Hok) in En. apply (Nat.pow_inj_r 2); [lia|exact En]. }
  subst m. pose proof (p_bounds op k w Hok) as Hp. pose proof (p_pos op k w Hok). cbv zeta. rewrite <- En.
  exists w. split; [apply (ok_w _ _ _ Hok)|]. split; [|split; [|split]].
  - apply cong_m1; [lia|]. rewrite (ok_size _ _ _ Hok), nat_pow2_Z. apply (ok_n _ _ _ Hok).
  - intros a Ha Hca. exists (NTT op a). rewrite (forward_NTT op k w Hok) by (try exact Ha; revert Hca; apply below_le; lia).
    split; [reflexivity|]. split; [apply (NTT_length op k w Hok), Ha|]. intros i Hi. apply (NTT_eval op k w Hok); assumption.
  - intros i Hi. apply cong_m1; [lia|]. apply (point_root op k w Hok i Hi).
  - intros x Hx. apply cong_m1 in Hx; [|lia]. destruct (point_surj op k w Hok x Hx) as (i & Hi & Ei). exists i. split; [split; [exact Hi|exact Ei]|].
    intros j (Hj & Ej). apply (point_inj op k w Hok); [exact Hi|exact Hj|]. unfold cong, point. rewrite <- Ej. symmetry. exact Ei.
Qed.

Lemma convolution_all : forall isp, prime_oracle isp -> forall p m, modulus_new p = Val m -> forall cands, canonical p cands ->
  forall n op, ntt_new isp cands m n = Val (Some op) -> forall a b, length a = n -> length b = n -> canonical p a -> canonical p b ->
  exists fa fb fc, ntt_forward op a = Val fa /\ ntt_forward op b = Val fb /\ mul_vec m fa fb = Val fc /\
    ntt_backward op fc = Val (map (fun x => x mod p) (negacyclic n a b)).
Proof.
  intros isp Hisp. use_modulus m. intros cands Hc n op E a b Ha Hb Hca Hcb.
  destruct (ntt_new_ok isp Hisp m Hm cands n op Hc E) as (K & w & Hok & <- & <-). pose proof (p_pos op K w Hok).
  assert (B4 : forall x, canonical (mod_p (nt_p op)) x -> below (4 * mod_p (nt_p op)) x) by (intros x; apply below_le; lia).
  assert (B2 : forall x, canonical (mod_p (nt_p op)) x -> below (2 * mod_p (nt_p op)) x) by (intros x; apply below_le; lia).
  exists (NTT op a), (NTT op b), (NTT op (nmul (nt_size op) a b)).
  rewrite !(forward_NTT op K w Hok) by auto. split; [reflexivity|]. split; [reflexivity|]. split.
  - rewrite (proj1 (mul_vec_spec _ Hm (NTT op a) (NTT op b) (NTT_canonical op K w Hok a) (NTT_canonical op K w Hok b)
      ltac:(rewrite !(NTT_length op K w Hok) by assumption; reflexivity))).
    rewrite (NTT_nmul op K w Hok) by assumption. reflexivity.
  - rewrite (backward_INTT op K w Hok); [|apply (NTT_length op K w Hok), nmul_length, Hb|apply B2, (NTT_canonical op K w Hok)].
    rewrite (INTT_NTT op K w Hok) by (apply nmul_length, Hb). rewrite nmul_negacyclic by assumption. reflexivity.
Qed.

Lemma variants_all : forall isp, prime_oracle isp -> forall p m, modulus_new p = Val m -> forall cands, canonical p cands ->
  forall n op, ntt_new isp cands m n = Val (Some op) -> forall a, length a = n ->
  (Forall (fun x => 0 <= x < 4 * p) a ->
     exists b l, ntt_forward op a = Val b /\ ntt_forward_vt op a = Val b /\ canonical p b /\ length b = n /\
       ntt_forward_vt_lazy op a = Val l /\ Forall (fun x => 0 <= x < 4 * p) l /\ map (fun x => x mod p) l = b /\
       ntt_forward op (map (fun x => x mod p) a) = Val b) /\
  (Forall (fun x => 0 <= x < 2 * p) a ->
     exists b, ntt_backward op a = Val b /\ ntt_backward_vt op a = Val b /\ canonical p b /\ length b = n /\
       ntt_backward op (map (fun x => x mod p) a) = Val b).
Proof.
  intros isp Hisp. use_modulus m. intros cands Hc n op E a Ha.
  destruct (ntt_new_ok isp Hisp m Hm cands n op Hc E) as (K & w & Hok & <- & <-). pose proof (p_pos op K w Hok).
  split; intros Hb.
  - destruct (forward_vt_lazy_NTT op K w Hok a Ha Hb) as (l & El & Bl & Ml). exists (NTT op a), l.
    rewrite (forward_NTT op K w Hok a Ha Hb), (forward_vt_NTT op K w Hok a Ha Hb).
    do 2 (split; [reflexivity|]). split; [apply (NTT_canonical op K w Hok)|]. split; [apply (NTT_length op K w Hok), Ha|].
    split; [exact El|]. split; [exact Bl|]. split; [exact Ml|].
    rewrite (forward_NTT op K w Hok); [|rewrite map_length; exact Ha|apply (below_le (mod_p (nt_p op))); [lia|apply canonical_map_mod; lia]].
    f_equal. apply NTT_cong, lcong_map_mod.
  - exists (INTT op a). rewrite (backward_INTT op K w Hok a Ha Hb), (backward_vt_INTT op K w Hok a Ha Hb).
    do 2 (split; [reflexivity|]). split; [apply (INTT_canonical op K w Hok)|]. split; [apply (INTT_length op K w Hok), Ha|].
    rewrite (backward_INTT op K w Hok); [|rewrite map_length; exact Ha|apply (below_le (mod_p (nt_p op))); [lia|apply canonical_map_mod; lia]].
    f_equal. apply INTT_cong, lcong_map_mod.
Qed.

Lemma ntt_new_example : exists isp m op, prime_oracle isp /\ modulus_new 1153 = Val m /\
  supports_ntt isp 1153 16 = Val true /\ ntt_new isp [0; 1; 5] m 16 = Val (Some op).
Proof.
  destruct prime_oracle_exists as (isp & Hisp). exists isp.
  assert (S : supports_ntt isp 1153 16 = Val true).
  { apply supports_all; [exact Hisp|lia|]. exists 4. split; [lia|]. split; [reflexivity|]. split; [|reflexivity].
    apply (check_prime_spec 1000). vm_compute. reflexivity. }
  destruct (modulus_new 1153) as [m| |] eqn:Em; [|vm_compute in Em; discriminate..].
  destruct (new_some_all isp Hisp 1153 m Em [0; 1; 5] 16%nat) as (op & Eop).
  - repeat constructor; lia.
  - exact S.
  - exists 5. split; [cbn; auto|vm_compute; reflexivity].
  - exists m, op. auto.
Qed.
