(** Correctness of the NTT model: constructor, inverse, evaluation, convolution. *)
From Verif Require Import Outcome OutcomeLemmas NumTheory ZqModel ZqProofs ZqPow NttModel PolySpec PolyRing NttPure NttStages.
From Coq Require Import Znumtheory.

Lemma NoDup_map_in {A B} (f : A -> B) l : (forall x y, In x l -> In y l -> f x = f y -> x = y) -> NoDup l -> NoDup (map f l).
Proof.
  intros Hf. induction 1 as [|a l Ha Hl IH]; cbn [map]; constructor.
  - rewrite in_map_iff. intros (b & E & Hb). apply Ha. rewrite (Hf a b); [exact Hb|left; reflexivity|right; exact Hb|symmetry; exact E].
  - apply IH. intros x y Hx Hy. apply Hf; right; assumption.
Qed.

(** * Roots of polynomials modulo a prime *)
Fixpoint sdiv (r : Z) (a : list Z) : list Z :=
  match a with [] => [] | _ :: t => match t with [] => [] | _ => eval t r :: sdiv r t end end.
Lemma sdiv_length r a : length (sdiv r a) = (length a - 1)%nat.
Proof. induction a as [|c [|d a] IH]; try reflexivity. change (sdiv r (c :: d :: a)) with (eval (d :: a) r :: sdiv r (d :: a)). cbn [length] in *. lia. Qed.
Lemma sdiv_eval r a x : eval a x = (x - r) * eval (sdiv r a) x + eval a r.
Proof.
  induction a as [|c a IH]; [cbn; ring|]. destruct a as [|d a]; [cbn; ring|].
  change (sdiv r (c :: d :: a)) with (eval (d :: a) r :: sdiv r (d :: a)).
  change (eval (c :: d :: a) x) with (c + x * eval (d :: a) x). change (eval (c :: d :: a) r) with (c + r * eval (d :: a) r).
  change (eval (eval (d :: a) r :: sdiv r (d :: a)) x) with (eval (d :: a) r + x * eval (sdiv r (d :: a)) x).
  rewrite IH. ring.
Qed.
Definition all0 (p : Z) (a : list Z) : Prop := Forall (fun c => cong p c 0) a.
Lemma sdiv_all0 p r a : cong p (eval a r) 0 -> all0 p (sdiv r a) -> all0 p a.
Proof.
  induction a as [|c a IH]; intros He Hs; [constructor|]. destruct a as [|d a].
  - constructor; [|constructor]. cbn [eval] in He. replace (c + r * 0) with c in He by ring. exact He.
  - change (sdiv r (c :: d :: a)) with (eval (d :: a) r :: sdiv r (d :: a)) in Hs. inversion Hs as [|? ? H1 H2]; subst.
    constructor; [|apply IH; assumption].
    change (eval (c :: d :: a) r) with (c + r * eval (d :: a) r) in He. rewrite H1 in He. rewrite Z.mul_0_r, Z.add_0_r in He. exact He.
Qed.
Lemma root_bound p : prime p -> forall rs a, NoDup (map (fun x => x mod p) rs) ->
  Forall (fun r => cong p (eval a r) 0) rs -> (length a <= length rs)%nat -> all0 p a.
Proof.
  intros Hp. induction rs as [|r rs IH]; intros a Hnd Hr Hl.
  - destruct a; [constructor|cbn in Hl; lia].
  - inversion Hr as [|? ? H1 H2]; subst. cbn [map] in Hnd. inversion Hnd as [|? ? N1 N2]; subst.
    apply (sdiv_all0 p r a H1). apply IH; [exact N2| |rewrite sdiv_length; cbn in Hl; lia].
    rewrite Forall_forall in *. intros s Hs. specialize (H2 s Hs). rewrite (sdiv_eval r a s) in H2. rewrite H1, Z.add_0_r in H2.
    destruct (prime_integral p _ _ Hp H2) as [H3|H3]; [|exact H3]. exfalso. apply N1.
    rewrite in_map_iff. exists s. split; [|exact Hs]. assert (E : cong p s r); [|exact E].
    replace s with (s - r + r) by ring. rewrite H3. reflexivity.
Qed.

(** * The constructor *)
Lemma nbits_pow2 k : 0 <= k -> nbits (2 ^ k) = k + 1.
Proof.
  intros H. unfold nbits. assert (0 < 2 ^ k) by (apply Z.pow_pos_nonneg; lia).
  destruct (Z.leb_spec (2 ^ k) 0); [lia|]. rewrite Z.log2_pow2 by lia. reflexivity.
Qed.
Lemma reverse_bits_loop_spec n x acc : reverse_bits_loop n x acc = 2 ^ Z.of_nat n * acc + bitrev n x.
Proof.
  revert x acc; induction n as [|n IH]; intros x acc; cbn [reverse_bits_loop bitrev].
  - change (2 ^ Z.of_nat 0) with 1. ring.
  - rewrite IH, pow2_succ. ring.
Qed.
Lemma bitrev_index_spec K i : (K < 64)%nat -> 0 <= i < 2 ^ Z.of_nat K ->
  bitrev_index (2 ^ Z.of_nat K) i = bitrev K i.
Proof.
  intros HK Hi. unfold bitrev_index, reverse_bits64, leading_zeros64. rewrite reverse_bits_loop_spec, nbits_pow2 by lia.
  rewrite Z.mul_0_r, Z.add_0_l. replace (64 - (Z.of_nat K + 1) + 1) with (Z.of_nat (64 - K)) by lia.
  rewrite shiftr_div by lia. replace (bitrev 64 i) with (bitrev (K + (64 - K)) (i + 2 ^ Z.of_nat K * 0)).
  - rewrite bitrev_split by exact Hi. rewrite bitrev_0, Z.add_0_r. rewrite Z.mul_comm, Z.div_mul; [reflexivity|].
    apply Z.pow_nonzero; lia.
  - f_equal; [lia|ring].
Qed.

Lemma supports_ntt_inv isp p n : 2 <= p < W62 -> supports_ntt isp p n = Val true ->
  exists K : nat, (3 <= K < 63)%nat /\ n = 2 ^ Z.of_nat K /\ p mod (2 * n) = 1 /\ isp p = true.
Proof.
  intros Hp. unfold supports_ntt. intros E. apply bind_inv in E. destruct E as (u & E1 & E). apply guard_inv in E1.
  apply andb_prop in E1. destruct E1 as (H8 & H2). unfold is_power_of_two in H2. apply andb_prop in H2. destruct H2 as (_ & H2).
  apply Z.leb_le in H8. apply Z.eqb_eq in H2. cbv zeta in E. apply bind_inv in E. destruct E as (u' & E1 & E). apply guard_inv in E1.
  apply negb_true_iff, Z.eqb_neq in E1. match type of E with Val ?b = _ => assert (E' : b = true) by congruence end. apply andb_prop in E'. destruct E' as (E2 & E3). apply Z.eqb_eq in E2.
  pose proof (Z.log2_nonneg n) as Hl. rewrite Z.shiftl_mul_pow2 in E1 by lia. rewrite Z.shiftl_mul_pow2 in E2 by lia. change (2 ^ 1) with 2 in *.
  exists (Z.to_nat (Z.log2 n)). rewrite Z2Nat.id by lia.
  assert (H3 : 3 <= Z.log2 n) by (change 3 with (Z.log2 8); apply Z.log2_le_mono; exact H8).
  assert (H63 : Z.log2 n < 63).
  { destruct (Z.lt_ge_cases (Z.log2 n) 63) as [|Hge]; [assumption|]. exfalso. apply E1.
    replace (n * 2) with (2 ^ (Z.log2 n - 63) * W64); [apply Z_mod_mult|].
    rewrite H2 at 2. change W64 with (2 ^ 64). rewrite <- Z.pow_add_r by lia.
    replace (2 ^ Z.log2 n * 2) with (2 ^ (Z.log2 n + 1)) by (rewrite Z.pow_add_r by lia; reflexivity). f_equal. lia. }
  split; [lia|]. split; [exact H2|]. split; [|exact E3].
  rewrite (Z.mod_small (n * 2)) in E2; [rewrite Z.mul_comm; exact E2|].
  assert (n < 2 ^ 63) by (rewrite H2; apply Z.pow_lt_mono_r; lia). change W64 with (2 ^ 63 * 2). lia.
Qed.

Lemma successive_spec m w : valid_modulus m -> 0 <= w < mod_p m -> forall c x, 0 <= x < mod_p m ->
  successive m w c x = Val (map (fun i => (x * w ^ Z.of_nat i) mod mod_p m) (seq 0 c)).
Proof.
  intros Hm Hw. induction c as [|c IH]; intros x Hx; [reflexivity|]. cbn [successive].
  rewrite (zq_mul_spec m Hm x w Hx Hw). cbn [bind]. rewrite IH by (apply Z.mod_pos_bound; lia). cbn [bind].
  rewrite <- cons_seq, <- seq_shift, map_cons, map_map. f_equal. f_equal.
  - change (w ^ Z.of_nat 0) with 1. rewrite Z.mul_1_r, Z.mod_small by lia. reflexivity.
  - apply map_ext. intros i. rewrite Nat2Z.inj_succ, Z.pow_succ_r by lia. rewrite Z.mul_mod_idemp_l by lia. f_equal. ring.
Qed.

Lemma is_primitive_root_inv isp m a n : valid_modulus m -> prime (mod_p m) -> 0 <= a < mod_p m -> 0 <= 2 * n < mod_p m ->
  is_primitive_root isp m a (2 * n) = Val true -> cong (mod_p m) (a ^ n) (-1).
Proof.
  intros Hm Hp Ha Hn. unfold is_primitive_root. intros E.
  apply bind_inv in E. destruct E as (_ & _ & E). apply bind_inv in E. destruct E as (s & _ & E). apply bind_inv in E. destruct E as (_ & _ & E).
  rewrite zq_pow_spec in E by (assumption || lia). cbn [bind] in E.
  destruct (Z.eqb_spec (a ^ (2 * n) mod mod_p m) 1) as [E1|]; [|discriminate].
  replace (2 * n / 2) with n in E by (rewrite Z.mul_comm, Z.div_mul; lia).
  rewrite zq_pow_spec in E by (assumption || lia). cbn [bind] in E. injection E as E. apply negb_true_iff, Z.eqb_neq in E.
  assert (Hp2 : 2 <= mod_p m) by apply valid_fields, Hm.
  destruct (prime_square_1 (mod_p m) (a ^ n) Hp) as [H|H].
  - rewrite <- Z.pow_add_r by lia. replace (n + n) with (2 * n) by ring. unfold cong. rewrite E1, Z.mod_small by lia. reflexivity.
  - exfalso. apply E. unfold cong in H. rewrite H. apply Z.mod_small. lia.
  - exact H.
Qed.

Lemma primitive_root_loop_inv isp m n lambda cands w : valid_modulus m -> prime (mod_p m) -> canonical (mod_p m) cands ->
  0 <= 2 * n < mod_p m -> 0 <= lambda < mod_p m ->
  primitive_root_loop isp m n lambda cands = Val w -> 0 <= w < mod_p m /\ cong (mod_p m) (w ^ n) (-1).
Proof.
  intros Hm Hp Hc Hn Hl. assert (Hp2 : 2 <= mod_p m) by apply valid_fields, Hm.
  induction Hc as [|c cs Hc Hcs IH]; intros E; [discriminate|]. cbn [primitive_root_loop] in E.
  rewrite zq_pow_spec in E by assumption. cbn [bind] in E. set (r := c ^ lambda mod mod_p m) in *.
  assert (Hr : 0 <= r < mod_p m) by (apply Z.mod_pos_bound; lia).
  apply bind_inv in E. destruct E as (b & Eb & E). destruct b; [|auto]. injection E as <-. split; [exact Hr|].
  eapply is_primitive_root_inv; eassumption.
Qed.

Lemma mod_1_ge p d : 2 <= p -> 0 < d -> p mod d = 1 -> d < p.
Proof. intros Hp Hd E. pose proof (Z.div_mod p d ltac:(lia)). assert (0 < p / d); [|nia].
  destruct (Z.lt_ge_cases 0 (p / d)); [assumption|]. assert (0 <= p / d) by (apply Z.div_pos; lia). nia. Qed.

Lemma nat_pow2_Z K : Z.of_nat (2 ^ K) = 2 ^ Z.of_nat K.
Proof. rewrite Nat2Z.inj_pow. reflexivity. Qed.

Lemma mapM_get_bitrev {A} (f : nat -> A) K : (K < 63)%nat ->
  mapM (fun i => get (map f (seq 0 (2 ^ K))) (Z.to_nat (bitrev_index (2 ^ Z.of_nat K) (Z.of_nat i)))) (seq 0 (2 ^ K)) =
  Val (map (fun i => f (Z.to_nat (bitrev K (Z.of_nat i)))) (seq 0 (2 ^ K))).
Proof.
  intros HK. apply mapM_val. intros i Hi. rewrite in_seq in Hi. pose proof (nat_pow2_Z K).
  rewrite bitrev_index_spec by lia. pose proof (bitrev_bounds K (Z.of_nat i)). apply get_map_seq. lia.
Qed.

Section New.
  Variables (isp : Z -> bool) (Hisp : prime_oracle isp) (m : modulus) (Hm : valid_modulus m).
  Notation p := (mod_p m).

  Lemma ntt_new_ok cands size op : canonical p cands -> ntt_new isp cands m size = Val (Some op) ->
    exists K w, ntt_ok op K w /\ nt_p op = m /\ nt_size op = size.
  Proof.
    intros Hc. unfold ntt_new. pose proof (proj1 (valid_fields m Hm)) as Hp. assert (HW : W62 * 4 = W64) by reflexivity. intros E.
    cbv zeta in E. apply bind_inv in E. destruct E as (s & Es & E). destruct s; [|discriminate]. cbn [negb] in E.
    destruct (supports_ntt_inv isp p _ Hp Es) as (K & HK & EK & Emod & Eisp).
    assert (Hprime : prime p) by (apply (Hisp p); [unfold is_u64; lia|exact Eisp]).
    assert (Esize : size = (2 ^ K)%nat) by (apply Nat2Z.inj; rewrite nat_pow2_Z; exact EK).
    rewrite EK in *. set (n := 2 ^ Z.of_nat K) in *. assert (Hn : 8 <= n) by (change 8 with (2 ^ 3); apply Z.pow_le_mono_r; lia).
    pose proof (mod_1_ge p (2 * n) ltac:(lia) ltac:(lia) Emod) as Hnp.
    destruct (zq_inv_some isp m n Hisp Hm Hprime ltac:(lia)) as (si & Esi & Hsi & Hsi1). rewrite Esi in E. cbn [bind] in E.
    apply bind_inv in E. destruct E as (w & Ew & E).
    unfold primitive_root in Ew. rewrite Es in Ew. cbn [bind] in Ew. apply bind_inv in Ew. destruct Ew as (_ & _ & Ew).
    assert (Hlam : 0 <= (p - 1) / (2 * n) < p).
    { split; [apply Z.div_pos; lia|]. apply Z.div_lt_upper_bound; nia. }
    destruct (primitive_root_loop_inv isp m n _ cands w Hm Hprime Hc ltac:(lia) Hlam Ew) as (Hw & Hwn).
    assert (Hw0 : w <> 0).
    { intros ->. rewrite Z.pow_0_l in Hwn by lia. apply cong_divide in Hwn; [|lia]. apply Z.divide_pos_le in Hwn; lia. }
    destruct (zq_inv_some isp m w Hisp Hm Hprime ltac:(lia)) as (wi & Ewi & Hwi & Hwi1). rewrite Ewi in E. cbn [bind] in E.
    rewrite (successive_spec m w Hm Hw) in E by lia. cbn [bind] in E.
    rewrite (successive_spec m wi Hm ltac:(lia)) in E by lia. cbn [bind] in E.
    rewrite Esize in E. unfold n in E. rewrite !mapM_get_bitrev in E by lia. cbn [bind] in E.
    match type of E with bind (shoup_vec m ?o) _ = _ => set (oms := o) in E end.
    assert (Eoms : oms = map (fun i => w ^ bitrev K (Z.of_nat i) mod p) (seq 0 (2 ^ K))).
    { unfold oms. apply map_ext. intros i. rewrite Z2Nat.id by apply bitrev_bounds. rewrite Z.mul_1_l. reflexivity. }
    rewrite shoup_vec_spec in E; [|exact Hm|unfold oms, canonical; rewrite Forall_map, Forall_forall; intros; apply Z.mod_pos_bound; lia].
    cbn [bind] in E.
    match type of E with bind (shoup_vec m ?o) _ = _ => set (zes := o) in E end.
    assert (Ezes : zes = map (fun i => wi ^ (bitrev K (Z.of_nat i) + 1) mod p) (seq 0 (2 ^ K))).
    { unfold zes. apply map_ext. intros i. pose proof (bitrev_bounds K (Z.of_nat i)). rewrite Z2Nat.id by lia.
      rewrite Z.pow_add_r by lia. f_equal. ring. }
    rewrite shoup_vec_spec in E; [|exact Hm|unfold zes, canonical; rewrite Forall_map, Forall_forall; intros; apply Z.mod_pos_bound; lia].
    cbn [bind] in E. unfold chk64 in E. rewrite bind_chk in E by lia.
    rewrite (proj1 (shoup_spec m Hm si ltac:(lia))) in E. cbn [bind] in E. injection E as <-.
    exists K, w. split; [|split; [reflexivity|exact (eq_sym Esize)]]. constructor; cbn [nt_p nt_p_twice nt_size nt_omegas nt_omegas_shoup nt_zetas_inv nt_zetas_inv_shoup nt_size_inv nt_size_inv_shoup].
    - exact Hm.
    - exact Hprime.
    - ring.
    - lia.
    - reflexivity.
    - exact Hw.
    - exact Hwn.
    - exact Eoms.
    - exists wi. split; [unfold cong; rewrite Hwi1, Z.mod_small by lia; reflexivity|exact Ezes].
    - reflexivity.
    - reflexivity.
    - lia.
    - unfold cong. fold n. rewrite Hsi1, Z.mod_small by lia. reflexivity.
    - reflexivity.
  Qed.

  (** The operator exists as soon as one of the candidates is a quadratic non-residue. *)
  Lemma primitive_root_loop_some n cands : prime p -> supports_ntt isp p n = Val true -> canonical p cands ->
    (exists c, In c cands /\ cong p (c ^ ((p - 1) / 2)) (-1)) ->
    exists w, primitive_root_loop isp m n ((p - 1) / (2 * n)) cands = Val w.
  Proof.
    intros Hprime Es Hc. pose proof (proj1 (valid_fields m Hm)) as Hp.
    destruct (supports_ntt_inv isp p _ Hp Es) as (K & HK & EK & Emod & Eisp).
    assert (Hn : 8 <= n) by (rewrite EK; change 8 with (2 ^ 3); apply Z.pow_le_mono_r; lia).
    pose proof (mod_1_ge p (2 * n) ltac:(lia) ltac:(lia) Emod) as Hnp.
    set (lam := (p - 1) / (2 * n)).
    assert (Elam : p - 1 = 2 * n * lam).
    { unfold lam. pose proof (Z.div_mod p (2 * n) ltac:(lia)) as D. rewrite Emod in D.
      assert (E' : p - 1 = p / (2 * n) * (2 * n)) by lia. rewrite E' at 2. rewrite Z.div_mul by lia. lia. }
    assert (Hlam : 0 <= lam < p).
    { split; [apply Z.div_pos; lia|]. apply Z.div_lt_upper_bound; nia. }
    intros (c & Hin & Hq). induction Hc as [|d cs Hd Hcs IH]; [destruct Hin|].
    cbn [primitive_root_loop]. rewrite zq_pow_spec by assumption. cbn [bind].
    set (r := d ^ lam mod p) in *. assert (Hr : 0 <= r < p) by (apply Z.mod_pos_bound; lia).
    assert (Eb : is_primitive_root isp m r (2 * n) = Val ((r ^ (2 * n) mod p =? 1) && negb (r ^ n mod p =? 1))).
    { unfold is_primitive_root. rewrite bind_guard by (rewrite Z.ltb_lt; lia). rewrite shiftr_div by lia. change (2 ^ 1) with 2.
      replace (2 * n / 2) with n by (rewrite Z.mul_comm, Z.div_mul; lia). rewrite Es. cbn [bind]. rewrite bind_guard by reflexivity.
      rewrite zq_pow_spec by (assumption || lia). cbn [bind]. destruct (r ^ (2 * n) mod p =? 1); [|reflexivity].
      rewrite zq_pow_spec by (assumption || lia). reflexivity. }
    rewrite Eb. cbn [bind]. destruct ((r ^ (2 * n) mod p =? 1) && negb (r ^ n mod p =? 1)) eqn:Et; [eexists; reflexivity|].
    destruct Hin as [->|Hin]; [|apply IH, Hin]. exfalso.
    assert (Hrn : cong p (r ^ n) (-1)).
    { unfold r. rewrite (cong_pow p _ _ n ltac:(lia) (cong_mod p _)). rewrite <- Z.pow_mul_r by lia.
      replace (lam * n) with ((p - 1) / 2); [exact Hq|]. rewrite Elam. replace (2 * n * lam) with (lam * n * 2) by ring. apply Z.div_mul. lia. }
    assert (Hr2 : cong p (r ^ (2 * n)) 1).
    { replace (2 * n) with (n + n) by ring. rewrite Z.pow_add_r by lia. rewrite Hrn. reflexivity. }
    unfold cong in Hr2, Hrn. rewrite Hr2, Hrn, (Z.mod_small 1) in Et by lia. rewrite Z.eqb_refl in Et. cbn [andb] in Et.
    apply negb_false_iff, Z.eqb_eq in Et. replace (-1) with (p - 1 + (-1) * p) in Et by ring. rewrite Z_mod_plus_full, Z.mod_small in Et; lia.
  Qed.

  Lemma ntt_new_total cands size : canonical p cands ->
    supports_ntt isp p (Z.of_nat size) = Val true ->
    (exists c, In c cands /\ cong p (c ^ ((p - 1) / 2)) (-1)) ->
    exists op, ntt_new isp cands m size = Val (Some op).
  Proof.
    intros Hc Es Hq. unfold ntt_new. pose proof (proj1 (valid_fields m Hm)) as Hp. assert (HW : W62 * 4 = W64) by reflexivity.
    destruct (supports_ntt_inv isp p _ Hp Es) as (K & HK & EK & Emod & Eisp).
    assert (Hprime : prime p) by (apply (Hisp p); [unfold is_u64; lia|exact Eisp]).
    destruct (primitive_root_loop_some _ cands Hprime Es Hc Hq) as (w & Ew).
    rewrite Es. cbn [bind negb].
    assert (Esize : size = (2 ^ K)%nat) by (apply Nat2Z.inj; rewrite nat_pow2_Z; exact EK).
    assert (Hn : 8 <= Z.of_nat size) by (rewrite EK; change 8 with (2 ^ 3); apply Z.pow_le_mono_r; lia).
    pose proof (mod_1_ge p (2 * Z.of_nat size) ltac:(lia) ltac:(lia) Emod) as Hnp.
    destruct (zq_inv_some isp m (Z.of_nat size) Hisp Hm Hprime ltac:(lia)) as (si & Esi & Hsi & Hsi1). rewrite Esi. cbn [bind].
    assert (Hlam : 0 <= (p - 1) / (2 * Z.of_nat size) < p).
    { split; [apply Z.div_pos; lia|]. apply Z.div_lt_upper_bound; nia. }
    destruct (primitive_root_loop_inv isp m (Z.of_nat size) _ cands w Hm Hprime Hc ltac:(lia) Hlam Ew) as (Hw & Hwn).
    unfold primitive_root. rewrite Es. cbn [bind]. rewrite bind_guard by reflexivity. rewrite Ew. cbn [bind].
    assert (Hw0 : w <> 0).
    { intros ->. rewrite Z.pow_0_l in Hwn by lia. apply cong_divide in Hwn; [|lia]. apply Z.divide_pos_le in Hwn; lia. }
    destruct (zq_inv_some isp m w Hisp Hm Hprime ltac:(lia)) as (wi & Ewi & Hwi & Hwi1). rewrite Ewi. cbn [bind].
    rewrite (successive_spec m w Hm Hw) by lia. cbn [bind].
    rewrite (successive_spec m wi Hm ltac:(lia)) by lia. cbn [bind].
    rewrite EK, Esize. rewrite !mapM_get_bitrev by lia. cbn [bind].
    rewrite shoup_vec_spec; [|exact Hm|unfold canonical; rewrite Forall_map, Forall_forall; intros; apply Z.mod_pos_bound; lia].
    cbn [bind].
    rewrite shoup_vec_spec; [|exact Hm|unfold canonical; rewrite Forall_map, Forall_forall; intros; apply Z.mod_pos_bound; lia].
    cbn [bind]. unfold chk64. rewrite bind_chk by lia.
    rewrite (proj1 (shoup_spec m Hm si ltac:(lia))). cbn [bind]. eexists. reflexivity.
  Qed.

  Lemma ntt_new_none cands size : supports_ntt isp p (Z.of_nat size) = Val false -> ntt_new isp cands m size = Val None.
  Proof. intros E. unfold ntt_new. rewrite E. reflexivity. Qed.
End New.

(** * Semantics of an operator *)
Definition good_ntt (op : ntt_op) : Prop := exists K w, ntt_ok op K w.
(** The transform of an arbitrary integer vector. *)
Definition NTT (op : ntt_op) (x : list Z) : list Z :=
  map (fun v => v mod mod_p (nt_p op)) (fchain (all_stages op (Nat.log2 (nt_size op))) x).
Definition INTT (op : ntt_op) (x : list Z) : list Z :=
  map (fun v => v mod mod_p (nt_p op)) (lscale (nt_size_inv op) (bchain (all_stages op (Nat.log2 (nt_size op))) x)).
Definition rmod (p : Z) (x : list Z) : list Z := map (fun v => v mod p) x.

Lemma rmod_length p x : length (rmod p x) = length x.
Proof. apply map_length. Qed.
Lemma rmod_lcong p x y : lcong p x y <-> rmod p x = rmod p y.
Proof.
  split.
  - induction 1; cbn; [reflexivity|]. f_equal; assumption.
  - revert y; induction x as [|a x IH]; intros [|b y] H; try discriminate; [constructor|]. cbn in H. injection H as H1 H2.
    constructor; [exact H1|apply IH; exact H2].
Qed.
Lemma rmod_canonical p x : 0 < p -> canonical p (rmod p x).
Proof. apply canonical_map_mod. Qed.
Lemma rmod_small p x : canonical p x -> rmod p x = x.
Proof. induction 1; cbn; [reflexivity|]. rewrite Z.mod_small by assumption. f_equal. assumption. Qed.
Lemma nth_rmod p x k : 0 < p -> nth k (rmod p x) 0 = nth k x 0 mod p.
Proof. intros Hp. unfold rmod. rewrite <- (Zmod_0_l p) at 1. apply (map_nth (fun v => v mod p)). Qed.

Section Sem.
  Variables (op : ntt_op) (K : nat) (w : Z) (Hok : ntt_ok op K w).
  Notation m := (nt_p op).
  Notation p := (mod_p m).
  Notation n := (nt_size op).

  Lemma log2_size : Nat.log2 n = K.
  Proof. rewrite (ok_size _ _ _ Hok). apply Nat.log2_pow2. lia. Qed.
  Lemma p_pos : 0 < p.
  Proof. pose proof (p_bounds op K w Hok). lia. Qed.

  Lemma pow_pow2 s t : (s <= t)%nat -> (2 ^ s <= 2 ^ t)%nat.
  Proof. apply Nat.pow_le_mono_r. lia. Qed.

  Lemma cong_pow_inv wi e : cong p (w * wi) 1 -> 0 <= e -> cong p (w ^ e * wi ^ e) 1.
  Proof. intros H He. rewrite <- Z.pow_mul_l. rewrite (cong_pow p _ _ e He H). rewrite Z.pow_1_l by lia. reflexivity. Qed.

  Lemma stages_ok : Forall (stage_ok p n) (all_stages op K).
  Proof.
    unfold all_stages. rewrite Forall_map, Forall_forall. intros s Hs. rewrite in_seq in Hs.
    pose proof (pow_pow2 (S s) K ltac:(lia)) as H2. pose proof (pow2_nz s) as H0. cbn [Nat.pow] in H2.
    unfold stage_ok, stage_at. split.
    - rewrite slice_length by (rewrite (omegas_length _ _ _ Hok); lia). rewrite (ok_size _ _ _ Hok).
      replace K with (s + S (K - 1 - s))%nat at 1 by lia. rewrite Nat.pow_add_r. cbn [Nat.pow]. lia.
    - destruct (ok_ze _ _ _ Hok) as (wi & Hwi & Eze).
      set (A := slice (2 ^ s) (2 ^ s) (nt_omegas op)). set (B := slice (2 ^ K - 2 ^ S s) (2 ^ s) (nt_zetas_inv op)).
      assert (LA : length A = (2 ^ s)%nat) by (apply slice_length; rewrite (omegas_length _ _ _ Hok); lia).
      assert (LB : length B = (2 ^ s)%nat) by (apply slice_length; rewrite (zetas_length _ _ _ Hok); cbn [Nat.pow]; lia).
      assert (H : forall i, (i < 2 ^ s)%nat -> cong p (nth i A 0 * nth i B 0) 1).
      { intros i Hi. unfold A, B. rewrite slice_nth by (try rewrite (omegas_length _ _ _ Hok); lia).
        rewrite slice_nth by (try rewrite (zetas_length _ _ _ Hok); cbn [Nat.pow]; lia).
        rewrite (ok_om _ _ _ Hok), Eze. rewrite !nth_map_seq by (cbn [Nat.pow]; lia).
        rewrite !cong_mod.
        replace (Z.of_nat (2 ^ K - 2 ^ S s + i)) with (2 ^ Z.of_nat K - 2 ^ Z.of_nat (S s) + Z.of_nat i)
          by (rewrite Nat2Z.inj_add, Nat2Z.inj_sub by (cbn [Nat.pow]; lia); rewrite !nat_pow2_Z; ring).
        pose proof (nat_pow2_Z s).
        rewrite bitrev_heap_inv by lia. rewrite Nat2Z.inj_add, nat_pow2_Z.
        apply cong_pow_inv; [exact Hwi|]. apply bitrev_bounds. }
      clearbody A B. revert A B LA LB H. generalize (2 ^ s)%nat as q. clear.
      induction q as [|q IH]; intros [|a A] [|b B] LA LB H; try discriminate; constructor.
      + apply (H 0%nat). lia.
      + apply IH; [cbn in *; lia..|]. intros i Hi. apply (H (S i)). lia.
  Qed.

  Lemma all_stages_length : length (all_stages op K) = K.
  Proof. unfold all_stages. rewrite map_length, seq_length. reflexivity. Qed.

  Lemma NTT_length x : length x = n -> length (NTT op x) = n.
  Proof. intros H. unfold NTT. rewrite map_length, log2_size. apply (fchain_length p n); [apply stages_ok|exact H]. Qed.
  Lemma INTT_length x : length x = n -> length (INTT op x) = n.
  Proof. intros H. unfold INTT. rewrite map_length, log2_size, lscale_length. apply (bchain_length p n); [apply stages_ok|exact H]. Qed.
  Lemma NTT_canonical x : canonical p (NTT op x).
  Proof. apply canonical_map_mod, p_pos. Qed.
  Lemma INTT_canonical x : canonical p (INTT op x).
  Proof. apply canonical_map_mod, p_pos. Qed.
  Lemma NTT_cong x y : lcong p x y -> NTT op x = NTT op y.
  Proof. intros H. apply rmod_lcong, fchain_cong, H. Qed.
  Lemma INTT_cong x y : lcong p x y -> INTT op x = INTT op y.
  Proof. intros H. apply rmod_lcong, lcong_scale, bchain_cong, H. Qed.

  Lemma forward_NTT a : length a = n -> below (4 * p) a -> ntt_forward op a = Val (NTT op a).
  Proof.
    intros Ha Hb. destruct (ntt_forward_chain op K w Hok a Ha Hb) as (r & -> & C & B). f_equal.
    rewrite <- (rmod_small p r B). apply rmod_lcong. rewrite log2_size. exact C.
  Qed.
  Lemma forward_vt_NTT a : length a = n -> below (4 * p) a -> ntt_forward_vt op a = Val (NTT op a).
  Proof.
    intros Ha Hb. destruct (ntt_forward_vt_chain op K w Hok a Ha Hb) as (r & -> & C & B). f_equal.
    rewrite <- (rmod_small p r B). apply rmod_lcong. rewrite log2_size. exact C.
  Qed.
  Lemma forward_vt_lazy_NTT a : length a = n -> below (4 * p) a ->
    exists r, ntt_forward_vt_lazy op a = Val r /\ below (4 * p) r /\ rmod p r = NTT op a.
  Proof.
    intros Ha Hb. destruct (ntt_forward_vt_lazy_chain op K w Hok a Ha Hb) as (r & -> & C & B).
    exists r. split; [reflexivity|]. split; [exact B|]. apply rmod_lcong. rewrite log2_size. exact C.
  Qed.
  Lemma backward_INTT a : length a = n -> below (2 * p) a -> ntt_backward op a = Val (INTT op a).
  Proof.
    intros Ha Hb. destruct (ntt_backward_chain op K w Hok a Ha Hb) as (r & -> & C & B). f_equal.
    rewrite <- (rmod_small p r B). apply rmod_lcong. rewrite log2_size. exact C.
  Qed.
  Lemma backward_vt_INTT a : length a = n -> below (2 * p) a -> ntt_backward_vt op a = Val (INTT op a).
  Proof.
    intros Ha Hb. destruct (ntt_backward_vt_chain op K w Hok a Ha Hb) as (r & -> & C & B). f_equal.
    rewrite <- (rmod_small p r B). apply rmod_lcong. rewrite log2_size. exact C.
  Qed.

  Lemma si_cancel x : lcong p (lscale (nt_size_inv op) (lscale (2 ^ Z.of_nat K) x)) x.
  Proof.
    rewrite lscale_scale. rewrite <- (lscale_1 x) at 2.
    assert (H : cong p (nt_size_inv op * 2 ^ Z.of_nat K) 1) by (rewrite Z.mul_comm; apply (ok_si1 _ _ _ Hok)).
    induction x as [|c x IH]; constructor; [|exact IH]. rewrite H. reflexivity.
  Qed.

  Lemma INTT_NTT x : length x = n -> INTT op (NTT op x) = rmod p x.
  Proof.
    intros Hx. unfold INTT. apply rmod_lcong. rewrite log2_size. unfold NTT. rewrite log2_size.
    eapply lcong_trans; [apply lcong_scale, bchain_cong, lcong_map_mod|].
    eapply lcong_trans; [apply lcong_scale, (bchain_fchain p n); [apply stages_ok|exact Hx]|].
    rewrite all_stages_length. apply si_cancel.
  Qed.
  Lemma NTT_INTT x : length x = n -> NTT op (INTT op x) = rmod p x.
  Proof.
    intros Hx. unfold NTT. apply rmod_lcong. rewrite log2_size. unfold INTT. rewrite log2_size.
    eapply lcong_trans; [apply fchain_cong, lcong_map_mod|]. rewrite fchain_scale.
    eapply lcong_trans; [apply lcong_scale, (fchain_bchain p n); [apply stages_ok|exact Hx]|].
    rewrite all_stages_length. apply si_cancel.
  Qed.
  Lemma NTT_inj x y : length x = n -> length y = n -> NTT op x = NTT op y -> lcong p x y.
  Proof. intros Hx Hy E. apply rmod_lcong. rewrite <- !INTT_NTT by assumption. rewrite E. reflexivity. Qed.

  (** Evaluation. *)
  Definition point (i : nat) : Z := w ^ (2 * bitrev K (Z.of_nat i) + 1).
  Lemma NTT_eval x i : length x = n -> (i < n)%nat -> nth i (NTT op x) 0 = eval x (point i) mod p.
  Proof.
    intros Hx Hi. unfold NTT. change (fun v => v mod mod_p (nt_p op)) with (fun v => v mod p).
    fold (rmod p (fchain (all_stages op (Nat.log2 n)) x)). rewrite nth_rmod by apply p_pos. rewrite log2_size.
    rewrite (ok_size _ _ _ Hok) in *.
    assert (E : cong p (nth (Z.to_nat (Z.of_nat i)) (fchain (map (stage_at op K) (seq 0 K)) x) 0) (eval x (w ^ (2 * bitrev K (Z.of_nat i) + 1)))).
    { apply chain_eval_final.
      - apply (ok_n _ _ _ Hok).
      - intros s Hs. unfold stage_at. pose proof (pow_pow2 (S s) K ltac:(lia)) as H2. cbn [Nat.pow] in H2.
        split; [apply nat_pow2_Z|]. rewrite slice_length by (rewrite (omegas_length _ _ _ Hok); lia). split; [apply nat_pow2_Z|].
        intros j Hj. pose proof (nat_pow2_Z s). rewrite slice_nth by (try rewrite (omegas_length _ _ _ Hok); lia).
        rewrite (ok_om _ _ _ Hok), nth_map_seq by lia. rewrite cong_mod. rewrite Nat2Z.inj_add, nat_pow2_Z, Z2Nat.id by lia. reflexivity.
      - rewrite Hx. apply nat_pow2_Z.
      - pose proof (nat_pow2_Z K). lia. }
    rewrite Nat2Z.id in E. exact E.
  Qed.

  Lemma point_root i : (i < n)%nat -> cong p (point i ^ Z.of_nat n) (-1).
  Proof.
    intros Hi. unfold point. pose proof (bitrev_bounds K (Z.of_nat i)) as Hb.
    rewrite <- Z.pow_mul_r by lia. rewrite (Z.mul_comm _ (Z.of_nat n)). rewrite Z.pow_mul_r by lia.
    rewrite (ok_size _ _ _ Hok), nat_pow2_Z.
    rewrite (cong_pow p _ _ (2 * bitrev K (Z.of_nat i) + 1) ltac:(lia) (ok_n _ _ _ Hok)).
    rewrite Z.pow_add_r, Z.pow_mul_r by lia. change ((-1) ^ 2) with 1. rewrite Z.pow_1_l by lia. reflexivity.
  Qed.

  Lemma eval_nmul a b x : length b = n -> cong p (x ^ Z.of_nat n) (-1) -> cong p (eval (nmul n a b) x) (eval a x * eval b x).
  Proof.
    intros Hb Hx. revert b Hb. induction a as [|c a IH]; intros b Hb; cbn [nmul].
    - rewrite eval_lzero. reflexivity.
    - rewrite eval_ladd by (rewrite lscale_length, nmul_length by apply lX_length; exact Hb).
      rewrite eval_lscale, IH by apply lX_length. rewrite eval_lX; [|exact Hb|rewrite (ok_size _ _ _ Hok); apply pow2_nz].
      rewrite Hx. cbn [eval]. apply cong_eq. ring.
  Qed.

  Lemma NTT_nmul a b : length a = n -> length b = n ->
    NTT op (nmul n a b) = zipWith (fun x y => (x * y) mod p) (NTT op a) (NTT op b).
  Proof.
    intros Ha Hb. apply list_ext_Z.
    - rewrite zipWith_length, !NTT_length by (try apply nmul_length; assumption). lia.
    - rewrite NTT_length by (apply nmul_length; assumption). intros i Hi.
      rewrite NTT_eval by (try apply nmul_length; assumption).
      rewrite (zipWith_nth _ _ _ 0 0) by (rewrite NTT_length; assumption). rewrite !NTT_eval by assumption.
      rewrite <- Z.mul_mod by (pose proof p_pos; lia). apply eval_nmul; [exact Hb|apply point_root; exact Hi].
  Qed.
  Lemma NTT_ladd a b : length a = n -> length b = n ->
    NTT op (ladd a b) = zipWith (fun x y => (x + y) mod p) (NTT op a) (NTT op b).
  Proof.
    intros Ha Hb. assert (Hl : length (ladd a b) = n) by (apply ladd_length; assumption). apply list_ext_Z.
    - rewrite zipWith_length, !NTT_length by assumption. lia.
    - rewrite NTT_length by assumption. intros i Hi. rewrite NTT_eval by assumption.
      rewrite (zipWith_nth _ _ _ 0 0) by (rewrite NTT_length; assumption). rewrite !NTT_eval by assumption.
      rewrite <- Z.add_mod by (pose proof p_pos; lia). rewrite eval_ladd by congruence. reflexivity.
  Qed.
  Lemma NTT_lscale c a : length a = n -> NTT op (lscale c a) = map (fun x => (c * x) mod p) (NTT op a).
  Proof.
    intros Ha. assert (Hl : length (lscale c a) = n) by (rewrite lscale_length; assumption). apply list_ext_Z.
    - rewrite map_length, !NTT_length by assumption. reflexivity.
    - rewrite NTT_length by assumption. intros i Hi. rewrite NTT_eval by assumption.
      rewrite nth_map_lt by (rewrite NTT_length; assumption). rewrite !NTT_eval by assumption.
      rewrite Z.mul_mod_idemp_r by (pose proof p_pos; lia). rewrite eval_lscale. reflexivity.
  Qed.

  (** The evaluation points are the roots of X^n+1, each once. *)
  Lemma w_order e : 0 <= e < 2 ^ Z.of_nat (S K) -> cong p (w ^ e) 1 -> e = 0.
  Proof.
    intros He H1. destruct (Z.eq_dec e 0) as [|Hne]; [assumption|exfalso].
    assert (Hodd : forall k : nat, (k <= K)%nat -> forall u, 0 < u -> Z.odd u = true -> cong p (w ^ (u * 2 ^ Z.of_nat k)) 1 -> False).
    { intros k Hk u Hu Ho E. assert (E2 : cong p (w ^ (2 ^ Z.of_nat K * u)) 1).
      { replace (2 ^ Z.of_nat K * u) with (u * 2 ^ Z.of_nat k * 2 ^ Z.of_nat (K - k)).
        - rewrite Z.pow_mul_r by nia. rewrite (cong_pow p _ _ (2 ^ Z.of_nat (K - k)) ltac:(lia) E). rewrite Z.pow_1_l by lia. reflexivity.
        - rewrite <- Z.mul_assoc, <- Z.pow_add_r by lia. rewrite (Z.mul_comm _ u). do 2 f_equal. lia. }
      rewrite Z.pow_mul_r in E2 by lia. rewrite (cong_pow p _ _ u ltac:(lia) (ok_n _ _ _ Hok)) in E2.
      apply Z.odd_spec in Ho. destruct Ho as (v & ->). rewrite Z.pow_add_r, Z.pow_mul_r in E2 by lia.
      change ((-1) ^ 2) with 1 in E2. rewrite Z.pow_1_l in E2 by lia. change (1 * (-1) ^ 1) with (-1) in E2.
      assert (Hp8 : 3 <= p).
      { pose proof (ok_si1 _ _ _ Hok) as HH. pose proof (p_bounds op K w Hok). destruct (Z.eq_dec p 2) as [Ep2|]; [|lia]. exfalso.
        rewrite Ep2 in HH. unfold cong in HH. pose proof (ok_K _ _ _ Hok) as HK. destruct K as [|k']; [lia|]. rewrite pow2_succ in HH.
        rewrite <- Z.mul_assoc, Z.mul_comm, Z_mod_mult in HH. discriminate. }
      apply cong_divide in E2; [|lia]. apply Z.divide_opp_r in E2. apply Z.divide_pos_le in E2; lia. }
    assert (Hdec : forall k : nat, forall e, 0 < e < 2 ^ Z.of_nat (S k) -> exists j u, (j <= k)%nat /\ 0 < u /\ Z.odd u = true /\ e = u * 2 ^ Z.of_nat j).
    { clear. induction k as [|k IH]; intros e He.
      - change (2 ^ Z.of_nat 1) with 2 in He. exists 0%nat, 1. split; [lia|]. split; [lia|]. split; [reflexivity|]. change (2 ^ Z.of_nat 0) with 1. lia.
      - destruct (Z.odd e) eqn:Eo.
        + exists 0%nat, e. split; [lia|]. split; [lia|]. split; [exact Eo|]. change (2 ^ Z.of_nat 0) with 1. lia.
        + rewrite <- Z.negb_even, negb_false_iff, Z.even_spec in Eo. destruct Eo as (h & ->). rewrite pow2_succ in He.
          destruct (IH h ltac:(lia)) as (j & u & Hj & Hu & Ho & ->). exists (S j), u. split; [lia|]. split; [exact Hu|]. split; [exact Ho|].
          rewrite pow2_succ. ring. }
    destruct (Hdec K e ltac:(lia)) as (j & u & Hj & Hu & Ho & ->). apply (Hodd j Hj u Hu Ho H1).
  Qed.
  Lemma w_unit : rel_prime p w.
  Proof.
    apply prime_rel_prime_cong; [apply (ok_prime _ _ _ Hok)|]. intros H0. destruct (ok_ze _ _ _ Hok) as (wi & H & _).
    rewrite H0 in H. apply cong_divide in H; [|apply p_pos]. apply Z.divide_opp_r, Z.divide_pos_le in H; pose proof (p_bounds op K w Hok); lia.
  Qed.
  Lemma w_pow_inj e e' : 0 <= e < 2 ^ Z.of_nat (S K) -> 0 <= e' < 2 ^ Z.of_nat (S K) -> cong p (w ^ e) (w ^ e') -> e = e'.
  Proof.
    intros He He' E.
    assert (H : forall a b, 0 <= a <= b -> b < 2 ^ Z.of_nat (S K) -> cong p (w ^ a) (w ^ b) -> a = b).
    { intros a b Hab Hb C. replace b with (a + (b - a)) in C by ring. rewrite Z.pow_add_r in C by lia.
      rewrite <- (Z.mul_1_r (w ^ a)) in C at 1. apply cong_mul_cancel_l in C.
      - symmetry in C. apply w_order in C; lia.
      - apply p_pos.
      - rewrite <- (Z.pow_1_r p). apply Zpow_facts.rel_prime_Zpower; [lia|lia|apply w_unit]. }
    destruct (Z.le_ge_cases e e'); [apply H; [lia|lia|exact E]|symmetry; apply H; [lia|lia|symmetry; exact E]].
  Qed.
  Lemma point_inj i j : (i < n)%nat -> (j < n)%nat -> cong p (point i) (point j) -> i = j.
  Proof.
    rewrite (ok_size _ _ _ Hok). intros Hi Hj E. pose proof (nat_pow2_Z K).
    pose proof (bitrev_bounds K (Z.of_nat i)). pose proof (bitrev_bounds K (Z.of_nat j)).
    apply w_pow_inj in E; [|rewrite pow2_succ; lia|rewrite pow2_succ; lia].
    assert (E' : Z.of_nat i = Z.of_nat j) by (apply (bitrev_inj K); lia). lia.
  Qed.
  Lemma point_surj x : cong p (x ^ Z.of_nat n) (-1) -> exists i, (i < n)%nat /\ cong p x (point i).
  Proof.
    intros Hx. pose proof p_pos as Hp. set (pts := map point (seq 0 n)).
    destruct (in_dec Z.eq_dec (x mod p) (map (fun v => v mod p) pts)) as [Hin|Hnin].
    - unfold pts in Hin. rewrite map_map, in_map_iff in Hin. destruct Hin as (i & E & Hi). rewrite in_seq in Hi.
      exists i. split; [lia|]. symmetry. exact E.
    - exfalso. pose proof (ok_size _ _ _ Hok) as Es. pose proof (pow2_nz K) as Hnz.
      set (P := 1 :: repeat 0 (n - 1) ++ [1]).
      assert (HP : forall y, eval P y = 1 + y ^ Z.of_nat n).
      { intros y. unfold P. cbn [eval]. rewrite eval_app. fold (lzero (n - 1)). rewrite eval_lzero, lzero_length.
        cbn [eval]. replace (Z.of_nat n) with (Z.succ (Z.of_nat (n - 1))) by lia. rewrite Z.pow_succ_r by lia. ring. }
      assert (A : all0 p P).
      { apply (root_bound p (ok_prime _ _ _ Hok) (x :: pts)).
        - cbn [map]. constructor; [exact Hnin|]. unfold pts. rewrite map_map.
          apply NoDup_map_in; [|apply seq_NoDup]. intros i j Hi Hj E. rewrite in_seq in Hi, Hj.
          apply point_inj; [lia|lia|exact E].
        - constructor; [rewrite HP, Hx; reflexivity|]. unfold pts. rewrite Forall_map, Forall_forall. intros i Hi. rewrite in_seq in Hi.
          rewrite HP, point_root by lia. reflexivity.
        - unfold P, pts. cbn [length]. rewrite app_length, repeat_length, map_length, seq_length. cbn [length]. lia. }
      inversion A as [|? ? A1 _]; subst. apply cong_divide in A1; [|exact Hp]. apply Z.divide_pos_le in A1; [|lia].
      pose proof (p_bounds op K w Hok). lia.
  Qed.
End Sem.
