(** Proofs about the release build of the generation of primes. *)
From Verif Require Import Outcome BasicSpec OutcomeLemmas PrimesModel PrimesProofs ParamsModel DefaultModel ReleaseModel ReleasePrimesModel.

Lemma while_pos_ext {S R} (f g : S -> S + R) (Inv : S -> Prop) : (forall s, Inv s -> f s = g s) -> (forall s s', Inv s -> f s = inl s' -> Inv s') ->
  forall p s, Inv s -> while_pos f p s = while_pos g p s /\ forall s', while_pos f p s = inl s' -> Inv s'.
Proof.
  intros He Hi. induction p as [p IH|p IH|]; intros s Hs; cbn [while_pos].
  - rewrite <- (He s Hs). destruct (f s) as [s1|r] eqn:E; [|split; [reflexivity|discriminate]]. destruct (IH s1 (Hi _ _ Hs E)) as (E1 & I1). rewrite <- E1.
    destruct (while_pos f p s1) as [s2|r]; [|split; [reflexivity|discriminate]]. apply IH, I1. reflexivity.
  - destruct (IH s Hs) as (E1 & I1). rewrite <- E1. destruct (while_pos f p s) as [s2|r]; [|split; [reflexivity|discriminate]]. apply IH, I1. reflexivity.
  - split; [apply He, Hs|]. intros s' E. exact (Hi _ _ Hs E).
Qed.
Lemma while_pos_stop {S R} (f : S -> S + R) r s : f s = inr r -> forall p, while_pos f p s = inr r.
Proof. intros E. induction p as [p IH|p IH|]; cbn [while_pos]; rewrite ?IH, ?E; reflexivity. Qed.
Lemma while64_ext {S R} (f g : S -> S + M R) (Inv : S -> Prop) s : (forall s, Inv s -> f s = g s) -> (forall s s', Inv s -> f s = inl s' -> Inv s') -> Inv s -> while64 f s = while64 g s.
Proof. intros He Hi Hs. unfold while64. rewrite (proj1 (while_pos_ext f g Inv He Hi _ s Hs)). reflexivity. Qed.
Lemma while64_stop {S R} (f : S -> S + M R) r s : f s = inr r -> while64 f s = r.
Proof. intros E. unfold while64. rewrite (while_pos_stop f r s E). reflexivity. Qed.

Lemma lz_pos t nb : 1 <= nb <= 64 -> leading_zeros64 t = 64 - nb -> 1 <= t < 2 ^ nb.
Proof.
  intros Hn E. assert (0 <= t).
  { destruct (Z_lt_le_dec t 0) as [L|L]; [|exact L]. unfold leading_zeros64, nbits in E. destruct (Z.leb_spec t 0); lia. }
  apply lz_iff in E; [|exact Hn|assumption]. assert (0 < 2 ^ (nb - 1)) by (apply Z.pow_pos_nonneg; lia). lia.
Qed.
Lemma loop1_eq modulo nb t : 1 <= nb <= 64 -> is_u64 t -> rel_gp_loop1 modulo (64 - nb) t = gp_loop1 modulo (64 - nb) t.
Proof.
  intros Hn Ht. unfold rel_gp_loop1, gp_loop1. apply while64_ext with (Inv := is_u64); [| |exact Ht].
  - intros s Hs. destruct (negb (s mod modulo =? 1)); [|reflexivity]. cbn [andb]. destruct (Z.eqb_spec (leading_zeros64 s) (64 - nb)) as [E|]; [|reflexivity].
    apply lz_pos in E; [|exact Hn]. unfold is_u64 in Hs. unfold w64. rewrite Z.mod_small by lia. reflexivity.
  - intros s s' _. destruct (_ && _); [|discriminate]. intros E. injection E as <-. apply Z.mod_pos_bound. reflexivity.
Qed.
Lemma loop2_eq isp modulo nb t : is_u64 modulo -> is_u64 t -> rel_gp_loop2 isp modulo (64 - nb) t = gp_loop2 isp modulo (64 - nb) t.
Proof.
  intros Hm Ht. unfold rel_gp_loop2, gp_loop2. apply while64_ext with (Inv := is_u64); [| |exact Ht].
  - intros s Hs. destruct ((leading_zeros64 s =? 64 - nb) && negb (isp s)); [|reflexivity]. cbn [andb]. destruct (Z.leb_spec modulo s); [|reflexivity].
    unfold is_u64 in *. unfold w64. rewrite Z.mod_small by lia. reflexivity.
  - intros s s' _. destruct (_ && _); [|discriminate]. intros E. injection E as <-. apply Z.mod_pos_bound. reflexivity.
Qed.
Lemma loop1_u64 modulo nb t : 1 <= nb <= 64 -> is_u64 t -> forall x, gp_loop1 modulo (64 - nb) t = Val x -> is_u64 x.
Proof.
  intros Hn Ht. unfold gp_loop1. apply (while64_rule _ is_u64 (fun s => s)); [intros s H; exact H| |exact Ht].
  intros s Hs. destruct (negb (s mod modulo =? 1)); cbn [andb]; [|intros x E; injection E as <-; exact Hs].
  destruct (Z.eqb_spec (leading_zeros64 s) (64 - nb)) as [E|]; [|intros x E; injection E as <-; exact Hs].
  apply lz_pos in E; [|exact Hn]. unfold is_u64 in *. lia.
Qed.

Lemma rel_prime_ok isp nb modulo ub : is_u64 modulo -> 10 <= nb <= 62 -> 1 <= ub <= 2 ^ nb -> rel_generate_prime isp nb modulo ub = generate_prime isp nb modulo ub.
Proof.
  intros Hm Hn Hu. assert (2 ^ nb <= W62) by (change W62 with (2 ^ 62); apply Z.pow_le_mono_r; lia). unfold rel_generate_prime, generate_prime.
  destruct (negb _); [reflexivity|]. cbv zeta. rewrite (bind_guard (ub <=? Z.shiftl 1 nb)) by (apply Z.leb_le; rewrite Z.shiftl_mul_pow2 by lia; lia). unfold chk64. rewrite bind_chk by lia.
  destruct (negb (modulo =? 0)); cbn [guard bind]; [|reflexivity]. unfold w64. rewrite Z.mod_small by lia.
  assert (Ht : is_u64 (ub - 1)) by (unfold is_u64; lia). rewrite loop1_eq by (assumption || lia). pose proof (loop1_u64 modulo nb (ub - 1) ltac:(lia) Ht) as H1.
  destruct (gp_loop1 modulo (64 - nb) (ub - 1)) as [t| |]; cbn [bind]; [|reflexivity|reflexivity]. rewrite loop2_eq by (try assumption; apply H1; reflexivity). reflexivity.
Qed.
Lemma rel_prime_none isp nb modulo ub : is_u64 ub -> 10 <= nb <= 62 -> modulo <> 0 -> ~ 1 <= ub <= 2 ^ nb -> rel_generate_prime isp nb modulo ub = Val None.
Proof.
  intros Hub Hn Hm Hu. assert (2 ^ nb <= W62) by (change W62 with (2 ^ 62); apply Z.pow_le_mono_r; lia). assert (0 < 2 ^ nb) by (apply Z.pow_pos_nonneg; lia).
  unfold rel_generate_prime. destruct (Z.leb_spec 10 nb); [|lia]. destruct (Z.leb_spec nb 62); [|lia]. cbn [andb negb]. cbv zeta. rewrite bind_guard by (destruct (Z.eqb_spec modulo 0); [lia|reflexivity]).
  assert (Ht : 2 ^ nb <= w64 (ub - 1)).
  { unfold w64, is_u64 in *. destruct (Z.eq_dec ub 0) as [->|]; [change ((0 - 1) mod W64) with (W64 - 1); lia|]. rewrite Z.mod_small by lia. lia. }
  assert (E : (leading_zeros64 (w64 (ub - 1)) =? 64 - nb) = false) by (apply Z.eqb_neq; intros E; apply lz_pos in E; lia).
  unfold rel_gp_loop1. rewrite (while64_stop _ (Val (w64 (ub - 1)))) by (cbv beta; rewrite E, andb_false_r; reflexivity). cbn [bind].
  unfold rel_gp_loop2. rewrite (while64_stop _ (Val (w64 (ub - 1)))) by (cbv beta; rewrite E; reflexivity). cbn [bind]. rewrite E. reflexivity.
Qed.
Lemma prime_panic isp nb modulo ub : 10 <= nb <= 62 -> modulo = 0 \/ ~ 1 <= ub <= 2 ^ nb -> generate_prime isp nb modulo ub = Panic.
Proof.
  intros Hn H. unfold generate_prime. destruct (Z.leb_spec 10 nb); [|lia]. destruct (Z.leb_spec nb 62); [|lia]. cbn [andb negb].
  assert (Hs : Z.shiftl 1 nb = 2 ^ nb) by (rewrite Z.shiftl_mul_pow2 by lia; lia). rewrite Hs. destruct (Z.leb_spec ub (2 ^ nb)); cbn [guard bind]; [|reflexivity]. cbv zeta.
  unfold chk64, chk. destruct (Z.leb_spec 0 (ub - 1)); cbn [andb bind]; [|reflexivity]. destruct (_ <? _); cbn [bind]; [|reflexivity]. destruct H as [->|]; [|lia]. change (negb (0 =? 0)) with false. cbn [guard bind]. reflexivity.
Qed.
Lemma prime_some isp nb modulo ub p : generate_prime isp nb modulo ub = Val (Some p) -> 1 <= p <= 2 ^ nb.
Proof.
  unfold generate_prime. destruct (Z.leb_spec 10 nb); [|discriminate]. destruct (Z.leb_spec nb 62); [|discriminate]. cbn [andb negb]. cbv zeta. intros E.
  apply bind_inv in E. destruct E as (? & _ & E). apply bind_inv in E. destruct E as (? & _ & E). apply bind_inv in E. destruct E as (? & _ & E). apply bind_inv in E. destruct E as (? & _ & E). apply bind_inv in E. destruct E as (t & _ & E).
  destruct (Z.eqb_spec (leading_zeros64 t) (64 - nb)) as [L|]; [|discriminate]. cbn [andb] in E. destruct (isp t); [|discriminate]. injection E as <-. apply lz_pos in L; lia.
Qed.

Lemma next_eq isp size degree acc : 10 <= size <= 62 -> 0 <= degree < 2 ^ 63 -> forall fuel upper, 1 <= upper <= 2 ^ size -> rel_next_prime isp fuel size degree upper acc = next_prime isp fuel size degree upper acc.
Proof.
  intros Hs Hd. change (2 ^ 63) with 9223372036854775808 in Hd. induction fuel as [|k IH]; intros upper Hu; [reflexivity|]. cbn [rel_next_prime next_prime]. unfold w64. rewrite (Z.mod_small (2 * degree)) by lia.
  rewrite rel_prime_ok by (try assumption; unfold is_u64; lia). destruct (generate_prime isp size (2 * degree) upper) as [[p|]| |] eqn:E; cbn [bind ok_or]; [|reflexivity|reflexivity|reflexivity].
  destruct (existsb _ _); [|reflexivity]. apply IH. exact (prime_some _ _ _ _ _ E).
Qed.
Lemma moduli_eq isp degree : 0 <= degree < 2 ^ 63 -> forall sizes i acc, rel_generate_moduli_from isp i sizes degree acc = generate_moduli_from isp i sizes degree acc.
Proof.
  intros Hd. induction sizes as [|s sizes IH]; intros i acc; [reflexivity|]. cbn [rel_generate_moduli_from generate_moduli_from].
  destruct (Z.ltb_spec 62 s); [reflexivity|]. destruct (Z.ltb_spec s 10); [reflexivity|]. cbn [orb]. rewrite (Z.mod_small s) by lia. rewrite Z.shiftl_mul_pow2 by lia. rewrite Z.mul_1_l.
  assert (2 ^ s <= W62) by (change W62 with (2 ^ 62); apply Z.pow_le_mono_r; lia). assert (0 < 2 ^ s) by (apply Z.pow_pos_nonneg; lia). unfold w64. rewrite Z.mod_small by lia.
  rewrite next_eq by (assumption || lia). destruct (next_prime _ _ _ _ _ _); cbn [bind]; [|reflexivity|reflexivity]. apply IH.
Qed.
Lemma basis_eq isp want degree moduli : 0 <= degree < 2 ^ 63 -> forall fuel upper acc, 1 <= upper <= 2 ^ 62 ->
  rel_extended_basis_loop isp fuel want degree upper moduli acc = extended_basis_loop isp fuel want degree upper moduli acc.
Proof.
  intros Hd. change (2 ^ 63) with 9223372036854775808 in Hd. induction fuel as [|k IH]; intros upper acc Hu; cbn [rel_extended_basis_loop extended_basis_loop]; destruct (Nat.eqb _ _); [reflexivity|reflexivity|reflexivity|].
  unfold w64. rewrite (Z.mod_small (2 * degree)) by lia. rewrite rel_prime_ok by (try assumption; unfold is_u64; lia). destruct (generate_prime isp 62 (2 * degree) upper) as [[p|]| |] eqn:E; cbn [bind ok_or]; [|reflexivity|reflexivity|reflexivity].
  apply IH. exact (prime_some _ _ _ _ _ E).
Qed.

Lemma default_row_eq isp cands nb id row : 1 <= nb <= 63 -> 0 < fst row < 2 ^ 32 -> rel_default_row isp (build isp cands) nb id row = default_row isp cands nb id row.
Proof.
  intros Hn Hr. unfold rel_default_row, default_row. rewrite bind_chk by lia. unfold w64. rewrite (Z.mod_small (64 - nb)) by lia. rewrite (Z.mod_small (64 - nb)) by lia.
  assert (E : rel_generate_prime isp nb (2 * fst row) (Z.shiftr (W64 - 1) (64 - nb)) = generate_prime isp nb (2 * fst row) (Z.shiftr (W64 - 1) (64 - nb))); [|rewrite E; reflexivity].
  destruct (Z_le_gt_dec 10 nb) as [L|L]; [destruct (Z_le_gt_dec nb 62) as [L'|L']|].
  - apply rel_prime_ok; [unfold is_u64; lia|lia|]. rewrite Z.shiftr_div_pow2 by lia. assert (P : 0 < 2 ^ (64 - nb)) by (apply Z.pow_pos_nonneg; lia).
    assert (Q : 2 ^ nb * 2 ^ (64 - nb) = W64) by (rewrite <- Z.pow_add_r by lia; replace (nb + (64 - nb)) with 64 by lia; reflexivity).
    assert (N2 : 2 <= 2 ^ nb) by (change 2 with (2 ^ 1) at 1; apply Z.pow_le_mono_r; lia). split.
    + apply Z.div_le_lower_bound; [exact P|]. nia.
    + apply Z.lt_le_incl, Z.div_lt_upper_bound; [exact P|]. lia.
  - unfold rel_generate_prime, generate_prime. destruct (Z.leb_spec nb 62); [lia|]. rewrite andb_false_r. reflexivity.
  - unfold rel_generate_prime, generate_prime. destruct (Z.leb_spec 10 nb); [lia|]. reflexivity.
Qed.
Lemma default_eq isp cands ids nb : 1 <= nb <= 63 -> rel_default_parameters_128 isp (build isp cands) ids nb = default_parameters_128 isp cands ids nb.
Proof.
  intros Hn. unfold rel_default_parameters_128, default_parameters_128. rewrite bind_guard by (apply Z.ltb_lt; lia).
  assert (E : forall l, Forall (fun p => 0 < fst (snd p) < 2 ^ 32) l -> mapM (fun p => rel_default_row isp (build isp cands) nb (ids (fst p)) (snd p)) l = mapM (fun p : nat * (Z * list Z) => default_row isp cands nb (ids (fst p)) (snd p)) l).
  { induction 1 as [|p l Hp Hl IH]; [reflexivity|]. cbn [mapM]. rewrite default_row_eq by assumption. rewrite IH. reflexivity. }
  rewrite E; [reflexivity|]. cbn [combine seq default_table]. repeat (apply Forall_cons; [split; reflexivity|]). apply Forall_nil.
Qed.
Lemma default_out isp bld ids nb : nb <= 9 \/ 63 <= nb -> rel_default_parameters_128 isp bld ids nb = Err (ParNoDefault nb).
Proof.
  intros Hn. unfold rel_default_parameters_128.
  assert (R : forall id row, rel_default_row isp bld nb id row = Val None).
  { intros id row. unfold rel_default_row, rel_generate_prime. destruct (Z.leb_spec 10 nb); [|reflexivity]. destruct (Z.leb_spec nb 62); [lia|]. reflexivity. }
  cbn [combine seq default_table mapM]. rewrite !R. reflexivity.
Qed.
