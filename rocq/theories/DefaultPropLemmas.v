(** Closing lemmas for the default parameters. *)
From Verif Require Import Outcome BasicSpec OutcomeLemmas ZqModel ZqProofs NumTheory PrimesModel PrimesProofs PrimeCert NttModel PolySpec PolyRing NttPure NttStages NttProofs CbdModel CbdSpec CbdProofs.
From Verif Require Import TranscodeModel RnsModel RnsSpec RnsProofs RqModel RqSpec RqCtx RqRows RqProofs RingRn RqOps RqIO RqPropLemmas ParamsModel BfvSpec ParamsProofs BuildProofs ParamsPropLemmas PlainModel CipherModel SchemeSpec CipherSpec PlainProofs PlainPropLemmas RnPoly CipherProofs EncryptProofs CipherPropLemmas DefaultModel DefaultSpec DefaultCerts.
From Coq Require Import Znumtheory.
Set Default Proof Using "Type".

Lemma certified p : existsb (Z.eqb p) (map fst default_certs) = true -> prime p.
Proof. intros H. apply existsb_exists in H. destruct H as (x & Hx & E). apply Z.eqb_eq in E. subst x. exact (proj1 (Forall_forall _ _) default_primes p Hx). Qed.
(** What the table satisfies. *)
Definition row_good (row : Z * list Z) : Prop :=
  (exists k, 10 <= k <= 16 /\ fst row = 2 ^ k) /\ snd row <> [] /\ NoDup (snd row) /\ Forall (ntt_prime (fst row)) (snd row) /\
  (exists l, length l = S (length (snd row)) /\ NoDup l /\ Forall (fun q => ntt_prime (fst row) q /\ 2 ^ 61 <= q /\ ~ In q (snd row)) l).
Definition nodup_b (l : list Z) : bool := list_eqb (nodup Z.eq_dec l) l.
Lemma nodup_b_spec l : nodup_b l = true -> NoDup l.
Proof. intros H. apply list_eqb_eq in H. rewrite <- H. apply NoDup_nodup. Qed.
Definition ntt_b (n q : Z) : bool := existsb (Z.eqb q) (map fst default_certs) && (q <? 2 ^ 62) && (q mod (2 * n) =? 1).
Lemma ntt_b_spec n q : ntt_b n q = true -> ntt_prime n q.
Proof. unfold ntt_b. rewrite !andb_true_iff, Z.ltb_lt, Z.eqb_eq. intros ((H1 & H2) & H3). split; [exact (certified q H1)|]. auto. Qed.
Definition row_b (row : Z * list Z) : bool :=
  (10 <=? Z.log2 (fst row)) && (Z.log2 (fst row) <=? 16) && (fst row =? 2 ^ Z.log2 (fst row)) && negb (Nat.eqb (length (snd row)) 0) && nodup_b (snd row) && forallb (ntt_b (fst row)) (snd row) &&
  let l := firstn (S (length (snd row))) extension_primes in
  Nat.eqb (length l) (S (length (snd row))) && nodup_b l && forallb (fun q => ntt_b (fst row) q && (2 ^ 61 <=? q) && negb (existsb (Z.eqb q) (snd row))) l.
Lemma row_b_spec row : row_b row = true -> row_good row.
Proof.
  unfold row_b, row_good. cbv zeta. rewrite !andb_true_iff, !Z.leb_le, Z.eqb_eq, negb_true_iff, !forallb_forall, Nat.eqb_eq. intros ((((((H1 & H2) & H3) & H4) & H5) & H6) & ((H7 & H8) & H9)).
  split; [exists (Z.log2 (fst row)); auto|]. split; [intros E; rewrite E in H4; discriminate|]. split; [exact (nodup_b_spec _ H5)|]. split; [apply Forall_forall; intros q Hq; apply ntt_b_spec, H6, Hq|].
  eexists. split; [exact H7|]. split; [exact (nodup_b_spec _ H8)|]. apply Forall_forall. intros q Hq. specialize (H9 q Hq). rewrite !andb_true_iff, Z.leb_le, negb_true_iff in H9. destruct H9 as ((Ha & Hb) & Hc). split; [exact (ntt_b_spec _ _ Ha)|]. split; [exact Hb|].
  intros Hi. assert (existsb (Z.eqb q) (snd row) = true) by (apply existsb_exists; exists q; split; [exact Hi|apply Z.eqb_refl]). congruence.
Qed.
Lemma table_good : Forall row_good default_table.
Proof. assert (H : forallb row_b default_table = true) by (vm_compute; reflexivity). apply Forall_forall. intros row Hr. apply row_b_spec. exact (proj1 (forallb_forall _ _) H row Hr). Qed.

Lemma prod_lt_bits qs : Forall (fun q => 0 < q) qs -> 0 < prod_list qs <= 2 ^ fold_right Z.add 0 (map (fun m => 64 - leading_zeros64 m) qs) /\ 0 <= fold_right Z.add 0 (map (fun m => 64 - leading_zeros64 m) qs).
Proof.
  induction 1 as [|q qs Hq _ (IH & H0)]; [cbn; lia|]. change (prod_list (q :: qs)) with (q * prod_list qs). cbn [map fold_right]. unfold leading_zeros64, nbits at 1 3. replace (q <=? 0) with false by (symmetry; apply Z.leb_gt; lia).
  set (s := fold_right Z.add 0 _) in *. replace (64 - (64 - (Z.log2 q + 1))) with (Z.succ (Z.log2 q)) by lia. pose proof (Z.log2_spec q Hq). pose proof (Z.log2_nonneg q). rewrite Z.pow_add_r by lia. split; [|lia]. split; [apply Z.mul_pos_pos; lia|]. apply Z.mul_le_mono_nonneg; lia.
Qed.
Lemma prime_gcd_other t q : prime t -> prime q -> t <> q -> Z.gcd t q = 1.
Proof. intros Ht Hq Hne. apply Zgcd_1_rel_prime. apply prime_rel_prime; [exact Ht|]. intros Hd. apply (prime_div_prime t q Ht Hq) in Hd. contradiction. Qed.

Section Props.
  Context (isp : Z -> bool) (cands : Z -> list Z).
  (** The parameters made from a row. *)
  Definition made_from (nb : Z) (row : Z * list Z) (o : option params) : Prop :=
    match o with Some par => default_params isp cands nb row par | None => forall t, ~ default_fits nb (fst row) (snd row) t end.
  Lemma default_row_spec : oracles isp cands -> complete_draws cands -> forall nb id row, 1 <= nb <= 63 -> row_good row -> exists o, default_row isp cands nb id row = Val o /\ made_from nb row o.
  Proof.
    intros Ho Hd nb id (n, qs) Hnb ((k & Hk & En) & Hne & Hnd & Hqs & Hext). cbn [fst snd] in *. unfold default_row. rewrite chk_val by lia. cbn [bind fst snd].
    assert (Hn : 2 ^ 10 <= n <= 2 ^ 16) by (rewrite En; split; apply Z.pow_le_mono_r; lia).
    assert (Eu : Z.shiftr (W64 - 1) (64 - nb) = 2 ^ nb - 1).
    { rewrite Z.shiftr_div_pow2 by lia. change W64 with (2 ^ 64). replace 64 with (nb + (64 - nb)) at 1 by lia. rewrite Z.pow_add_r by lia. assert (0 < 2 ^ (64 - nb)) by (apply Z.pow_pos_nonneg; lia). symmetry. apply (Z.div_unique _ _ _ (2 ^ (64 - nb) - 1)); lia. }
    rewrite Eu. destruct (Z_le_dec 10 nb) as [H10|H10]; [destruct (Z_le_dec nb 62) as [H62|H62]|].
    2,3: rewrite generate_prime_range by lia; cbn [bind]; eexists; (split; [reflexivity|]); unfold made_from, default_params, default_fits, usable_t; cbn [fst snd]; intros t (((Pt & Ht & Hm & _) & _) & H62t & Hlt & _).
    - assert (2 ^ 10 <= 2 ^ nb) by (apply Z.pow_le_mono_r; lia).
      destruct (generate_prime_spec isp nb (2 * n) (2 ^ nb - 1) (proj1 Ho) ltac:(lia) ltac:(lia) ltac:(lia)) as [(t & E & Hw & Hmax)|(E & Hno)]; rewrite E; cbn [bind]; cycle 1.
      { eexists. split; [reflexivity|]. unfold made_from, default_fits. cbn [fst snd]. intros t ((Hw & _) & _). exact (Hno t Hw). }
      pose proof Hw as (Pt & Ht & Hm & Hub). assert (Hqp : Forall (fun q => 0 < q) qs) by (eapply Forall_impl; [|exact Hqs]; cbv beta; intros q (P & _); apply prime_ge_2 in P; lia).
      destruct (prod_lt_bits qs Hqp) as (Hpr & Hsum). set (s := fold_right Z.add 0 _) in *. destruct (Z.leb_spec nb s) as [Hs|Hs]; cycle 1.
      { eexists. split; [reflexivity|]. unfold made_from, default_params, default_fits, usable_t; cbn [fst snd]. intros t' (((_ & Ht' & _) & _) & _ & Hlt & _). assert (2 ^ s <= 2 ^ (nb - 1)) by (apply Z.pow_le_mono_r; lia). lia. }
      assert (H2 : 2 ^ nb <= 2 ^ 62) by (apply Z.pow_le_mono_r; lia).
      assert (Hb : is_builder (mkBuilder n t 10 qs [])). { unfold is_builder, is_u64. cbn [b_degree b_plaintext b_variance b_moduli b_sizes]. apply prime_ge_2 in Pt. split; [lia|]. split; [lia|]. split; [lia|]. split; [|constructor]. eapply Forall_impl; [|exact Hqs]. cbv beta. intros q (P & L & _). apply prime_ge_2 in P. lia. }
      destruct (build_total_all isp cands Ho Hd id _ Hb) as [(par & Eb)|(e & Eb & _)]; rewrite Eb; eexists; (split; [reflexivity|]); unfold made_from, default_params, default_fits, usable_t; cbn [fst snd].
      + pose proof (built_all isp cands Ho id _ par Hb Eb) as (_ & Ed & (_ & Ev) & (_ & Et) & _ & (_ & _ & Hlt & Hg) & Em & _). specialize (Em eq_refl). cbn [b_degree b_plaintext b_variance b_moduli b_sizes] in *. rewrite Em in Hlt, Hg.
        split; [exists id, (mkBuilder n t 10 qs []); auto|]. split; [exact Ed|]. split; [exact Em|]. split; [exact Ev|]. rewrite Et. split; [split; [exact Hw|exact Hmax]|]. split; [lia|]. split; [exact Hlt|]. intros Hi. rewrite Forall_forall in Hg. specialize (Hg t Hi). rewrite Z.gcd_diag in Hg. apply prime_ge_2 in Pt. lia.
      + intros t' ((Hw' & Hmax') & _ & Hlt & Hni). assert (t' = t) by (pose proof (Hmax t' Hw'); pose proof (Hmax' t Hw); lia). subst t'.
        destruct (accepts_all isp cands Ho Hd id n t 10 qs) as (par & Eb'); [exists k; split; [lia|exact En]|lia|apply prime_ge_2 in Pt; lia|lia|exact Hne| |exact Hext|congruence].
        split; [exact Hnd|]. split; [exact Hqs|]. split; [exact Hlt|]. apply Forall_forall. intros q Hq. rewrite Forall_forall in Hqs. apply prime_gcd_other; [exact Pt|apply (Hqs q Hq)|]. intros ->. contradiction.
    - assert (2 ^ 62 <= 2 ^ (nb - 1)) by (apply Z.pow_le_mono_r; lia). lia.
    - assert (2 ^ nb <= 2 ^ 9) by (apply Z.pow_le_mono_r; lia). pose proof (prime_ge_2 _ Pt). rewrite !Z.mod_small in Hm by lia. lia.
  Qed.
  Lemma rows_spec : oracles isp cands -> complete_draws cands -> forall nb ids rows k, 1 <= nb <= 63 -> Forall row_good rows ->
    exists os, mapM (fun p => default_row isp cands nb (ids (fst p)) (snd p)) (combine (seq k (length rows)) rows) = Val os /\ defaults isp cands nb rows (somes os).
  Proof.
    intros Ho Hd nb ids rows k Hnb HF. revert k. induction HF as [|row rows Hr _ IH]; intros k; cbn [length seq combine mapM]; [exists []; split; [reflexivity|constructor]|].
    destruct (default_row_spec Ho Hd nb (ids k) row Hnb Hr) as (o & E & Hm). cbn [fst snd]. rewrite E. destruct (IH (S k)) as (os & Eos & Hos). cbn [bind]. rewrite Eos. cbn [bind]. exists (o :: os). split; [reflexivity|].
    destruct o as [par|]; cbn [somes]; [apply defaults_take|apply defaults_skip]; assumption.
  Qed.
End Props.
Lemma table_rows : default_table = default_rows.
Proof. reflexivity. Qed.

Lemma default_all : forall isp cands, oracles isp cands -> complete_draws cands -> forall ids nb, 1 <= nb <= 63 ->
  exists ps, defaults isp cands nb default_rows ps /\ default_parameters_128 isp cands ids nb = match ps with [] => Err (ParNoDefault nb) | _ => Val ps end.
Proof.
  intros isp cands Ho Hd ids nb Hnb. rewrite <- table_rows. destruct (rows_spec isp cands Ho Hd nb ids default_table 0 Hnb table_good) as (os & E & Hs). exists (somes os). split; [exact Hs|].
  unfold default_parameters_128. replace (nb <? 64) with true by (symmetry; apply Z.ltb_lt; lia). cbn [guard bind]. change (seq 0 5) with (seq 0 (length default_table)). rewrite E. cbn [bind]. destruct (somes os); reflexivity.
Qed.
Lemma default_panics_all : forall isp cands ids nb, nb = 0 \/ 64 <= nb -> default_parameters_128 isp cands ids nb = Panic.
Proof.
  intros isp cands ids nb [->|H]; [reflexivity|]. unfold default_parameters_128. replace (nb <? 64) with false by (symmetry; apply Z.ltb_ge; lia). reflexivity.
Qed.

(** ** Which rows are there *)
Lemma defaults_in : forall isp cands nb rows ps, defaults isp cands nb rows ps -> forall row, In row rows -> (exists par, In par ps /\ default_params isp cands nb row par) \/ forall t, ~ default_fits nb (fst row) (snd row) t.
Proof.
  induction 1 as [|row' rows par ps Hp _ IH|row' rows ps Hn _ IH]; intros row Hi; [destruct Hi| |].
  - destruct Hi as [<-|Hi]; [left; exists par; split; [left; reflexivity|exact Hp]|]. destruct (IH row Hi) as [(par' & Hi' & H')|H']; [left; exists par'; split; [right; exact Hi'|exact H']|right; exact H'].
  - destruct Hi as [<-|Hi]; [right; exact Hn|exact (IH row Hi)].
Qed.
Lemma defaults_out : forall isp cands nb rows ps, defaults isp cands nb rows ps -> forall par, In par ps -> exists row, In row rows /\ default_params isp cands nb row par.
Proof.
  induction 1 as [|row' rows par' ps Hp _ IH|row' rows ps Hn _ IH]; intros par Hi; [destruct Hi| |].
  - destruct Hi as [<-|Hi]; [exists row'; split; [left; reflexivity|exact Hp]|]. destruct (IH par Hi) as (row & H1 & H2). exists row. split; [right; exact H1|exact H2].
  - destruct (IH par Hi) as (row & H1 & H2). exists row. split; [right; exact H1|exact H2].
Qed.
Lemma default_t_ex isp cands nb n p : oracles isp cands -> 10 <= nb <= 62 -> 2 <= 2 * n < 2 ^ 64 -> wanted nb (2 * n) (2 ^ nb - 1) p -> exists t, default_t nb n t.
Proof.
  intros Ho Hnb Hn Hp. assert (2 ^ 10 <= 2 ^ nb) by (apply Z.pow_le_mono_r; lia).
  destruct (generate_prime_spec isp nb (2 * n) (2 ^ nb - 1) (proj1 Ho) Hnb Hn ltac:(lia)) as [(t & _ & H1 & H2)|(_ & Hno)]; [exists t; split; assumption|destruct (Hno p Hp)].
Qed.
(** A row that certainly fits [nb] bits: the certified prime, and no modulus of that many bits. *)
Definition fits_b (nb : Z) (row : Z * list Z) (p : Z) : bool :=
  existsb (Z.eqb p) (map fst default_certs) && (2 ^ (nb - 1) <=? p) && (p <? 2 ^ nb - 1) && (p mod (2 * fst row) =? 1) && (2 ^ nb <=? prod_list (snd row)) && forallb (fun q => (q <? 2 ^ (nb - 1)) || (2 ^ nb <=? q)) (snd row).
Lemma fits_b_spec isp cands nb row p : oracles isp cands -> 10 <= nb <= 62 -> 2 <= 2 * fst row < 2 ^ 64 -> fits_b nb row p = true -> exists t, default_fits nb (fst row) (snd row) t.
Proof.
  intros Ho Hnb Hn H. unfold fits_b in H. rewrite !andb_true_iff, !Z.leb_le, Z.ltb_lt, Z.eqb_eq, forallb_forall in H. destruct H as (((((H1 & H2) & H3) & H4) & H5) & H6).
  assert (Hw : wanted nb (2 * fst row) (2 ^ nb - 1) p) by (split; [exact (certified p H1)|]; split; [lia|]; split; [rewrite (Z.mod_small 1) by lia; exact H4|exact H3]).
  destruct (default_t_ex isp cands nb (fst row) p Ho Hnb Hn Hw) as (t & Ht). exists t. split; [exact Ht|]. destruct Ht as ((_ & Ht & _) & _). assert (2 ^ nb <= 2 ^ 62) by (apply Z.pow_le_mono_r; lia).
  split; [lia|]. split; [lia|]. intros Hi. specialize (H6 t Hi). apply orb_true_iff in H6. rewrite Z.ltb_lt, Z.leb_le in H6. lia.
Qed.
Definition some_row_b (nb : Z) : bool := existsb (fun x => let '(b, n, p) := x in (b =? nb) && existsb (fun row => (fst row =? n) && fits_b nb row p) default_rows) plaintext_primes.
Lemma rows_fit : forallb (fun k => some_row_b (Z.of_nat k)) (seq 14 49) = true.
Proof. vm_compute. reflexivity. Qed.
Lemma rows_deg row : In row default_rows -> 1024 <= fst row <= 16384.
Proof. cbn [default_rows In]. intros H. repeat (destruct H as [<-|H]; [cbn; lia|]). destruct H. Qed.
Lemma some_row isp cands nb : oracles isp cands -> 14 <= nb <= 62 -> exists row t, In row default_rows /\ default_fits nb (fst row) (snd row) t.
Proof.
  intros Ho Hnb. pose proof (proj1 (forallb_forall _ _) rows_fit (Z.to_nat nb)) as H. cbv beta in H. rewrite Z2Nat.id in H by lia. specialize (H ltac:(apply in_seq; lia)).
  unfold some_row_b in H. apply existsb_exists in H. destruct H as (((b & n) & p) & _ & H). apply andb_true_iff in H. destruct H as (_ & H). apply existsb_exists in H. destruct H as (row & Hi & H). apply andb_true_iff in H. destruct H as (_ & H).
  pose proof (rows_deg row Hi). destruct (fits_b_spec isp cands nb row p Ho ltac:(lia) ltac:(lia) H) as (t & Ht). exists row, t. split; assumption.
Qed.
Lemma default_some_all : forall isp cands, oracles isp cands -> complete_draws cands -> forall ids nb, 14 <= nb <= 62 ->
  exists ps, default_parameters_128 isp cands ids nb = Val ps /\ ps <> [] /\ defaults isp cands nb default_rows ps.
Proof.
  intros isp cands Ho Hd ids nb Hnb. destruct (default_all isp cands Ho Hd ids nb ltac:(lia)) as (ps & Hps & E). destruct (some_row isp cands nb Ho Hnb) as (row & t & Hi & Ht).
  assert (Hne : ps <> []). { intros ->. destruct (defaults_in _ _ _ _ _ Hps row Hi) as [(par & [] & _)|Hno]. exact (Hno t Ht). }
  exists ps. rewrite E. split; [destruct ps; [congruence|reflexivity]|]. split; assumption.
Qed.
Lemma no_prime nb n t : (1 <= nb <= 13 \/ nb = 63) -> (exists k, 10 <= k <= 16 /\ n = 2 ^ k) -> prime t -> 2 ^ (nb - 1) <= t < 2 ^ nb -> t mod (2 * n) = 1 mod (2 * n) -> t < 2 ^ 62 -> False.
Proof.
  intros [Hnb| ->] (k & Hk & ->) Pt Ht Hm H62; [|cbn in Ht; lia]. assert (2 ^ nb <= 2 ^ 13) by (apply Z.pow_le_mono_r; lia). pose proof (prime_ge_2 t Pt) as H2.
  assert (E : 2 * 2 ^ k = 2048 * 2 ^ (k - 10)) by (replace k with (10 + (k - 10)) at 1 by lia; rewrite Z.pow_add_r by lia; change (2 ^ 10) with 1024; ring). assert (0 < 2 ^ (k - 10)) by (apply Z.pow_pos_nonneg; lia).
  rewrite (Z.mod_small 1) in Hm by lia. pose proof (Z.div_mod t (2 * 2 ^ k) ltac:(lia)) as Hdm. rewrite Hm, E in Hdm. set (j := 2 ^ (k - 10) * (t / (2048 * 2 ^ (k - 10)))). assert (Ej : t = 2048 * j + 1) by (unfold j; rewrite Hdm at 1; ring).
  change (2 ^ 13) with 8192 in *. assert (Hj : j = 1 \/ j = 2 \/ j = 3) by lia.
  assert (Hc : forall d, (d | t) -> 1 < d < t -> False). { intros d Hdv Hd. apply prime_divisors in Hdv; [|exact Pt]. lia. }
  destruct Hj as [Hj|[Hj|Hj]]; rewrite Hj in Ej; [apply (Hc 3); [exists 683|]|apply (Hc 17); [exists 241|]|apply (Hc 5); [exists 1229|]]; lia.
Qed.
Lemma default_none_all : forall isp cands, oracles isp cands -> complete_draws cands -> forall ids nb, 1 <= nb <= 13 \/ nb = 63 ->
  default_parameters_128 isp cands ids nb = Err (ParNoDefault nb).
Proof.
  intros isp cands Ho Hd ids nb Hnb. destruct (default_all isp cands Ho Hd ids nb ltac:(lia)) as (ps & Hps & ->). destruct ps as [|par ps]; [reflexivity|exfalso].
  destruct (defaults_out _ _ _ _ _ Hps par (or_introl eq_refl)) as (row & Hi & (_ & _ & _ & _ & ((Pt & Ht & Hm & _) & _) & H62 & _)).
  refine (no_prime nb (fst row) _ Hnb _ Pt Ht Hm H62). rewrite <- table_rows in Hi. destruct (proj1 (Forall_forall _ _) table_good row Hi) as (H & _). exact H.
Qed.

(** ** Rows that are skipped although other plaintext moduli would do *)
Definition skipped_rows : list (Z * Z * Z * Z) := [ (* bits, degree, largest prime, another prime *)
  (36, 4096, 68719403009, 52613349377);
  (37, 4096, 137438822401, 77309411329);
  (43, 8192, 8796092858369, 6597069766657);
  (44, 8192, 17592186028033, 17317308137473);
  (48, 16384, 281474976546817, 263882790666241);
  (49, 16384, 562949952798721, 474989023199233)].
Definition small_divisors : list Z := [3; 5; 7; 11; 13; 17; 19; 23; 37; 53; 109; 113; 137; 157; 179; 227; 257; 557; 7151; 11443; 18803].
Definition skipped_b (x : Z * Z * Z * Z) : bool :=
  let '(nb, n, q, p) := x in
  (10 <=? nb) && (nb <=? 62) && (1024 <=? n) && (n <=? 16384) && (2 ^ (nb - 1) <=? q) && (q <? 2 ^ nb - 1) && (q mod (2 * n) =? 1) &&
  existsb (Z.eqb p) (map fst default_certs) && (2 ^ (nb - 1) <=? p) && (p <? 2 ^ nb - 1) && (p mod (2 * n) =? 1) &&
  existsb (fun row => (fst row =? n) && existsb (Z.eqb q) (snd row) && negb (existsb (Z.eqb p) (snd row)) && (2 ^ nb <=? prod_list (snd row))) default_rows &&
  forallb (fun k => let x := q + 2 * n * Z.of_nat k in existsb (fun d => x mod d =? 0) small_divisors) (seq 1 (Z.to_nat ((2 ^ nb - 2 - q) / (2 * n)))).
Lemma skipped_ok : forallb skipped_b skipped_rows = true.
Proof. vm_compute. reflexivity. Qed.
Lemma not_prime_divisor d x : In d small_divisors -> 18803 < x -> x mod d = 0 -> ~ prime x.
Proof.
  intros Hd Hx Hm Px. assert (1 < d <= 18803) by (cbn [small_divisors In] in Hd; repeat (destruct Hd as [<-|Hd]; [lia|]); destruct Hd).
  apply Z.mod_divide in Hm; [|lia]. apply prime_divisors in Hm; [|exact Px]. lia.
Qed.
Lemma skipped_spec nb n q p : In (nb, n, q, p) skipped_rows -> 10 <= nb <= 62 /\ exists qs, In (n, qs) default_rows /\ (forall t, ~ default_fits nb n qs t) /\ wanted nb (2 * n) (2 ^ nb - 1) p /\ usable_t qs p.
Proof.
  intros Hi. pose proof (proj1 (forallb_forall _ _) skipped_ok _ Hi) as H. assert (Hbig : 18803 < q) by (cbn [skipped_rows In] in Hi; repeat (destruct Hi as [Hi|Hi]; [injection Hi as <- <- <- <-; lia|]); destruct Hi).
  unfold skipped_b in H. rewrite !andb_true_iff, !Z.leb_le, !Z.ltb_lt, !Z.eqb_eq in H. destruct H as ((((((((((((H1 & H2) & H3) & H4) & H5) & H6) & H7) & H8) & H9) & H10) & H11) & H12) & H13).
  split; [lia|]. apply existsb_exists in H12. destruct H12 as ((n', qs) & Hr & H12). cbn [fst snd] in H12. rewrite !andb_true_iff, Z.eqb_eq, negb_true_iff, Z.leb_le in H12. destruct H12 as (((-> & Hq) & Hp) & Hprod).
  apply existsb_exists in Hq. destruct Hq as (q' & Hqi & Eq). apply Z.eqb_eq in Eq. subst q'. assert (2 ^ nb <= 2 ^ 62) by (apply Z.pow_le_mono_r; lia). exists qs. split; [exact Hr|]. split; [|split].
  - intros t (((Pt & Ht & Hm & Hub) & Hmax) & _ & _ & Hni). rewrite (Z.mod_small 1) in Hm by lia.
    assert (Wq : wanted nb (2 * n) (2 ^ nb - 1) q). { split; [|split; [lia|split; [rewrite (Z.mod_small 1) by lia; exact H7|exact H6]]]. rewrite <- table_rows in Hr. destruct (proj1 (Forall_forall _ _) table_good _ Hr) as (_ & _ & _ & HF & _). cbn [fst snd] in HF. exact (proj1 (proj1 (Forall_forall _ _) HF q Hqi)). }
    pose proof (Hmax q Wq) as Hqt. assert (t <> q) by (intros ->; contradiction).
    pose proof (Z.div_mod t (2 * n) ltac:(lia)) as D1. pose proof (Z.div_mod q (2 * n) ltac:(lia)) as D2. rewrite Hm in D1. rewrite H7 in D2. set (k := t / (2 * n) - q / (2 * n)). assert (Et : t = q + 2 * n * k) by (unfold k; rewrite Z.mul_sub_distr_l; lia).
    assert (0 < k). { apply Z.lt_nge. intros Hk. assert (2 * n * k <= 0) by (apply Z.mul_nonneg_nonpos; lia). lia. }
    assert (Hk : k <= (2 ^ nb - 2 - q) / (2 * n)) by (apply Z.div_le_lower_bound; lia).
    specialize (proj1 (forallb_forall _ _) H13 (Z.to_nat k)). intros Hd. cbv zeta beta in Hd. rewrite Z2Nat.id in Hd by lia. rewrite <- Et in Hd. specialize (Hd ltac:(apply in_seq; lia)).
    apply existsb_exists in Hd. destruct Hd as (d & Hdi & Hd0). apply Z.eqb_eq in Hd0. exact (not_prime_divisor d t Hdi ltac:(lia) Hd0 Pt).
  - split; [exact (certified p H8)|]. split; [lia|]. split; [rewrite (Z.mod_small 1) by lia; exact H11|exact H10].
  - split; [lia|]. split; [lia|]. intros Hin. assert (existsb (Z.eqb p) qs = true) by (apply existsb_exists; exists p; split; [exact Hin|apply Z.eqb_refl]). congruence.
Qed.
Lemma rows_inj n qs qs' : In (n, qs) default_rows -> In (n, qs') default_rows -> qs = qs'.
Proof. cbn [default_rows In]. intros H H'. repeat match goal with X : _ \/ _ |- _ => destruct X end; try contradiction; congruence. Qed.
Lemma default_gap_all : forall isp cands, oracles isp cands -> complete_draws cands -> forall nb n, In (nb, n) [(36, 4096); (37, 4096); (43, 8192); (44, 8192); (48, 16384); (49, 16384)] ->
  (exists qs p, In (n, qs) default_rows /\ wanted nb (2 * n) (2 ^ nb - 1) p /\ usable_t qs p) /\
  forall ids, exists ps, default_parameters_128 isp cands ids nb = Val ps /\ Forall (fun par => Z.of_nat (pa_degree par) <> n) ps.
Proof.
  intros isp cands Ho Hd nb n Hi. assert (H : exists q p, In (nb, n, q, p) skipped_rows).
  { cbn [In] in Hi. repeat (destruct Hi as [Hi|Hi]; [injection Hi as <- <-; do 2 eexists; unfold skipped_rows; cbn [In]; tauto|]). destruct Hi. }
  destruct H as (q & p & H). destruct (skipped_spec nb n q p H) as (Hnb & qs & Hr & Hno & Hw & Hu). split; [exists qs, p; split; [exact Hr|]; split; assumption|].
  assert (Hnb' : 14 <= nb <= 62) by (cbn [In] in Hi; repeat (destruct Hi as [Hi|Hi]; [injection Hi as <- <-; lia|]); destruct Hi).
  intros ids. destruct (default_some_all isp cands Ho Hd ids nb Hnb') as (ps & E & _ & Hps). exists ps. split; [exact E|]. apply Forall_forall. intros par Hpar En.
  destruct (defaults_out _ _ _ _ _ Hps par Hpar) as ((n', qs') & Hr' & (_ & Ed & _ & _ & Hf)). cbn [fst snd] in *. rewrite En in Ed. rewrite <- Ed in Hr', Hf. rewrite (rows_inj n qs' qs Hr' Hr) in Hf. exact (Hno _ Hf).
Qed.

(** ** Decryption *)
Lemma decrypt_bound_all : forall isp cands par, oracles isp cands -> is_params isp cands par -> forall l, (l <= max_level par)%nat -> supported par -> pa_t par <= level_modulus par l ->
  forall sk ct xs, is_sk par sk -> is_ct par l ct xs -> (2 <= length xs)%nat ->
  exists pt m, sk_decrypt sk ct = Val pt /\ is_pt par l pt m /\ canonical (pa_t par) m /\ canonical (decryption_base par) m.
Proof.
  intros isp cands par Ho Hp l Hl Hsup HtQ sk ct xs (Esk & Ls & Hi) Hct Hlen. pose proof (params_good isp cands par Ho Hp) as G. destruct (at_level_ex isp cands par l Ho G Hl) as (lv & c & A).
  destruct (ct_parts isp cands Ho par G l lv c A ct xs Hct) as (vxs & Ect & Ex). rewrite <- Ex, !map_length in Hlen.
  destruct (decrypt_raw isp cands Ho par G l lv c A sk Ls (ct_seed ct) vxs Esk Hi Hlen Hsup HtQ) as (y & _ & Ey). rewrite Ect, Ey. do 2 eexists. split; [reflexivity|]. split; [apply (P_pt isp cands Ho par G l lv c A)|].
  pose proof (gp_t _ _ _ G) as Ht. pose proof (base_eq isp cands Ho par G l lv c A) as Eb.
  assert (Hb : 0 < dec_base par). { unfold dec_base. destruct (pa_small par); [|apply (plain_prod_pos isp cands Ho par G l lv c A)]. pose proof (moduli_range isp cands Ho par G l lv c A) as Hr. pose proof (gp_ne _ _ _ G). destruct (pa_moduli par); [congruence|]. inversion Hr; subst. cbn [hd]. lia. }
  unfold unscale. rewrite rl_mkR, <- Eb. split; apply Forall_forall; intros a Ha; apply in_map_iff in Ha; destruct Ha as (v & <- & _); [apply Z.mod_pos_bound; lia|].
  pose proof (Z.mod_pos_bound (v mod dec_base par + pa_t par) (dec_base par) Hb) as H1. pose proof (Z.mod_pos_bound ((v mod dec_base par + pa_t par) mod dec_base par) (pa_t par) ltac:(lia)). pose proof (Z.mod_le ((v mod dec_base par + pa_t par) mod dec_base par) (pa_t par) ltac:(lia) ltac:(lia)). lia.
Qed.
Lemma pt_unique : forall isp cands par, oracles isp cands -> is_params isp cands par -> forall l, (l <= max_level par)%nat -> pa_t par <= level_modulus par l ->
  forall pt m m', is_pt par l pt m -> is_pt par l pt m' -> canonical (pa_t par) m -> canonical (pa_t par) m' -> m = m'.
Proof.
  intros isp cands par Ho Hp l Hl HtQ pt m m' Hm Hm' Cm Cm'. pose proof (params_good isp cands par Ho Hp) as G. destruct (at_level_ex isp cands par l Ho G Hl) as (lv & c & A).
  destruct (pt_P isp cands Ho par G l lv c A pt m Hm) as (x & E & Ex). rewrite E in Hm'. destruct Hm' as (_ & _ & Hr). cbn [pt_poly] in Hr.
  apply (P_represents c (good_ok _ (al_good _ _ _ _ _ _ A)) (pa_degree par) (al_deg _ _ _ _ _ _ A)) in Hr. destruct Hr as (z & Ez & Hz). subst m m'. f_equal. apply rn_ext. intros k Hk.
  pose proof (proj1 (rcong_nth (pa_degree par) _ _ _) Hz k Hk) as H0. unfold modulus_of in H0. rewrite (al_mod _ _ _ _ _ _ A) in H0. change (prod_list (level_moduli (pa_moduli par) l)) with (level_modulus par l) in H0.
  assert (B : forall w : Rn (pa_degree par), canonical (pa_t par) (rl w) -> 0 <= nth k (rl w) 0 < level_modulus par l). { intros w Hw. assert (Hkl : (k < length (rl w))%nat) by (rewrite rl_length; exact Hk). pose proof (proj1 (Forall_forall _ _) Hw _ (nth_In (rl w) 0 Hkl)) as H. cbv beta in H. lia. }
  unfold cong in H0. rewrite !Z.mod_small in H0 by (apply B; assumption). exact H0.
Qed.
Lemma undecryptable_all : forall isp cands par, oracles isp cands -> is_params isp cands par -> forall l, (l <= max_level par)%nat -> supported par -> pa_t par <= level_modulus par l ->
  forall sk ct xs m, is_sk par sk -> is_ct par l ct xs -> (2 <= length xs)%nat -> canonical (pa_t par) m -> Exists (fun a => decryption_base par <= a) m ->
  exists pt, sk_decrypt sk ct = Val pt /\ ~ is_pt par l pt m.
Proof.
  intros isp cands par Ho Hp l Hl Hsup HtQ sk ct xs m Hsk Hct Hlen Cm Hex. destruct (decrypt_bound_all isp cands par Ho Hp l Hl Hsup HtQ sk ct xs Hsk Hct Hlen) as (pt & m' & E & Hm' & C1 & C2).
  exists pt. split; [exact E|]. intros Hm. rewrite (pt_unique isp cands par Ho Hp l Hl HtQ pt m m' Hm Hm' Cm C1) in Hex. apply Exists_exists in Hex. destruct Hex as (a & Ha & Hge). pose proof (proj1 (Forall_forall _ _) C2 a Ha) as H. cbv beta in H. lia.
Qed.

Lemma default_supported : forall isp cands nb row par, In row default_rows -> default_params isp cands nb row par -> supported par.
Proof.
  intros isp cands nb row par Hi (_ & _ & Em & _). unfold supported. rewrite Em. cbn [default_rows In] in Hi. repeat (destruct Hi as [<-|Hi]; [cbn [fst snd]; vm_compute; split; [reflexivity|discriminate]|]). destruct Hi.
Qed.
Lemma default_level0 : forall isp cands nb row par, default_params isp cands nb row par -> level_modulus par 0 = prod_list (snd row) /\ pa_t par < level_modulus par 0.
Proof.
  intros isp cands nb row par (_ & _ & Em & _ & _ & _ & Hlt & _). unfold level_modulus, level_moduli. rewrite Nat.sub_0_r, firstn_all, Em. split; [reflexivity|exact Hlt].
Qed.
Lemma default_base : forall isp cands nb row par, default_params isp cands nb row par -> decryption_base par = hd 0 (snd row).
Proof.
  intros isp cands nb row par (_ & _ & Em & _ & _ & H62 & _). unfold decryption_base. replace (pa_t par <? 2 ^ 64) with true by (symmetry; apply Z.ltb_lt; lia). rewrite Em. reflexivity.
Qed.
(** Bits of the first modulus, by row. *)
Lemma first_bits row : In row default_rows -> exists b, nbits (hd 0 (snd row)) = b /\ 27 <= b <= 54 /\ 3 * 2 ^ (b - 1) + 2 ^ (b - 1) / 2 ^ 40 + 4 <= 2 * hd 0 (snd row) /\ 2 ^ 60 * (42 * 2 ^ (b - 6)) <= (2 ^ 60 - 1) * hd 0 (snd row) /\ hd 0 (snd row) <= prod_list (snd row) /\ hd 0 (snd row) < 2 ^ b.
Proof.
  cbn [default_rows In]. intros H. repeat (destruct H as [<-|H]; [cbn [fst snd hd]; eexists; split; [vm_compute; reflexivity|]; vm_compute; repeat split; discriminate|]). destruct H.
Qed.
Lemma default_decryptable_all : forall isp cands nb row par, In row default_rows -> default_params isp cands nb row par -> nb < nbits (hd 0 (snd row)) -> supported par /\ decryptable par.
Proof.
  intros isp cands nb row par Hi Hd Hb. split; [exact (default_supported _ _ _ _ _ Hi Hd)|]. unfold decryptable. rewrite (default_base _ _ _ _ _ Hd). destruct (first_bits row Hi) as (b & Eb & Hbr & H1 & _). rewrite Eb in Hb.
  destruct Hd as (_ & _ & _ & _ & ((_ & Ht & _) & _) & _). assert (2 ^ nb <= 2 ^ (b - 1)) by (apply Z.pow_le_mono_r; lia). assert (pa_t par / 2 ^ 40 <= 2 ^ (b - 1) / 2 ^ 40) by (apply Z.div_le_mono; lia). lia.
Qed.
Lemma default_roundtrip_all : forall isp cands, oracles isp cands -> forall nb row par, In row default_rows -> default_params isp cands nb row par -> nb + 6 <= nbits (hd 0 (snd row)) ->
  forall expand sk sd rng pt m, expands_well expand -> words rng -> is_sk par sk -> is_pt par 0 pt m -> canonical (pa_t par) m ->
  exists ct pt', sk_encrypt expand sk pt sd rng = Val ct /\ sk_decrypt sk ct = Val pt' /\ is_pt par 0 pt' m.
Proof.
  intros isp cands Ho nb row par Hi Hd Hb expand sk sd rng pt m Hx Hw Hsk Hpt Hm. destruct (default_level0 _ _ _ _ _ Hd) as (EQ & HtQ). destruct (default_decryptable_all _ _ _ _ _ Hi Hd ltac:(lia)) as (Hsup & Hdec). pose proof (proj1 Hd) as Hp.
  destruct (sk_encrypt_all isp cands par Ho Hp 0%nat (Nat.le_0_l _) expand sk sd rng pt m Hx Hw Hsk Hpt Hm ltac:(lia)) as (ct & Ect & Henc & _). pose proof (proj1 (proj2 (proj2 (proj2 Hd)))) as Ev. rewrite Ev in Henc.
  destruct (decrypt_all isp cands par Ho Hp 0%nat (Nat.le_0_l _) Hsup Hdec sk ct m _ Hsk Henc) as (pt' & Edec & Hpt' & _).
  - unfold small_noise. rewrite EQ. destruct (first_bits row Hi) as (b & Eb & Hbr & _ & H1 & H2 & _). rewrite Eb in Hb. destruct Hd as (_ & _ & _ & _ & ((Pt & Ht & _) & _) & _). assert (2 ^ nb <= 2 ^ (b - 6)) by (apply Z.pow_le_mono_r; lia). lia.
  - exists ct, pt'. split; [exact Ect|]. split; [exact Edec|]. replace m with (map (fun a => a mod pa_t par) m); [exact Hpt'|]. clear - Hm. induction Hm as [|a m Ha _ IH]; [reflexivity|]. cbn [map]. rewrite IH, Z.mod_small by exact Ha. reflexivity.
Qed.
(** With more bits than the first modulus, the plaintext modulus is larger, and some messages never decrypt. *)
Lemma default_undecryptable_all : forall isp cands, oracles isp cands -> forall nb row par, In row default_rows -> default_params isp cands nb row par -> nbits (hd 0 (snd row)) < nb ->
  hd 0 (snd row) < pa_t par /\
  forall sk ct xs m, is_sk par sk -> is_ct par 0 ct xs -> (2 <= length xs)%nat -> canonical (pa_t par) m -> Exists (fun a => hd 0 (snd row) <= a) m ->
  exists pt, sk_decrypt sk ct = Val pt /\ ~ is_pt par 0 pt m.
Proof.
  intros isp cands Ho nb row par Hi Hd Hb. destruct (default_level0 _ _ _ _ _ Hd) as (_ & HtQ). split.
  - destruct (first_bits row Hi) as (b & Eb & Hbr & _ & _ & _ & H1). rewrite Eb in Hb. destruct Hd as (_ & _ & _ & _ & ((_ & Ht & _) & _) & _). assert (2 ^ b <= 2 ^ (nb - 1)) by (apply Z.pow_le_mono_r; lia). lia.
  - intros sk ct xs m Hsk Hct Hlen Cm Hex. refine (undecryptable_all isp cands par Ho (proj1 Hd) 0%nat (Nat.le_0_l _) (default_supported _ _ _ _ _ Hi Hd) ltac:(lia) sk ct xs m Hsk Hct Hlen Cm _). rewrite (default_base _ _ _ _ _ Hd). exact Hex.
Qed.
Definition wide_b (nb : Z) : bool := existsb (fun x => let '(b, n, p) := x in (b =? nb) && existsb (fun row => (nbits (hd 0 (snd row)) <? nb) && fits_b nb row p) default_rows) plaintext_primes.
Lemma wide_rows : forallb (fun k => wide_b (Z.of_nat k)) (seq 42 21) = true.
Proof. vm_compute. reflexivity. Qed.
Lemma default_wide_all : forall isp cands, oracles isp cands -> complete_draws cands -> forall ids nb, 42 <= nb <= 62 ->
  exists ps row par, default_parameters_128 isp cands ids nb = Val ps /\ In par ps /\ In row default_rows /\ default_params isp cands nb row par /\ hd 0 (pa_moduli par) < pa_t par /\
  forall sk ct xs m, is_sk par sk -> is_ct par 0 ct xs -> (2 <= length xs)%nat -> canonical (pa_t par) m -> Exists (fun a => hd 0 (pa_moduli par) <= a) m ->
  exists pt, sk_decrypt sk ct = Val pt /\ ~ is_pt par 0 pt m.
Proof.
  intros isp cands Ho Hd ids nb Hnb. destruct (default_some_all isp cands Ho Hd ids nb ltac:(lia)) as (ps & E & _ & Hps).
  pose proof (proj1 (forallb_forall _ _) wide_rows (Z.to_nat nb)) as H. cbv beta in H. rewrite Z2Nat.id in H by lia. specialize (H ltac:(apply in_seq; lia)).
  unfold wide_b in H. apply existsb_exists in H. destruct H as (((b & n) & p) & _ & H). apply andb_true_iff in H. destruct H as (_ & H). apply existsb_exists in H. destruct H as (row & Hi & H). apply andb_true_iff in H. destruct H as (Hw & H). apply Z.ltb_lt in Hw.
  pose proof (rows_deg row Hi). destruct (fits_b_spec isp cands nb row p Ho ltac:(lia) ltac:(lia) H) as (t & Ht).
  destruct (defaults_in _ _ _ _ _ Hps row Hi) as [(par & Hin & Hpar)|Hno]; [|destruct (Hno t Ht)]. destruct (default_undecryptable_all isp cands Ho nb row par Hi Hpar Hw) as (Hlt & Hun). pose proof (proj1 (proj2 (proj2 Hpar))) as Em.
  exists ps, row, par. rewrite Em. split; [exact E|]. split; [exact Hin|]. split; [exact Hi|]. split; [exact Hpar|]. split; [exact Hlt|exact Hun].
Qed.
