(** The theorems about the MulPIR example. *)
From Verif Require Import Outcome BasicSpec OutcomeLemmas NttModel PolySpec PolyRing CbdModel CbdSpec CbdProofs TranscodeModel PrimesModel RnsModel RnsSpec RqModel RqSpec ParamsModel BfvSpec ParamsProofs BuildProofs ParamsPropLemmas PlainModel CipherModel OpsModel SchemeSpec CipherSpec CipherPropLemmas KeysModel KeysSpec EvalSpec PirModel PirSpec PirLists PirProofs MulPirProofs.
From Verif Require Import BasicSpec.
Set Default Proof Using "Type".

Lemma numbered_val esize i : firstn esize (index_bytes i) ++ repeat 0 (esize - 4) = numbered esize i.
Proof.
  assert (E : forall k, 256 ^ Z.of_nat k = 2 ^ (8 * Z.of_nat k)) by (intros k; rewrite Z.pow_mul_r by lia; reflexivity).
  destruct (Nat.le_gt_cases esize 4) as [H|H].
  - destruct esize as [|[|[|[|[|?]]]]]; try lia; reflexivity.
  - rewrite firstn_all2 by (unfold index_bytes; rewrite map_length, seq_length; lia). unfold numbered. replace esize with (4 + (esize - 4))%nat at 2 by lia. rewrite seq_app, map_app. f_equal.
    rewrite <- (seq_length (esize - 4) 4) at 1. remember (seq (0 + 4) (esize - 4)) as l eqn:El. assert (Hl : forall k, In k l -> (4 <= k)%nat) by (subst l; intros k Hk; apply in_seq in Hk; lia). cbn [Nat.add] in El. rewrite <- El. clear El.
    induction l as [|k l IH]; [reflexivity|]. cbn [length repeat map]. replace (Nat.ltb k 4) with false by (symmetry; apply Nat.ltb_ge, Hl; left; reflexivity). f_equal. apply IH. intros j Hj. apply Hl. right. exact Hj.
Qed.
Lemma generate_val size esize : (0 < size)%nat -> (0 < esize)%nat -> generate_database size esize = Val (numbered_database size esize).
Proof.
  intros H1 H2. unfold generate_database. replace (Nat.ltb 0 size) with true by (symmetry; apply Nat.ltb_lt, H1). replace (Nat.ltb 0 esize) with true by (symmetry; apply Nat.ltb_lt, H2). cbn [andb guard bind]. f_equal. apply map_ext. intros i. apply numbered_val.
Qed.
Lemma numbered_database_ok size esize : database esize (numbered_database size esize).
Proof.
  apply Forall_forall. intros e He. apply in_map_iff in He. destruct He as (i & <- & _). unfold numbered. rewrite map_length, seq_length. split; [reflexivity|]. apply Forall_forall. intros b Hb. apply in_map_iff in Hb. destruct Hb as (k & <- & _).
  destruct (Nat.ltb k 4); [|lia]. apply (Z.mod_pos_bound _ (2 ^ 8)). lia.
Qed.
Lemma numbered_database_length size esize : length (numbered_database size esize) = size.
Proof. unfold numbered_database. rewrite map_length, seq_length. reflexivity. Qed.
Lemma wanted_numbered size esize d : (0 < size)%nat -> requested (numbered_database size esize) d = numbered esize (Z.to_nat (d_index d mod Z.of_nat size)).
Proof.
  intros H. unfold requested. rewrite numbered_database_length. unfold numbered_database. assert (Hl : (Z.to_nat (d_index d mod Z.of_nat size) < size)%nat) by (pose proof (Z.mod_pos_bound (d_index d) (Z.of_nat size) ltac:(lia)); lia). apply nth_map_seq, Hl.
Qed.
Lemma get_index (db : list (list Z)) i : (i < length db)%nat -> get db i = Val (nth i db []).
Proof. intros H. unfold get. rewrite (nth_error_nth' db [] H). reflexivity. Qed.

Section Props.
  Context (isp : Z -> bool) (cands : Z -> list Z) (par : params).
  Notation N := (pa_degree par).
  Notation t := (pa_t par).
  Theorem mulpir_all : oracles isp cands -> is_params isp cands par -> pir_params par -> forall expand derive, expands_well expand ->
    forall isqrt esize db d1 d2, database esize db -> db <> [] -> (0 < esize)%nat -> 8 * Z.of_nat esize <= Z.log2 t * Z.of_nat N -> layout isqrt par esize db d1 d2 -> (forall S, key_norms par S -> mulpir_room par S d1 d2) ->
    forall d, draws_ok d -> mulpir expand derive isqrt par db esize d = Val (requested db d).
  Proof.
    intros Ho Hp HP expand derive Hx isqrt esize db d1 d2 Hdb Hne Hes Hfit Hlay Hroom d Hd. unfold mulpir.
    destruct (encode_database_val isp cands par Ho Hp HP isqrt esize db d1 d2 Hdb Hne Hes Hfit Hlay) as (pre & vs & Epre & Lpre & HF & HV & Hval). rewrite Epre. cbn [bind].
    destruct (sk_random_all isp cands par Ho Hp (d_sk d) (proj1 Hd)) as (sk & Esk & Hsk & _ & Hn). rewrite Esk. cbn [bind].
    destruct (dims_bound isp cands par Ho Hp HP isqrt esize db d1 d2 Hdb Hne Hes Hfit Hlay) as (HD & Hd1 & Hd2 & _).
    destruct (expansion_key_val isp cands par Ho Hp HP expand derive Hx sk Hsk d Hd (d1 + d2) ltac:(lia)) as (ek & es & Eek & Hek & Hpe & Hre). rewrite Eek. cbn [bind].
    destruct (relin_key_val isp cands par Ho Hp HP expand derive Hx sk Hsk d Hd) as (rk & Erk & Hb & Hk). rewrite Erk. cbn [bind].
    rewrite (pir_plain_bits isp cands par Ho Hp HP). cbn [bind]. rewrite (npp_val isp cands par Ho Hp HP isqrt esize db d1 d2 Hdb Hne Hes Hfit Hlay). cbn [bind].
    pose proof (npp_pos isp cands par Ho Hp HP isqrt esize db d1 d2 Hdb Hne Hes Hfit Hlay sk Hsk) as Hnpp. replace (Nat.eqb (Z.to_nat (per_row par esize)) 0) with false by (symmetry; apply Nat.eqb_neq; lia). cbn [negb guard bind].
    assert (Hl : (0 < length db)%nat) by (destruct db; [congruence|cbn [length]; lia]). pose proof (Z.mod_pos_bound (d_index d) (Z.of_nat (length db)) ltac:(lia)) as Hm. unfold requested, len. set (index := Z.to_nat (d_index d mod Z.of_nat (length db))) in *. assert (Hi : (index < length db)%nat) by (unfold index; lia).
    assert (HS : key_norms par (norm1 (sk_coeffs sk))) by (split; [unfold norm1; clear; induction (sk_coeffs sk) as [|a l IH]; cbn [fold_right]; lia|exact Hn]).
    destruct (mulpir_answers isp cands par Ho Hp HP isqrt esize db d1 d2 Hdb Hne Hes Hfit Hlay sk Hsk expand derive Hx d Hd index pre vs ek es rk Hi (Hroom _ HS) Lpre HF HV Hval Hek Hpe Hre Hb Hk) as (pr & r & E1 & E2 & E3).
    rewrite E1. cbn [bind]. rewrite E2. cbn [bind]. exact E3.
  Qed.
  Lemma arguments_val : oracles isp cands -> is_params isp cands par -> pir_params par -> forall size esize, exists ok, pir_arguments par size esize = Val ok /\
    (ok = true <-> (0 < size)%nat /\ (0 < esize)%nat /\ 8 * Z.of_nat esize <= Z.log2 t * Z.of_nat N).
  Proof.
    intros Ho Hp HP size esize. unfold pir_arguments. rewrite (pir_plain_bits isp cands par Ho Hp HP). cbn [bind]. eexists. split; [reflexivity|]. rewrite !andb_true_iff, !negb_true_iff, Z.ltb_ge, !Nat.eqb_neq.
    assert (E : Z.of_nat esize <= Z.log2 t * Z.of_nat N / 8 <-> 8 * Z.of_nat esize <= Z.log2 t * Z.of_nat N); [|rewrite E; split; intros; repeat split; try tauto; lia].
    split; intros H; [|apply Z.div_le_lower_bound; lia]. pose proof (Z.mul_div_le (Z.log2 t * Z.of_nat N) 8 ltac:(lia)). lia.
  Qed.
  Theorem mulpir_main_all : oracles isp cands -> is_params isp cands par -> pir_params par -> forall expand derive, expands_well expand -> forall isqrt size esize d, draws_ok d ->
    (~ ((0 < size)%nat /\ (0 < esize)%nat /\ 8 * Z.of_nat esize <= Z.log2 t * Z.of_nat N) -> mulpir_main expand derive isqrt par size esize d = Val None) /\
    ((0 < size)%nat -> (0 < esize)%nat -> 8 * Z.of_nat esize <= Z.log2 t * Z.of_nat N -> Z.of_nat size * Z.of_nat esize < 2 ^ 64 ->
     forall d1 d2, layout isqrt par esize (numbered_database size esize) d1 d2 -> (forall S, key_norms par S -> mulpir_room par S d1 d2) ->
     mulpir_main expand derive isqrt par size esize d = Val (Some (numbered esize (Z.to_nat (d_index d mod Z.of_nat size))))).
  Proof.
    intros Ho Hp HP expand derive Hx isqrt size esize d Hd. destruct (arguments_val Ho Hp HP size esize) as (ok & Eok & Hok). unfold mulpir_main. rewrite Eok. cbn [bind]. split.
    - intros H. destruct ok; [exfalso; tauto|reflexivity].
    - intros H1 H2 H3 H4 d1 d2 Hlay Hroom. replace ok with true by (symmetry; tauto). cbn [negb]. unfold chk64. change W64 with (2 ^ 64). rewrite chk_val by lia. cbn [bind]. rewrite generate_val by assumption. cbn [bind].
      assert (Hne : numbered_database size esize <> []) by (intros E; pose proof (numbered_database_length size esize) as L; rewrite E in L; cbn in L; lia).
      rewrite (mulpir_all Ho Hp HP expand derive Hx isqrt esize _ d1 d2 (numbered_database_ok size esize) Hne H2 H3 Hlay Hroom d Hd). cbn [bind]. rewrite get_index by (pose proof (Z.mod_pos_bound (d_index d) (len (numbered_database size esize)) ltac:(unfold len; rewrite numbered_database_length; lia)) as Hm; unfold len in *; lia).
      cbn [bind]. unfold len. fold (requested (numbered_database size esize) d). rewrite wanted_numbered by exact H1. rewrite list_eqb_refl. reflexivity.
  Qed.
End Props.
