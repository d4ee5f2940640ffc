(** The theorems about the SealPIR example. *)
From Verif Require Import Outcome BasicSpec OutcomeLemmas NttModel PolySpec PolyRing CbdModel CbdSpec CbdProofs TranscodeModel PrimesModel RnsModel RnsSpec RqModel RqSpec ParamsModel BfvSpec ParamsProofs BuildProofs ParamsPropLemmas PlainModel CipherModel OpsModel SchemeSpec CipherSpec CipherPropLemmas KeysModel KeysSpec EvalSpec PirModel PirSpec PirLists PirProofs MulPirProofs MulPirPropLemmas SealPirProofs.
From Verif Require Import BasicSpec.
Set Default Proof Using "Type".

Section Props.
  Context (isp : Z -> bool) (cands : Z -> list Z) (par : params).
  Notation N := (pa_degree par).
  Notation t := (pa_t par).
  Theorem sealpir_all : oracles isp cands -> is_params isp cands par -> pir_params par -> forall expand derive, expands_well expand ->
    forall isqrt esize db d1 d2, database esize db -> db <> [] -> (0 < esize)%nat -> 8 * Z.of_nat esize <= Z.log2 t * Z.of_nat N -> layout isqrt par esize db d1 d2 -> (forall S, key_norms par S -> sealpir_room par S d1 d2) ->
    forall d, draws_ok d -> sealpir expand derive isqrt par db esize d = Val (requested db d).
  Proof.
    intros Ho Hp HP expand derive Hx isqrt esize db d1 d2 Hdb Hne Hes Hfit Hlay Hroom d Hd. unfold sealpir.
    destruct (encode_database_val isp cands par Ho Hp HP isqrt esize db d1 d2 Hdb Hne Hes Hfit Hlay) as (pre & vs & Epre & Lpre & HF & HV & Hval). rewrite Epre. cbn [bind].
    destruct (sk_random_all isp cands par Ho Hp (d_sk d) (proj1 Hd)) as (sk & Esk & Hsk & _ & Hn). rewrite Esk. cbn [bind].
    destruct (dims_bound isp cands par Ho Hp HP isqrt esize db d1 d2 Hdb Hne Hes Hfit Hlay) as (HD & Hd1 & Hd2 & _).
    destruct (expansion_key_val isp cands par Ho Hp HP expand derive Hx sk Hsk d Hd (d1 + d2) ltac:(lia)) as (ek & es & Eek & Hek & Hpe & Hre). rewrite Eek. cbn [bind].
    rewrite (pir_plain_bits isp cands par Ho Hp HP). cbn [bind]. rewrite (npp_val isp cands par Ho Hp HP isqrt esize db d1 d2 Hdb Hne Hes Hfit Hlay). cbn [bind].
    pose proof (npp_pos isp cands par Ho Hp HP isqrt esize db d1 d2 Hdb Hne Hes Hfit Hlay sk Hsk) as Hnpp. replace (Nat.eqb (Z.to_nat (per_row par esize)) 0) with false by (symmetry; apply Nat.eqb_neq; lia). cbn [negb guard bind].
    assert (Hl : (0 < length db)%nat) by (destruct db; [congruence|cbn [length]; lia]). pose proof (Z.mod_pos_bound (d_index d) (Z.of_nat (length db)) ltac:(lia)) as Hm. unfold requested, len. set (index := Z.to_nat (d_index d mod Z.of_nat (length db))) in *. assert (Hi : (index < length db)%nat) by (unfold index; lia).
    assert (HS : key_norms par (norm1 (sk_coeffs sk))) by (split; [unfold norm1; clear; induction (sk_coeffs sk) as [|a l IH]; cbn [fold_right]; lia|exact Hn]).
    destruct (sealpir_answers isp cands par Ho Hp HP isqrt esize db d1 d2 Hdb Hne Hes Hfit Hlay sk Hsk expand derive Hx d Hd index pre vs ek es Hi (Hroom _ HS) Lpre HF HV Hval Hek Hpe Hre) as (pr & r & E1 & E2 & E3).
    rewrite E1. cbn [bind]. rewrite E2. cbn [bind]. exact E3.
  Qed.
  Theorem sealpir_main_all : oracles isp cands -> is_params isp cands par -> pir_params par -> forall expand derive, expands_well expand -> forall isqrt size esize d, draws_ok d ->
    (~ ((0 < size)%nat /\ (0 < esize)%nat /\ 8 * Z.of_nat esize <= Z.log2 t * Z.of_nat N) -> sealpir_main expand derive isqrt par size esize d = Val None) /\
    ((0 < size)%nat -> (0 < esize)%nat -> 8 * Z.of_nat esize <= Z.log2 t * Z.of_nat N -> Z.of_nat size * Z.of_nat esize < 2 ^ 64 ->
     forall d1 d2, layout isqrt par esize (numbered_database size esize) d1 d2 -> (forall S, key_norms par S -> sealpir_room par S d1 d2) ->
     sealpir_main expand derive isqrt par size esize d = Val (Some (numbered esize (Z.to_nat (d_index d mod Z.of_nat size))))).
  Proof.
    intros Ho Hp HP expand derive Hx isqrt size esize d Hd. destruct (arguments_val isp cands par Ho Hp HP size esize) as (ok & Eok & Hok). unfold sealpir_main. rewrite Eok. cbn [bind]. split.
    - intros H. destruct ok; [exfalso; tauto|reflexivity].
    - intros H1 H2 H3 H4 d1 d2 Hlay Hroom. replace ok with true by (symmetry; tauto). cbn [negb]. unfold chk64. change W64 with (2 ^ 64). rewrite chk_val by lia. cbn [bind]. rewrite generate_val by assumption. cbn [bind].
      assert (Hne : numbered_database size esize <> []) by (intros E; pose proof (numbered_database_length size esize) as L; rewrite E in L; cbn in L; lia).
      rewrite (sealpir_all Ho Hp HP expand derive Hx isqrt esize _ d1 d2 (numbered_database_ok size esize) Hne H2 H3 Hlay Hroom d Hd). cbn [bind]. rewrite get_index by (pose proof (Z.mod_pos_bound (d_index d) (len (numbered_database size esize)) ltac:(unfold len; rewrite numbered_database_length; lia)) as Hm; unfold len in *; lia).
      cbn [bind]. unfold len. fold (requested (numbered_database size esize) d). rewrite wanted_numbered by exact H1. rewrite list_eqb_refl. reflexivity.
  Qed.
End Props.
