(** Property C52: the program examples/mulpir.rs retrieves the requested element, for every database that fits, every index and every draw of the client,
    whenever the worst-case noise of its parameter set leaves room; and stops before it starts on invalid arguments ([mulpir] and [mulpir_main], PirModel.v). *)
From Verif Require Import Outcome BasicSpec NttModel CbdModel CbdSpec TranscodeModel RqModel RqSpec PrimesModel RnsModel RnsSpec ParamsModel BfvSpec SchemeSpec CipherSpec KeysSpec PirModel PirSpec MulPirPropLemmas.
From Verif Require Import ParamsPropLemmas ExampleParams CipherExamples KeyExamples PirExamples.
(** C52: the client ends with the element it asked for, whatever the database holds. *)
Theorem C52_retrieval : forall isp cands par, oracles isp cands -> is_params isp cands par -> pir_params par -> forall expand derive, expands_well expand ->
  forall isqrt esize db d1 d2, database esize db -> db <> [] -> (0 < esize)%nat -> 8 * Z.of_nat esize <= Z.log2 (pa_t par) * Z.of_nat (pa_degree par) -> layout isqrt par esize db d1 d2 -> (forall S, key_norms par S -> mulpir_room par S d1 d2) ->
  forall d, draws_ok d -> mulpir expand derive isqrt par db esize d = Val (requested db d).
Proof. exact mulpir_all. Qed.
Print Assumptions C52_retrieval.
(** C52: the final assertion of the program holds, and invalid arguments end it before. *)
Theorem C52_main : forall isp cands par, oracles isp cands -> is_params isp cands par -> pir_params par -> forall expand derive, expands_well expand -> forall isqrt size esize d, draws_ok d ->
  (~ ((0 < size)%nat /\ (0 < esize)%nat /\ 8 * Z.of_nat esize <= Z.log2 (pa_t par) * Z.of_nat (pa_degree par)) -> mulpir_main expand derive isqrt par size esize d = Val None) /\
  ((0 < size)%nat -> (0 < esize)%nat -> 8 * Z.of_nat esize <= Z.log2 (pa_t par) * Z.of_nat (pa_degree par) -> Z.of_nat size * Z.of_nat esize < 2 ^ 64 ->
   forall d1 d2, layout isqrt par esize (numbered_database size esize) d1 d2 -> (forall S, key_norms par S -> mulpir_room par S d1 d2) ->
   mulpir_main expand derive isqrt par size esize d = Val (Some (numbered esize (Z.to_nat (d_index d mod Z.of_nat size))))).
Proof. exact mulpir_main_all. Qed.
Print Assumptions C52_main.
(** C52: a database of nine elements in three plaintexts that meets the hypotheses above, and what the program computes for it. *)
Example C52_hypotheses_ex : oracles isp_bfv cands_bfv /\ expands_well expand_ex /\ exists par, is_params isp_bfv cands_bfv par /\ pir_params par /\
  (forall S, key_norms par S -> mulpir_room par S 2 2) /\ 8 * Z.of_nat 1 <= Z.log2 (pa_t par) * Z.of_nat (pa_degree par) /\ layout isqrt_ex par 1 (numbered_database 9 1) 2 2 /\
  database 1 (numbered_database 9 1) /\ numbered_database 9 1 <> [] /\ draws_ok (draws_ex 16) /\ mulpir expand_ex derive_ex isqrt_ex par (numbered_database 9 1) 1 (draws_ex 16) = Val [7] /\
  mulpir_main expand_ex derive_ex isqrt_ex par 9 1 (draws_ex 16) = Val (Some [7]) /\ mulpir_main expand_ex derive_ex isqrt_ex par 9 5 (draws_ex 16) = Val None.
Proof. exact mulpir_ex. Qed.
Print Assumptions C52_hypotheses_ex.
