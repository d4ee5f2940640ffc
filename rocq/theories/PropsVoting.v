(** Property C51: the program examples/voting.rs, in which parties who share a key count the votes of any number of voters, prints the number of votes for 1 whenever
    there are fewer than 2^32 parties and voters and fewer than 4096 such votes, whatever its generator draws; and panics in all other cases ([voting], VotingModel.v).
    [C51_voting] covers every number of parties and voters; that the program is right for all of them is refuted. *)
From Verif Require Import Outcome BasicSpec NttModel CbdModel CbdSpec TranscodeModel RqModel RqSpec PrimesModel RnsModel RnsSpec ParamsModel BfvSpec CipherSpec VotingModel VotingSpec VotingProofs.
From Verif Require Import ParamsPropLemmas ExampleParams CipherExamples VotingExamples.
(** C51: the printed tally is the number of votes for 1. *)
Theorem C51_voting_partial : forall isp cands, oracles isp cands -> complete_draws cands -> forall id rows parties ballots, rows_ok rows -> Forall party_ok parties -> Forall ballot_ok ballots ->
  parties <> [] -> ballots <> [] -> Z.of_nat (length parties) < 2 ^ 32 -> Z.of_nat (length ballots) < 2 ^ 32 -> count ballots < 4096 -> voting isp cands id rows parties ballots = Val (count ballots).
Proof. exact voting_correct_all. Qed.
Print Assumptions C51_voting_partial.
(** C51: the outcome for every number of parties and of voters that the program accepts and whose 32 low bits are not all zero. *)
Theorem C51_voting : forall isp cands, oracles isp cands -> complete_draws cands -> forall id rows parties ballots, rows_ok rows -> Forall party_ok parties -> Forall ballot_ok ballots -> Z.of_nat (length ballots) < 2 ^ 64 ->
  Z.of_nat (length parties) mod 2 ^ 32 <> 0 -> Z.of_nat (length ballots) mod 2 ^ 32 <> 0 ->
  let r := count (firstn (Z.to_nat (Z.of_nat (length ballots) mod 2 ^ 32)) ballots) mod 4096 in
  voting isp cands id rows parties ballots = if r =? count ballots then Val r else Panic.
Proof. exact voting_all. Qed.
Print Assumptions C51_voting.
(** C51: 4096 votes for 1 or more make the final assertion fail: the tally is only known modulo the plaintext modulus 4096. *)
Theorem C51_wraps_refuted : forall isp cands, oracles isp cands -> complete_draws cands -> forall id rows parties ballots, rows_ok rows -> Forall party_ok parties -> Forall ballot_ok ballots ->
  Z.of_nat (length ballots) < 2 ^ 64 -> 4096 <= count ballots -> voting isp cands id rows parties ballots = Panic.
Proof. exact voting_wraps_all. Qed.
Print Assumptions C51_wraps_refuted.
(** C51: a multiple of 2^32 parties or voters makes a division by zero, in the mean duration of a step. *)
Theorem C51_rounds_refuted : forall isp cands, oracles isp cands -> complete_draws cands -> forall id rows parties ballots, rows_ok rows -> Forall party_ok parties ->
  Z.of_nat (length parties) mod 2 ^ 32 = 0 \/ Z.of_nat (length ballots) mod 2 ^ 32 = 0 -> voting isp cands id rows parties ballots = Panic.
Proof. exact voting_rounds. Qed.
Print Assumptions C51_rounds_refuted.
(** C51: parties and ballots that meet the hypotheses above, and what the program prints for them. *)
Example C51_hypotheses_ex : oracles isp_bfv cands_bfv /\ complete_draws cands_bfv /\ rows_ok rows_voting_ex /\
  (let parties := [party_ex 0; party_ex 3; party_ex 6] in let ballots := [ballot_ex 1 10; ballot_ex 0 13; ballot_ex 1 16; ballot_ex 1 19] in
   Forall party_ok parties /\ Forall ballot_ok ballots /\ parties <> [] /\ ballots <> [] /\ Z.of_nat (length parties) < 2 ^ 32 /\ Z.of_nat (length ballots) < 2 ^ 32 /\ Z.of_nat (length ballots) < 2 ^ 64 /\ Z.of_nat (length parties) mod 2 ^ 32 <> 0 /\ Z.of_nat (length ballots) mod 2 ^ 32 <> 0 /\
   count ballots = 3 /\ forall id, voting isp_bfv cands_bfv id rows_voting_ex parties ballots = Val 3) /\
  (let parties := [party_ex 0; party_ex 3; party_ex 6] in let ballots := repeat (ballot_ex 1 10) (Z.to_nat 5000) in
   Forall party_ok parties /\ Forall ballot_ok ballots /\ Z.of_nat (length ballots) < 2 ^ 64 /\ 4096 <= count ballots) /\
  (Forall party_ok [] /\ Z.of_nat (@length party []) mod 2 ^ 32 = 0).
Proof. exact voting_ex. Qed.
Print Assumptions C51_hypotheses_ex.
