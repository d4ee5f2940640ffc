(** Examples for the voting example. *)
From Verif Require Import Outcome BasicSpec NttModel CbdModel CbdSpec TranscodeModel RqModel RqSpec PrimesModel RnsModel RnsSpec ParamsModel BfvSpec CipherSpec VotingModel VotingSpec ParamsPropLemmas ExampleParams CipherExamples KeyExamples VotingProofs.

Definition party_ex (i : nat) : party := mkParty (rngs_ex i) (rngs_ex (i + 1)) (rngs_ex (i + 2)).
Definition ballot_ex (v : Z) (i : nat) : ballot := mkBallot v (rngs_ex i) (rngs_ex (i + 1)) (rngs_ex (i + 2)).
Definition rows_voting_ex : list (list Z) := repeat (map (fun i => Z.of_nat i * 1000003) (seq 0 4096)) 3.
Lemma rows_voting_ok : rows_ok rows_voting_ex.
Proof.
  unfold rows_ok, rows_voting_ex. cbn [repeat]. set (r := map _ _). assert (Hl : Z.of_nat (length r) = 4096) by (unfold r; rewrite map_length, seq_length; reflexivity).
  assert (Hc : forall q, 4096 * 1000003 <= q -> canonical q r) by (intros q Hq; apply Forall_forall; intros z Hz; apply in_map_iff in Hz; destruct Hz as (i & <- & Hi); apply in_seq in Hi; lia).
  clearbody r. repeat (constructor; [split; [exact Hl|apply Hc; lia]|]). constructor.
Qed.
Lemma party_ex_ok i : party_ok (party_ex i).
Proof. repeat split; apply rngs_ex_ok. Qed.
Lemma ballot_ex_ok v i : v = 0 \/ v = 1 -> ballot_ok (ballot_ex v i).
Proof. intros H. split; [exact H|]. repeat split; apply rngs_ex_ok. Qed.
(** Three parties and four voters; and 5000 votes for 1. *)
Lemma voting_ex : oracles isp_bfv cands_bfv /\ complete_draws cands_bfv /\ rows_ok rows_voting_ex /\
  (let parties := [party_ex 0; party_ex 3; party_ex 6] in let ballots := [ballot_ex 1 10; ballot_ex 0 13; ballot_ex 1 16; ballot_ex 1 19] in
   Forall party_ok parties /\ Forall ballot_ok ballots /\ parties <> [] /\ ballots <> [] /\ Z.of_nat (length parties) < 2 ^ 32 /\ Z.of_nat (length ballots) < 2 ^ 32 /\ Z.of_nat (length ballots) < 2 ^ 64 /\ Z.of_nat (length parties) mod 2 ^ 32 <> 0 /\ Z.of_nat (length ballots) mod 2 ^ 32 <> 0 /\
   count ballots = 3 /\ forall id, voting isp_bfv cands_bfv id rows_voting_ex parties ballots = Val 3) /\
  (let parties := [party_ex 0; party_ex 3; party_ex 6] in let ballots := repeat (ballot_ex 1 10) (Z.to_nat 5000) in
   Forall party_ok parties /\ Forall ballot_ok ballots /\ Z.of_nat (length ballots) < 2 ^ 64 /\ 4096 <= count ballots) /\
  (Forall party_ok [] /\ Z.of_nat (@length party []) mod 2 ^ 32 = 0).
Proof.
  split; [exact oracles_bfv|]. split; [exact cands_bfv_complete|]. split; [exact rows_voting_ok|]. cbv zeta.
  assert (Hp : Forall party_ok [party_ex 0; party_ex 3; party_ex 6]) by (repeat (constructor; [apply party_ex_ok|]); constructor).
  assert (Hb : Forall ballot_ok [ballot_ex 1 10; ballot_ex 0 13; ballot_ex 1 16; ballot_ex 1 19]) by (repeat (constructor; [apply ballot_ex_ok; tauto|]); constructor).
  split; [|split].
  - split; [exact Hp|]. split; [exact Hb|]. split; [discriminate|]. split; [discriminate|]. split; [reflexivity|]. split; [reflexivity|]. split; [reflexivity|]. split; [discriminate|]. split; [discriminate|]. split; [reflexivity|].
    intros id. exact (voting_correct_all _ _ oracles_bfv cands_bfv_complete id _ _ _ rows_voting_ok Hp Hb ltac:(discriminate) ltac:(discriminate) eq_refl eq_refl eq_refl).
  - split; [exact Hp|]. split; [apply Forall_forall; intros b Hi; apply repeat_spec in Hi; subst b; apply ballot_ex_ok; tauto|]. rewrite repeat_length. split; [vm_compute; reflexivity|]. vm_compute. discriminate.
  - split; [constructor|reflexivity].
Qed.
