(** Specification vocabulary for the voting example. *)
From Verif Require Import Outcome BasicSpec CipherSpec VotingModel.

(** The generator of a party gives 64-bit words. *)
Definition party_ok (y : party) : Prop := words (y_sk y) /\ words (y_pk y) /\ words (y_dec y).
(** Votes are 0 or 1. *)
Definition ballot_ok (b : ballot) : Prop := (b_vote b = 0 \/ b_vote b = 1) /\ words (b_u b) /\ words (b_e1 b) /\ words (b_e2 b).
(** The number of votes for 1. *)
Definition count (bs : list ballot) : Z := Z.of_nat (length (filter (fun b => b_vote b =? 1) bs)).
(** The rows drawn for the common random polynomial. *)
Definition rows_ok (rows : list (list Z)) : Prop := Forall2 (fun q r => Z.of_nat (length r) = 4096 /\ canonical q r) [0xffffee001; 0xffffc4001; 0x1ffffe0001] rows.
