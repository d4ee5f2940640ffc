(** What callers of the key generation functions can do, and what they may expect (C58). *)
From Verif Require Import Outcome BasicSpec PolySpec RqModel RqSpec ParamsModel BfvSpec PlainModel CipherModel SchemeSpec CipherSpec KeysModel KeysSpec EvalSpec MbfvModel WireSpec.

(** ** Builders of evaluation keys *)

(** The four requests that a builder accepts (evaluation_key.rs:385-426). *)
Inductive request := want_sum | want_rows | want_columns (i : Z) | want_expansion (L : nat).
Definition send (b : ek_builder) (r : request) : M ek_builder :=
  match r with
  | want_sum => Val (enable_inner_sum b)
  | want_rows => Val (enable_row_rotation b)
  | want_columns i => enable_column_rotation b i
  | want_expansion L => enable_expansion b L
  end.
(** A caller that goes on after an error; the builder is as before then, since errors are returned before any field is
    assigned (evaluation_key.rs:388-396, 415-424). *)
Definition send_all (b : ek_builder) (rs : list request) : ek_builder :=
  fold_left (fun b r => match send b r with Val b' => b' | _ => b end) rs b.
(** Requests to be refused, and the error. *)
Definition refusal (n : nat) (r : request) : option error :=
  match r with
  | want_columns i => if (0 <? i) && (i <? Z.of_nat (n / 2)) then None else Some (InvalidRotationStep i)
  | want_expansion L => if Z.of_nat L <=? Z.log2 (Z.of_nat n) then None else Some (InvalidLevel (Z.of_nat L) 0 (Z.log2 (Z.of_nat n)))
  | _ => None
  end.
(** The level of the last expansion asked for with success; 0 when there is none. *)
Fixpoint last_expansion (n : nat) (rs : list request) (before : nat) : nat :=
  match rs with
  | [] => before
  | want_expansion L :: rs => last_expansion n rs (if Z.of_nat L <=? Z.log2 (Z.of_nat n) then L else before)
  | _ :: rs => last_expansion n rs before
  end.
(** The automorphisms wanted. *)
Definition wanted (n : nat) (rs : list request) (e : Z) : Prop :=
  (exists i, In (want_columns i) rs /\ is_step n i /\ e = column_exponent n i) \/
  ((In want_rows rs \/ In want_sum rs) /\ e = row_exponent n) \/
  (In want_sum rs /\ exists k, 0 <= k /\ 2 ^ k < Z.of_nat (n / 2) /\ e = column_exponent n (2 ^ k)) \/
  (exists k, (k < last_expansion n rs 0)%nat /\ e = expansion_exponent n k).

(** ** Key protocols: what the members can hold *)
Section Protocols.
  Variable par : params.
  (** Common random polynomials of any level. *)
  Definition some_crp (p : poly Ntt) : Prop := exists l a, (l <= max_level par)%nat /\ is_poly par l p a.
  Definition top_crp (p : poly Ntt) : Prop := exists a, is_poly par 0 p a.
  Definition pk_share_made (s : pk_share) : Prop := exists sk crp rng, is_sk par sk /\ some_crp crp /\ words rng /\ pk_share_new sk crp rng = Val s.
  Definition generator (g : relin_gen) : Prop := exists sk crps rng, is_sk par sk /\ Forall some_crp crps /\ words rng /\ gen_new sk crps rng = Val g.
  Definition round1_made (s : relin_share) : Prop := exists g r0 r1, generator g /\ (forall i, words (r0 i)) /\ (forall i, words (r1 i)) /\ gen_round1 g r0 r1 = Val s.
  Definition round1_total (s : relin_share) : Prop := exists shares, Forall round1_made shares /\ r1_from_shares shares = Val s.
  Definition round2_made (s : relin_share2) : Prop := exists g t r0 r1, generator g /\ round1_total t /\ (forall i, words (r0 i)) /\ (forall i, words (r1 i)) /\ gen_round2 g t r0 r1 = Val s.
  (** Shares of the switching to a public key of ciphertexts of level [l], with any number of parts. *)
  Definition pksw_made (l : nat) (s : pksw_share) : Prop := exists sk pk ct ru r0 r1, is_sk par sk /\ pk_shape par pk /\ any_ct par ct /\ ct_level ct = l /\
    words ru /\ words r0 /\ words r1 /\ pksw_new sk pk ct ru r0 r1 = Val s.
End Protocols.
