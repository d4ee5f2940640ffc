(** C18, C19: residue number systems. *)
From Verif Require Import Outcome BasicSpec RnsSpec RnsModel RnsPropLemmas RnsNewLemmas RnsProofs.

(** C18: construction succeeds exactly on bases. *)
Theorem C18_accept : forall qs, (exists c, rns_new qs = Val c) <-> rns_basis qs.
Proof. exact rns_accept. Qed.
Print Assumptions C18_accept.
Example C18_accept_ex : (exists c, rns_new [4; 15; 1153] = Val c) /\ rns_new [2; 3; 5; 30] = Err (NonCoprimeModuli 2 30).
Proof. split; [eexists|]; vm_compute; reflexivity. Qed.

(** C18: the error on every other list of machine words. *)
Theorem C18_reject : forall qs, Forall is_u64 qs -> ~ rns_basis qs ->
  (qs = [] /\ rns_new qs = Err EmptyModuli) \/
  (exists i j, first_conflict qs i j /\ rns_new qs = Err (NonCoprimeModuli (nth i qs 0) (nth j qs 0))) \/
  (pairwise_coprime qs /\ exists i, (i < length qs)%nat /\ ~ (2 <= nth i qs 0 < W62) /\
     (forall k, (k < i)%nat -> 2 <= nth k qs 0 < W62) /\
     rns_new qs = Err (InvalidModulus (nth i qs 0))).
Proof. exact rns_new_err. Qed.
Print Assumptions C18_reject.
Example C18_reject_ex : rns_new [] = Err EmptyModuli /\ rns_new [7; 6; 9; 4] = Err (NonCoprimeModuli 6 9) /\
  rns_new [7; 1; 0] = Err (NonCoprimeModuli 7 0) /\ rns_new [7; 1] = Err (InvalidModulus 1).
Proof. vm_compute. auto. Qed.

(** C18: projecting and lifting are mutually inverse. *)
Theorem C18_crt : forall qs c, rns_new qs = Val c ->
  (forall x, project c x = Val (residues_of qs x)) /\
  (forall x, bind (project c x) (lift c) = Val (x mod prod_list qs)) /\
  (forall rs, canonical_residues qs rs -> bind (lift c rs) (project c) = Val rs) /\
  (forall rs, canonical_residues qs rs -> exists x, lift c rs = Val x /\ 0 <= x < prod_list qs /\ residues_of qs x = rs).
Proof. exact crt_all. Qed.
Print Assumptions C18_crt.
Example C18_crt_ex : exists c, rns_new [4; 15; 1153] = Val c /\ project c 51892 = Val [0; 7; 7] /\ lift c [0; 7; 7] = Val 51892.
Proof. eexists. examples. Qed.

(** C18: the garner coefficients are the CRT idempotents. *)
Theorem C18_garner : forall qs c i, rns_new qs = Val c ->
  match get_garner c i with
  | None => (length qs <= i)%nat
  | Some g => (i < length qs)%nat /\ 0 <= g < prod_list qs /\
      forall j, (j < length qs)%nat -> g mod nth j qs 0 = if Nat.eqb i j then 1 else 0
  end.
Proof. exact garner_all. Qed.
Print Assumptions C18_garner.
Example C18_garner_ex : exists c, rns_new [4; 15; 1153] = Val c /\ get_garner c 0 = Some 51885 /\ get_garner c 3 = None.
Proof. eexists. examples. Qed.

(** C19: scaling.  The output residues are those of one integer [y] close to [num / den] times a nearly
    centered representative [x] of the input. *)
Theorem C19_scale : forall qs qs' from to num den f,
  rns_new qs = Val from -> rns_new qs' = Val to -> Z.of_nat (length qs) < 2 ^ 60 ->
  0 <= num -> 0 <= den -> factor_new num den = Val f ->
  exists s, scaler_new from to f = Val s /\
  forall rs, canonical_residues qs rs -> (num = den \/ load num den qs < 2 ^ 65) ->
  exists x y,
    residues_of qs x = rs /\
    (forall k, 0 <= k <= 127 -> (forall q, In q qs -> q * Z.of_nat (length qs) <= 2 ^ (191 - k)) ->
       2 ^ (k + 1) * Z.abs x <= prod_list qs * (2 ^ k + sum_of rs)) /\
    (num = den -> y = x) /\
    2 ^ 127 * Z.abs (den * y - num * x) <= den * (2 ^ 126 + 2 * sum_of rs) /\
    (forall start len, (0 < len)%nat -> (start + len <= length qs')%nat ->
       scale s rs start len = Val (residues_of (firstn len (skipn start qs')) y)).
Proof. exact scaler_all. Qed.
Print Assumptions C19_scale.
(** C19: the variant that returns the first [size] residues in a new vector. *)
Theorem C19_scale_new : forall qs qs' from to num den f,
  rns_new qs = Val from -> rns_new qs' = Val to -> Z.of_nat (length qs) < 2 ^ 60 ->
  0 <= num -> 0 <= den -> factor_new num den = Val f ->
  exists s, scaler_new from to f = Val s /\
  forall rs, canonical_residues qs rs -> (num = den \/ load num den qs < 2 ^ 65) ->
  exists x y,
    residues_of qs x = rs /\
    (forall k, 0 <= k <= 127 -> (forall q, In q qs -> q * Z.of_nat (length qs) <= 2 ^ (191 - k)) ->
       2 ^ (k + 1) * Z.abs x <= prod_list qs * (2 ^ k + sum_of rs)) /\
    (num = den -> y = x) /\
    2 ^ 127 * Z.abs (den * y - num * x) <= den * (2 ^ 126 + 2 * sum_of rs) /\
    (forall size, (0 < size)%nat -> (size <= length qs')%nat -> scale_new s rs size = Val (residues_of (firstn size qs') y)).
Proof. exact scale_new_all. Qed.
Print Assumptions C19_scale_new.
Example C19_scale_ex : exists from to f s, rns_new [4; 15; 1153] = Val from /\ rns_new [7; 11] = Val to /\
  factor_new 3 7 = Val f /\ scaler_new from to f = Val s /\
  scale s (residues_of [4; 15; 1153] (-1000)) 0 2 = Val (residues_of [7; 11] (-429)) /\ load 3 7 [4; 15; 1153] < 2 ^ 65.
Proof. do 4 eexists. examples. Qed.

(** C19: the documented aborts. *)
Theorem C19_asserts : forall s rs start len,
  length rs <> length (rns_u64 (sc_from s)) \/ len = O \/ (length (rns_u64 (sc_to s)) < start + len)%nat ->
  scale s rs start len = Panic.
Proof. exact scale_asserts. Qed.
Print Assumptions C19_asserts.
Example C19_asserts_ex : exists from to f s, rns_new [4; 15; 1153] = Val from /\ rns_new [7; 11] = Val to /\
  factor_new 3 7 = Val f /\ scaler_new from to f = Val s /\ scale s [1; 1] 0 2 = Panic /\ scale s [1; 1; 1] 0 3 = Panic.
Proof. do 4 eexists. examples. Qed.

(** C19: the load hypothesis cannot be dropped. *)
Theorem C19_scale_refuted : exists qs qs' num den from to f s out,
  rns_new qs = Val from /\ rns_new qs' = Val to /\ factor_new num den = Val f /\ scaler_new from to f = Val s /\
  scale s (residues_of qs (-1)) 0 (length qs') = Val out /\
  forall y, Z.abs (den * y - num * (-1)) <= den -> out <> residues_of qs' y.
Proof. exact scale_refuted. Qed.
Print Assumptions C19_scale_refuted.
