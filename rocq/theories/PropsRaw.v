(** Property C62: the words of polynomials.

    [from_words] is the conversion of a vector of words by representation, [words_reduced] says that all words are residues,
    [holds p c vt v] that [p] has the words [v] (RawSpec.v). *)
From Verif Require Import Outcome BasicSpec ZqModel NttModel RnsModel RnsSpec RqModel RqSpec RqPropLemmas RawSpec RawPropLemmas.
(** C62: a vector with as many words as the polynomial has is taken as it is: residues give a well-formed polynomial, other words one that is not, or a panic for Shoup representation; other lengths are an error. *)
Theorem C62_words : forall isp cands, oracles isp cands -> forall c, is_context isp cands c ->
    forall R v vt, Forall is_u64 v -> let n := c_degree c in let k := length (c_moduli c) in
    (length v = (k * n)%nat -> words_reduced (c_moduli c) n v -> exists p, from_words R c v vt = Val p /\ holds p c vt v /\ well_formed p) /\
    (length v = (k * n)%nat -> ~ words_reduced (c_moduli c) n v -> match R with NttShoup => from_words R c v vt = Panic | _ => exists p, from_words R c v vt = Val p /\ holds p c vt v /\ ~ well_formed p end) /\
    (R <> PowerBasis -> length v <> (k * n)%nat -> from_words R c v vt = Err (InvalidCoefficientCount (Z.of_nat (length v)))).
Proof. exact words_all. Qed.
Print Assumptions C62_words.
(** C62: the words of a polynomial give it back. *)
Theorem C62_round_trip : forall isp cands, oracles isp cands -> forall c, is_context isp cands c ->
    forall R (p : poly R), p_ctx p = c -> well_formed p -> length (poly_to_u64 p) = (length (c_moduli c) * c_degree c)%nat /\ Forall is_u64 (poly_to_u64 p) /\ words_reduced (c_moduli c) (c_degree c) (poly_to_u64 p) /\
    from_words R c (poly_to_u64 p) (p_vt p) = Val p /\ poly_from_array R c (p_coeffs p) (p_vt p) = Val p.
Proof. exact back_all. Qed.
Print Assumptions C62_round_trip.
(** C62: the same for arrays. *)
Theorem C62_array : forall isp cands, oracles isp cands -> forall c, is_context isp cands c ->
    forall R r k rows vt, is_array r k rows -> Forall (Forall is_u64) rows ->
    let fit := (r = length (c_moduli c) /\ k = c_degree c)%nat in let good := Forall2 canonical (c_moduli c) rows in
    (fit -> good -> exists p, poly_from_array R c rows vt = Val p /\ p_ctx p = c /\ p_vt p = vt /\ p_coeffs p = rows /\ well_formed p) /\
    (fit -> ~ good -> match R with NttShoup => poly_from_array R c rows vt = Panic | _ => exists p, poly_from_array R c rows vt = Val p /\ p_ctx p = c /\ p_vt p = vt /\ p_coeffs p = rows /\ ~ well_formed p end) /\
    (~ fit -> poly_from_array R c rows vt = Err InvalidCoefficientShape).
Proof. exact array_all. Qed.
Print Assumptions C62_array.
(** C62: the words in power basis are the residues of the coefficients, modulus by modulus. *)
Theorem C62_power_basis : forall isp cands, oracles isp cands -> forall c, is_context isp cands c ->
    forall (p : poly PowerBasis) x, p_ctx p = c -> represents p x -> poly_to_u64 p = concat (map (fun q => map (fun a => a mod q) x) (c_moduli c)).
Proof. exact power_words_all. Qed.
Print Assumptions C62_power_basis.
(** Two moduli, 97 and 193: the words of 1 - 2X + 3X^2; words that are not residues. *)
Example C62_ex :
  (c <- ctx_ex ;; p <- pb_from_i64 c [1; -2; 3] true ;; Val (poly_to_u64 p)) = Val [1; 95; 3; 0; 0; 0; 0; 0; 1; 191; 3; 0; 0; 0; 0; 0] /\
  (c <- ctx_ex ;; p <- from_words Ntt c (repeat 97 16) true ;; Val (poly_to_u64 p)) = Val (repeat 97 16) /\
  (c <- ctx_ex ;; p <- from_words NttShoup c (repeat 97 16) true ;; Val (poly_to_u64 p)) = Panic /\
  (c <- ctx_ex ;; p <- from_words NttShoup c (repeat 96 8 ++ repeat 97 8) true ;; Val (poly_to_u64 p)) = Val (repeat 96 8 ++ repeat 97 8) /\
  (c <- ctx_ex ;; p <- from_words Ntt c (repeat 96 8) true ;; Val (poly_to_u64 p)) = Err (InvalidCoefficientCount 8).
Proof. vm_compute. repeat split; reflexivity. Qed.
Example C62_context_ex : exists isp cands c, oracles isp cands /\ is_context isp cands c /\ c_moduli c = [97; 193] /\ c_degree c = 8%nat.
Proof. exact context_exists. Qed.
