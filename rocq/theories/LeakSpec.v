(** What it means that variable-time code sees only public data.  A polynomial is public if its flag allows variable-time computations.
    Two inputs are alike if an observer cannot tell them apart by their public parts; a function keeps the rest private if on such inputs it
    executes the same variable-time operations on the same data. *)
From Verif Require Import Outcome RqModel ParamsModel PlainModel CipherModel KeysModel MbfvModel LeakModel.

(** No variable-time operation is executed, whatever the outcome. *)
Definition silent {A} (x : T A) : Prop := fst x = [].
(** The same flag and context, and the same polynomial if it is public. *)
Definition poly_alike {R} (p q : poly R) : Prop := p_ctx p = p_ctx q /\ p_vt p = p_vt q /\ (p_vt p = true -> p = q).
Definition private {R} (p : poly R) : Prop := p_vt p = false.
Definition public {R} (p : poly R) : Prop := p_vt p = true.
Definition pt_alike (a b : plaintext) : Prop := pt_par a = pt_par b /\ poly_alike (pt_poly a) (pt_poly b).
Definition ct_alike (a b : ciphertext) : Prop :=
  ct_par a = ct_par b /\ ct_level a = ct_level b /\ Forall2 poly_alike (ct_c a) (ct_c b).
(** A part of a ciphertext. *)
Definition part_public (i : nat) (ct : ciphertext) : Prop := exists p, nth_error (ct_c ct) i = Some p /\ public p.
Definition share_alike (a b : sks_share) : Prop :=
  sks_par a = sks_par b /\ ct_alike (sks_ct a) (sks_ct b) /\ poly_alike (sks_h a) (sks_h b).
(** Two secret keys for the same parameters; nothing is said about their coefficients. *)
Definition sk_alike (a b : secret_key) : Prop := sk_par a = sk_par b.

(** Two runs that give a value execute the same variable-time operations on the same data, and their results are related. *)
Definition same_trace {A B} (x : T A) (y : T B) : Prop := forall a b, snd x = Val a -> snd y = Val b -> fst x = fst y.
Definition runs_alike {A B} (R : A -> B -> Prop) (x : T A) (y : T B) : Prop :=
  forall a b, snd x = Val a -> snd y = Val b -> fst x = fst y /\ R a b.
(** As [same_trace], when the two runs publish the same value. *)
Definition same_trace_if {A B} (R : A -> B -> Prop) (x : T A) (y : T B) : Prop :=
  forall a b, snd x = Val a -> snd y = Val b -> R a b -> fst x = fst y.

(** What anyone can compute from a key: the coefficients of its first parts. *)
Definition plain_coeffs (p : poly NttShoup) : M (list (list Z)) := q <- shoup_into_ntt p ;; r <- ntt_into_pb q ;; Val (p_coeffs r).
Definition key_events (k : ksk) (t : list event) : Prop :=
  exists rows, mapM plain_coeffs (k_c0 k) = Val rows /\ t = map (fun r => Vt VtForward [r]) rows.

(** One operation, with all coefficients of the operands, if every operand is public; none otherwise. *)
Definition observes {A} (publics : list bool) (o : vt_op) (data : list (list (list Z))) (x : T A) : Prop :=
  (Forall (fun b => b = true) publics -> fst x = [Vt o data]) /\ (In false publics -> fst x = []).
