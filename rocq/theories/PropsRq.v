(** Properties C20-C29: polynomials in residue-number-system form (fhe-math/src/rq).

    A context is any value returned by the constructor, for any primality test that is right and any candidate
    roots below the modulus; [represents p x] says that [p] is exactly the stored form of the integer
    polynomial [x]; [returns m c x] says that [m] succeeds with a well-formed polynomial of context [c]
    representing [x]. *)
From Verif Require Import Outcome BasicSpec PolySpec CbdSpec ZqModel NttModel RnsSpec RnsModel RqModel RqSpec RqPropLemmas.
From Coq Require Import Znumtheory.

(** Contexts exist for correct oracles. *)
Example C20_contexts : exists isp cands c, oracles isp cands /\ is_context isp cands c /\ c_moduli c = [97; 193] /\ c_degree c = 8%nat.
Proof. exact context_exists. Qed.

(** C20: well-formed polynomials are exactly the representations of integer polynomials, unique modulo Q. *)
Theorem C20_representation : forall isp cands, oracles isp cands -> forall c, is_context isp cands c ->
  forall R (p : poly R), p_ctx p = c ->
  (well_formed p <-> exists x, represents p x) /\
  (forall x, represents p x -> forall y, represents p y <-> congruent (modulus_of c) x y).
Proof. exact representation_all. Qed.
Print Assumptions C20_representation.
(** C20: addition, subtraction, negation, multiplication by an integer. *)
Theorem C20_arithmetic : forall isp cands, oracles isp cands -> forall c, is_context isp cands c ->
  forall R (p q : poly R) x y, R <> NttShoup -> p_ctx p = c -> p_ctx q = c -> represents p x -> represents q y ->
  returns (poly_add p q) c (zipWith Z.add x y) /\
  returns (poly_sub p q) c (zipWith Z.sub x y) /\
  returns (poly_neg p) c (map Z.opp x) /\
  (forall k, returns (poly_scalar_mul p k) c (map (Z.mul k) x)).
Proof. exact arithmetic_all. Qed.
Print Assumptions C20_arithmetic.
(** C20: products modulo X^N + 1. *)
Theorem C20_product : forall isp cands, oracles isp cands -> forall c, is_context isp cands c ->
  forall (p q : poly Ntt) (s : poly NttShoup) x y z, p_ctx p = c -> p_ctx q = c -> p_ctx s = c -> represents p x -> represents q y -> represents s z ->
  returns (poly_mul p q) c (negacyclic (c_degree c) x y) /\
  returns (poly_mul_shoup p s) c (negacyclic (c_degree c) x z).
Proof. exact product_all. Qed.
Print Assumptions C20_product.
(** C20: different contexts are refused. *)
Theorem C20_mismatch : forall R (p q : poly R), ~ (c_moduli (p_ctx p) = c_moduli (p_ctx q) /\ c_degree (p_ctx p) = c_degree (p_ctx q)) ->
  poly_add p q = Panic /\ poly_sub p q = Panic.
Proof. exact mismatch_all. Qed.
Print Assumptions C20_mismatch.
Theorem C20_mul_mismatch : forall (p q : poly Ntt) (s : poly NttShoup),
  (~ (c_moduli (p_ctx p) = c_moduli (p_ctx q) /\ c_degree (p_ctx p) = c_degree (p_ctx q)) -> poly_mul p q = Panic) /\
  (~ (c_moduli (p_ctx p) = c_moduli (p_ctx s) /\ c_degree (p_ctx p) = c_degree (p_ctx s)) -> poly_mul_shoup p s = Panic).
Proof. exact mul_mismatch_all. Qed.
Print Assumptions C20_mul_mismatch.
Example C20_ex :
  (c <- ctx_ex ;; p <- pb_from_i64 c [1; -2; 3] false ;; q <- pb_from_i64 c [5; 0; 0; 0; 0; 0; 0; 7] false ;;
   a <- poly_add p q ;; s <- poly_sub p q ;; g <- poly_neg p ;; k <- poly_scalar_mul p (10 ^ 6) ;;
   p' <- pb_into_ntt p ;; q' <- pb_into_ntt q ;; q'' <- pb_into_ntt_shoup q ;; m <- poly_mul p' q' ;; m' <- poly_mul_shoup p' q'' ;;
   u <- mapM show [a; s; g; k] ;; v <- mapM show [m; m'] ;; Val (u ++ v))
  = Val (map (map (fun v => v mod (97 * 193))) [[6; -2; 3; 0; 0; 0; 0; 7]; [-4; -2; 3; 0; 0; 0; 0; -7]; [-1; 2; -3; 0; 0; 0; 0; 0];
       [10 ^ 6; -2 * 10 ^ 6; 3 * 10 ^ 6; 0; 0; 0; 0; 0]; [19; -31; 15; 0; 0; 0; 0; 7]; [19; -31; 15; 0; 0; 0; 0; 7]]).
Proof. vm_compute. reflexivity. Qed.

(** C21: the six conversions, between the three representations of one polynomial. *)
Theorem C21_conversions : forall isp cands, oracles isp cands -> forall c, is_context isp cands c ->
  forall (a : poly PowerBasis) (b : poly Ntt) (s : poly NttShoup) x, p_ctx a = c -> p_ctx b = c -> p_ctx s = c ->
  p_vt a = p_vt b -> p_vt a = p_vt s -> represents a x -> represents b x -> represents s x ->
  pb_into_ntt a = Val b /\ pb_into_ntt_shoup a = Val s /\
  ntt_into_pb b = Val a /\ ntt_into_shoup b = Val s /\
  shoup_into_ntt s = Val b /\ shoup_into_pb s = Val a.
Proof. exact conversions_all. Qed.
Print Assumptions C21_conversions.
(** C21: every polynomial has its two other representations, with the same timing flag. *)
Theorem C21_triple : forall isp cands, oracles isp cands -> forall c, is_context isp cands c ->
  forall R (p : poly R), p_ctx p = c -> well_formed p ->
  exists (a : poly PowerBasis) (b : poly Ntt) (s : poly NttShoup) x, p_ctx a = c /\ p_ctx b = c /\ p_ctx s = c /\
    p_vt a = p_vt p /\ p_vt b = p_vt p /\ p_vt s = p_vt p /\ represents a x /\ represents b x /\ represents s x /\
    represents p x /\ match R return poly R -> Prop with PowerBasis => fun p => p = a | Ntt => fun p => p = b | NttShoup => fun p => p = s end p.
Proof. exact triple_all. Qed.
Print Assumptions C21_triple.
Example C21_ex :
  (c <- ctx_ex ;; p <- pb_from_i64 c [1; -2; 3] true ;; b <- pb_into_ntt p ;; s <- pb_into_ntt_shoup p ;;
   b' <- shoup_into_ntt s ;; p' <- ntt_into_pb b ;; p'' <- shoup_into_pb s ;; s' <- ntt_into_shoup b ;;
   Val (poly_eqb b b' && poly_eqb p p' && poly_eqb p p'' && poly_eqb s s' && negb (rows_eqb (p_coeffs p) (p_coeffs b)))) = Val true.
Proof. vm_compute. reflexivity. Qed.

(** C22: exponents are accepted when odd and reduced modulo 2N. *)
Theorem C22_exponent : forall isp cands, oracles isp cands -> forall c, is_context isp cands c -> Z.of_nat (c_degree c) <= 2 ^ 31 ->
  forall e, 0 <= e ->
  (Z.odd e = true <-> exists i, subst_new c e = Val i) /\
  (forall i, subst_new c e = Val i -> se_exponent i = e mod (2 * Z.of_nat (c_degree c))) /\
  (Z.odd e = false -> subst_new c e = Err (InvalidSubstitutionExponent (e mod (2 * Z.of_nat (c_degree c))) (Z.of_nat (c_degree c)))).
Proof. exact subst_new_all. Qed.
Print Assumptions C22_exponent.
(** C22: substitution is the automorphism, in all three representations. *)
Theorem C22_substitute : forall isp cands, oracles isp cands -> forall c, is_context isp cands c -> Z.of_nat (c_degree c) <= 2 ^ 31 ->
  forall e i, 0 <= e -> subst_new c e = Val i ->
  forall R (p : poly R) x, p_ctx p = c -> represents p x -> returns (substitute p i) c (automorphism (c_degree c) e x).
Proof. exact substitute_all. Qed.
Print Assumptions C22_substitute.
(** C22: composition. *)
Theorem C22_compose : forall isp cands, oracles isp cands -> forall c, is_context isp cands c -> Z.of_nat (c_degree c) <= 2 ^ 31 ->
  forall k l i j m, 0 <= k -> 0 <= l -> subst_new c k = Val i -> subst_new c l = Val j -> subst_new c ((k * l) mod (2 * Z.of_nat (c_degree c))) = Val m ->
  forall R (p : poly R), p_ctx p = c -> well_formed p -> bind (substitute p i) (fun q => substitute q j) = substitute p m.
Proof. exact substitute_compose_all. Qed.
Print Assumptions C22_compose.
Example C22_ex :
  (c <- ctx_ex ;; i <- subst_new c (3 + 16) ;; p <- pb_from_i64 c [1; 2; 3; 4; 5; 6; 7; 8] true ;; b <- pb_into_ntt p ;;
   p' <- substitute p i ;; b' <- substitute b i ;; x <- show p' ;; y <- show b' ;; Val (se_exponent i, x, y))
  = Val (3, map (fun v => v mod 18721) [1; -4; 7; 2; -5; 8; 3; -6], map (fun v => v mod 18721) [1; -4; 7; 2; -5; 8; 3; -6]).
Proof. vm_compute. reflexivity. Qed.

(** C23: one step. *)
Theorem C23_switch_down : forall isp cands, oracles isp cands -> forall moduli n c, context_new isp cands moduli n = Val c ->
  forall (p : poly PowerBasis) x, p_ctx p = c -> represents p x ->
  ((length moduli <= 1)%nat -> switch_down p = Err NoMoreContext) /\
  ((2 <= length moduli)%nat -> exists c', context_new isp cands (removelast moduli) n = Val c' /\
     modulus_of c = modulus_of c' * last moduli 0 /\
     returns (switch_down p) c' (map (round_div (last moduli 0)) x)).
Proof. exact switch_down_all. Qed.
Print Assumptions C23_switch_down.
(** C23: several steps, and unreachable targets. *)
Theorem C23_switch_down_to : forall isp cands, oracles isp cands -> forall moduli n c, context_new isp cands moduli n = Val c ->
  forall (p : poly PowerBasis) x, p_ctx p = c -> represents p x ->
  (forall i t, (i < length moduli)%nat -> context_new isp cands (firstn (length moduli - i) moduli) n = Val t ->
     returns (switch_down_to p t) t (round_divs (rev (skipn (length moduli - i) moduli)) x)) /\
  (forall t, is_context isp cands t -> ~ (c_degree t = n /\ exists i, (i < length moduli)%nat /\ c_moduli t = firstn (length moduli - i) moduli) ->
     switch_down_to p t = Err ContextNotReachable).
Proof. exact switch_down_to_all. Qed.
Print Assumptions C23_switch_down_to.
Example C23_ex :
  (c <- ctx_ex ;; p <- pb_from_u64 c [0; 96; 97; 18720; 9360; 193; 289; 290] true ;; r <- switch_down p ;; show r)
  = Val [0; 0; 1; 0; 48; 1; 1; 2] /\ map (round_div 193) [0; 96; 97; 18720; 9360; 193; 289; 290] = [0; 0; 1; 97; 48; 1; 1; 2].
Proof. vm_compute. auto. Qed.

(** C24: multiplication by X^(2N-k), which is X^(-k); larger powers panic. *)
Theorem C24_inverse_power : forall isp cands, oracles isp cands -> forall c, is_context isp cands c ->
  forall (p : poly PowerBasis) x k, p_ctx p = c -> represents p x -> let n := Z.of_nat (c_degree c) in 0 <= k ->
  (k <= 2 * n -> exists y, returns (multiply_inverse_power_of_x p k) c y /\ y = negacyclic (c_degree c) (monomial (c_degree c) (2 * n - k)) x /\
     negacyclic (c_degree c) (monomial (c_degree c) k) y = x) /\
  (2 * n < k -> multiply_inverse_power_of_x p k = Panic).
Proof. exact inverse_power_all. Qed.
Print Assumptions C24_inverse_power.
Example C24_ex :
  (c <- ctx_ex ;; p <- pb_from_u64 c [1; 2; 3; 4; 5; 6; 7; 8] true ;; r <- multiply_inverse_power_of_x p 3 ;; show r)
  = Val (map (fun v => v mod 18721) [4; 5; 6; 7; 8; -1; -2; -3]).
Proof. vm_compute. reflexivity. Qed.

(** C25: any number of terms. *)
Theorem C25_dot_product : forall isp cands, oracles isp cands -> forall c, is_context isp cands c ->
  forall (ps qs : list (poly Ntt)) xs ys, ps <> [] -> length ps = length qs ->
  Forall2 (fun p x => p_ctx p = c /\ represents p x) ps xs -> Forall2 (fun q y => p_ctx q = c /\ represents q y) qs ys ->
  returns (dot_product ps qs) c (poly_sum (c_degree c) (zipWith (negacyclic (c_degree c)) xs ys)).
Proof. exact dot_all. Qed.
Print Assumptions C25_dot_product.
(** C25: the refused inputs. *)
Theorem C25_errors : forall ps qs : list (poly Ntt),
  (ps = [] \/ qs = [] -> dot_product ps qs = Err EmptyDotProduct) /\
  (ps <> [] -> qs <> [] -> length ps <> length qs -> dot_product ps qs = Err (DotProductLengthMismatch (Z.of_nat (length ps)) (Z.of_nat (length qs)))) /\
  (forall p0 p, In p0 (firstn 1 ps) -> In p (ps ++ qs) -> length ps = length qs ->
     ~ (c_moduli (p_ctx p) = c_moduli (p_ctx p0) /\ c_degree (p_ctx p) = c_degree (p_ctx p0)) -> dot_product ps qs = Err PolynomialContextMismatch).
Proof. exact dot_errors_all. Qed.
Print Assumptions C25_errors.
Example C25_ex :
  (c <- ctx_ex ;; p <- pb_from_i64 c [1; -2; 3] true ;; q <- pb_from_i64 c [0; 1] true ;; p' <- pb_into_ntt p ;; q' <- pb_into_ntt q ;;
   r <- dot_product [p'; q'; p'] [q'; q'; p'] ;; show r)
  = Val (map (fun v => v mod 18721) [1; -3; 9; -9; 9; 0; 0; 0]).
Proof. vm_compute. reflexivity. Qed.

(** C26: the message written for a polynomial reads back as the same polynomial, and only in its own representation. *)
Theorem C26_round_trip : forall isp cands, oracles isp cands -> forall c, is_context isp cands c ->
  Z.of_nat (c_degree c) < 2 ^ 32 -> Z.of_nat (length (c_moduli c)) < 2 ^ 29 ->
  forall R (p : poly R), p_ctx p = c -> well_formed p ->
  exists m, poly_to_proto p = Val m /\ rq_degree m = Z.of_nat (c_degree c) /\
    poly_from_proto R m c (p_vt p) = Val p /\
    (forall R' vt, R' <> R -> poly_from_proto R' m c vt = Err RepresentationMismatch).
Proof. exact proto_all. Qed.
Print Assumptions C26_round_trip.
Example C26_ex :
  (c <- ctx_ex ;; p <- pb_from_i64 c [1; -2; 3] true ;; m <- poly_to_proto p ;; q <- poly_from_proto PowerBasis m c true ;;
   Val (poly_eqb p q, rq_degree m, rq_repr m)) = Val (true, 8, 1).
Proof. vm_compute. reflexivity. Qed.

(** C27 does not hold: the degree field is not compared with the degree of the context. *)
Theorem C27_refuted : exists isp cands c m vt (q : poly PowerBasis), oracles isp cands /\ is_context isp cands c /\
  rq_degree m <> Z.of_nat (c_degree c) /\ poly_from_proto PowerBasis m c vt = Val q.
Proof. exact from_proto_degree_refuted. Qed.
Print Assumptions C27_refuted.
(** C27: in fact every polynomial of a context with the same moduli and a small enough degree is accepted by the larger context. *)
Theorem C27_refuted_general : forall isp cands, oracles isp cands -> forall c c', is_context isp cands c -> is_context isp cands c' ->
  c_moduli c' = c_moduli c -> (c_degree c' * length (c_moduli c) <= c_degree c)%nat -> c_degree c' <> c_degree c ->
  Z.of_nat (c_degree c') < 2 ^ 32 -> Z.of_nat (length (c_moduli c)) < 2 ^ 29 ->
  forall (p : poly PowerBasis) vt, p_ctx p = c' -> well_formed p ->
  exists m q, poly_to_proto p = Val m /\ rq_degree m <> Z.of_nat (c_degree c) /\ poly_from_proto PowerBasis m c vt = Val q.
Proof. exact from_proto_other_degree. Qed.
Print Assumptions C27_refuted_general.
(** C27: a message is only read in the representation it announces; unspecified and unknown representations are rejected. *)
Theorem C27_representation : forall R m c vt,
  (forall p : poly R, poly_from_proto R m c vt = Val p -> rq_repr m = match R with PowerBasis => 1 | Ntt => 2 | NttShoup => 3 end) /\
  (rq_repr m = 0 -> poly_from_proto R m c vt = Err UnknownRepresentation) /\
  (~ 0 <= rq_repr m <= 3 -> poly_from_proto R m c vt = Err (InvalidRepresentation (rq_repr m))).
Proof. exact from_proto_repr_all. Qed.
Print Assumptions C27_representation.
(** C27: what does hold.  Missing: degrees with degree * #moduli <= N are not excluded. *)
Theorem C27_reject_partial : forall isp cands, oracles isp cands -> forall c, is_context isp cands c ->
  forall R m vt p, 0 <= rq_degree m -> poly_from_proto R m c vt = Val p ->
  rq_degree m = Z.of_nat (c_degree c) \/ rq_degree m * Z.of_nat (length (c_moduli c)) <= Z.of_nat (c_degree c).
Proof. exact from_proto_degree_all. Qed.
Print Assumptions C27_reject_partial.
Example C27_ex :
  (c <- ctx_ex ;; p <- pb_from_i64 c [1; -2; 3] true ;; m <- poly_to_proto p ;;
   poly_from_proto PowerBasis (mkRq (rq_repr m) 16 (rq_coeffs m) (rq_vt m)) c true) = Err (SerInvalidCoefficientCount 15 30).
Proof. vm_compute. reflexivity. Qed.

(** C28: unsigned vectors.  A vector of exactly #moduli * N words is taken as rows of residues, which must then already be reduced. *)
Theorem C28_u64 : forall isp cands, oracles isp cands -> forall c, is_context isp cands c ->
  forall v vt, Forall is_u64 v -> let n := c_degree c in let k := length (c_moduli c) in
  ((length v <= n)%nat -> (length v < k * n)%nat -> returns (pb_from_u64 c v vt) c (v ++ repeat 0 (n - length v))) /\
  ((n < length v)%nat -> length v <> (k * n)%nat -> pb_from_u64 c v vt = Err (InvalidCoefficientCount (Z.of_nat (length v)))).
Proof. exact from_u64_all. Qed.
Print Assumptions C28_u64.
(** C28: signed and big-integer vectors. *)
Theorem C28_i64_big : forall isp cands, oracles isp cands -> forall c, is_context isp cands c -> let n := c_degree c in
  (forall v vt, Forall is_i64 v -> (length v <= n)%nat -> returns (pb_from_i64 c v vt) c (v ++ repeat 0 (n - length v))) /\
  (forall R v vt, (length v <= n)%nat -> returns (poly_from_big R c v vt) c (v ++ repeat 0 (n - length v))) /\
  (forall R v vt, (n < length v)%nat -> pb_from_i64 c v vt = Err (TooManyCoefficients (Z.of_nat (length v)) (Z.of_nat n)) /\
     poly_from_big R c v vt = Err (TooManyCoefficients (Z.of_nat (length v)) (Z.of_nat n))).
Proof. exact from_signed_all. Qed.
Print Assumptions C28_i64_big.
(** C28: reading back. *)
Theorem C28_to_big : forall isp cands, oracles isp cands -> forall c, is_context isp cands c ->
  forall (p : poly PowerBasis) x, p_ctx p = c -> represents p x -> poly_to_big p = Val (map (fun a => a mod modulus_of c) x).
Proof. exact to_big_all. Qed.
Print Assumptions C28_to_big.
(** C28 fails for a context with one modulus and a vector of N words: it is taken as a row of residues and not reduced. *)
Theorem C28_refuted : exists isp cands c v p, oracles isp cands /\ is_context isp cands c /\ Forall is_u64 v /\ (length v <= c_degree c)%nat /\
  pb_from_u64 c v false = Val p /\ ~ well_formed p.
Proof. exact from_u64_refuted. Qed.
Print Assumptions C28_refuted.
Theorem C28_refuted_general : forall isp cands, oracles isp cands -> forall c q, is_context isp cands c -> c_moduli c = [q] ->
  exists p, pb_from_u64 c (repeat q (c_degree c)) false = Val p /\ ~ well_formed p.
Proof. exact from_u64_single. Qed.
Print Assumptions C28_refuted_general.
Example C28_ex :
  (c <- ctx_ex ;; p <- pb_from_u64 c [2 ^ 64 - 1; 97] true ;; q <- pb_from_i64 c [- 2 ^ 63; 5] true ;; r <- pb_from_big c [- 10 ^ 30] true ;;
   mapM show [p; q; r])
  = Val (map (map (fun v => v mod 18721)) [[2 ^ 64 - 1; 97; 0; 0; 0; 0; 0; 0]; [- 2 ^ 63; 5; 0; 0; 0; 0; 0; 0]; [- 10 ^ 30; 0; 0; 0; 0; 0; 0; 0]]).
Proof. vm_compute. reflexivity. Qed.

(** C29: when a context exists.  The hypothesis on [cands] says that the search for a root of unity meets a non-residue. *)
Theorem C29_accept : forall isp cands, oracles isp cands -> forall moduli degree,
  (forall p, In p moduli -> prime p -> 2 < p < 2 ^ 62 -> exists a, In a (cands p) /\ a ^ ((p - 1) / 2) mod p = p - 1) ->
  (exists c, context_new isp cands moduli degree = Val c) <->
  (exists K : nat, (3 <= K)%nat /\ degree = (2 ^ K)%nat) /\ moduli <> [] /\ NoDup moduli /\
  Forall (fun p => prime p /\ p < 2 ^ 62 /\ p mod (2 * Z.of_nat degree) = 1) moduli.
Proof. exact accept_all. Qed.
Print Assumptions C29_accept.
(** C29: the errors. *)
Theorem C29_reject : forall isp cands, oracles isp cands -> forall moduli degree,
  (~ (exists K : nat, (3 <= K)%nat /\ degree = (2 ^ K)%nat) -> context_new isp cands moduli degree = Err (InvalidPolynomialDegree (Z.of_nat degree))) /\
  ((exists K : nat, (3 <= K)%nat /\ degree = (2 ^ K)%nat) -> forall e, rns_new moduli = Err e -> context_new isp cands moduli degree = Err e).
Proof. exact reject_all. Qed.
Print Assumptions C29_reject.
Theorem C29_reject_ntt : forall isp cands, oracles isp cands -> forall pre p post K, (3 <= K < 63)%nat -> rns_basis (pre ++ p :: post) ->
  Forall (fun q => prime q /\ q < 2 ^ 62 /\ q mod (2 * 2 ^ Z.of_nat K) = 1 /\ exists a, In a (cands q) /\ a ^ ((q - 1) / 2) mod q = q - 1) pre ->
  ~ (prime p /\ p mod (2 * 2 ^ Z.of_nat K) = 1) ->
  context_new isp cands (pre ++ p :: post) (2 ^ K) = Err (NttOperatorUnavailable p (2 ^ Z.of_nat K)).
Proof. exact ntt_reject_all. Qed.
Print Assumptions C29_reject_ntt.
(** C29: the chain of contexts. *)
Theorem C29_chain : forall isp cands, oracles isp cands -> forall moduli n c, context_new isp cands moduli n = Val c ->
  c_moduli c = moduli /\ c_degree c = n /\ 
  (forall i, (i < length moduli)%nat -> exists c', context_new isp cands (firstn (length moduli - i) moduli) n = Val c' /\
     follow i c = Val c' /\ context_at_level c i = Val c' /\ niterations_to c c' = Val i) /\
  (forall i, (length moduli <= i)%nat -> context_at_level c i = Err (InvalidContextLevel (Z.of_nat i) (Z.of_nat (length moduli) - 1))) /\
  (forall t, is_context isp cands t -> ~ (c_degree t = n /\ exists i, (i < length moduli)%nat /\ c_moduli t = firstn (length moduli - i) moduli) ->
     niterations_to c t = Err ContextNotReachable).
Proof. exact chain_all. Qed.
Print Assumptions C29_chain.
Example C29_ex : exists c c', ctx_ex = Val c /\ context_new isp_ex cands_ex [97] 8 = Val c' /\ context_at_level c 1 = Val c' /\
  niterations_to c c' = Val 1%nat /\ niterations_to c' c = Err ContextNotReachable /\
  context_new isp_ex cands_ex [97; 193] 12 = Err (InvalidPolynomialDegree 12) /\ context_new isp_ex cands_ex [97; 97] 8 = Err (NonCoprimeModuli 97 97) /\
  context_new isp_ex cands_ex [97; 101] 8 = Err (NttOperatorUnavailable 101 8) /\ context_new isp_ex cands_ex [] 8 = Err EmptyModuli.
Proof. eexists. eexists. examples. Qed.

(** C19 for polynomials: scaling between contexts, coefficient by coefficient. *)
Theorem C19_poly_scale : forall isp cands, oracles isp cands -> forall from to, is_context isp cands from -> is_context isp cands to ->
  c_degree from = c_degree to -> Z.of_nat (length (c_moduli from)) < 2 ^ 60 ->
  forall num den f, 0 <= num -> 0 <= den -> factor_new num den = Val f -> num = den \/ load num den (c_moduli from) < 2 ^ 65 ->
  exists s, poly_scaler_new from to f = Val s /\
  forall R (p : poly R) x, R <> NttShoup -> p_ctx p = from -> represents p x ->
  exists y, Forall2 (scaled_value (c_moduli from) num den) x y /\ returns (poly_scale s p) to y.
Proof. exact scaler_poly_all. Qed.
Print Assumptions C19_poly_scale.
(** C19 for polynomials: switching between contexts scales by the quotient of the moduli. *)
Theorem C19_switcher : forall isp cands, oracles isp cands -> forall from to, is_context isp cands from -> is_context isp cands to ->
  c_degree from = c_degree to -> Z.of_nat (length (c_moduli from)) < 2 ^ 60 -> load (prod_list (c_moduli to)) (prod_list (c_moduli from)) (c_moduli from) < 2 ^ 65 ->
  exists s, switcher_new from to = Val s /\
  forall R (p : poly R) x, R <> NttShoup -> p_ctx p = from -> represents p x ->
  exists y, Forall2 (scaled_value (c_moduli from) (prod_list (c_moduli to)) (prod_list (c_moduli from))) x y /\ returns (poly_scale s p) to y.
Proof. exact switcher_all. Qed.
Print Assumptions C19_switcher.
Example C19_poly_scale_ex :
  (c <- ctx_ex ;; c' <- context_new isp_ex cands_ex [97] 8 ;; f <- factor_new 1 193 ;; s <- poly_scaler_new c c' f ;;
   p <- pb_from_u64 c [0; 96; 97; 9360; 193; 289; 290] true ;; r <- poly_scale s p ;; show r)
  = Val [0; 0; 1; 48; 1; 1; 2; 0].
Proof. vm_compute. reflexivity. Qed.

(** C12 for polynomials: the small polynomials have the sampled coefficients. *)
Theorem C12_poly_small : forall isp cands, oracles isp cands -> forall c, is_context isp cands c ->
  forall R rng v, (forall k, is_u64 (rng k)) ->
  (1 <= v <= 32 -> returns (poly_small R c v rng) c (map (cbd_value rng v) (seq 0 (c_degree c)))) /\
  (~ (1 <= v <= 32) -> poly_small R c v rng = Err (InvalidVariance v)).
Proof. exact small_all. Qed.
Print Assumptions C12_poly_small.
Example C12_poly_small_ex :
  (c <- ctx_ex ;; p <- poly_small PowerBasis c 10 (fun k => Z.of_nat k * 123456789123456789 mod 2 ^ 64) ;; show p)
  = Val (map (fun i => cbd_value (fun k => Z.of_nat k * 123456789123456789 mod 2 ^ 64) 10 i mod 18721) (seq 0 8)).
Proof. vm_compute. reflexivity. Qed.
