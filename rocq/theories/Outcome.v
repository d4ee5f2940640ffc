(** Outcomes of Rust functions: a value, an [Err(..)], or a panic.

    The model follows the debug build of the crates: integer overflow and failing
    [debug_assert!] are [Panic].  The release build only drops those checks, so a result
    [Val v] of the model is also the result of the release build. *)
From Coq Require Export ZArith List Bool Lia.
Export ListNotations.
Open Scope Z_scope.

(** Error values.  Each constructor corresponds to a variant of
    [fhe_math::Error] (crates/fhe-math/src/errors.rs) or [fhe::Error] (crates/fhe/src/errors.rs);
    payloads are kept only where a property mentions them. *)
Inductive error : Type :=
(* fhe-math/src/errors.rs: Error and PolynomialSerializationError *)
| InvalidModulus (p : Z)
| NoMoreContext
| ContextNotReachable
| PolynomialContextMismatch
| InvalidSeedSize (found expected : Z)
| InvalidPolynomialDegree (d : Z)
| NttOperatorUnavailable (p n : Z)
| InvalidContextLevel (level max : Z)
| InvalidSubstitutionExponent (e n : Z)
| InvalidVariance (v : Z)
| EmptyDotProduct
| DotProductLengthMismatch (left right : Z)
| InvalidCoefficientCount (actual : Z)
| InvalidCoefficientShape
| TooManyCoefficients (actual maximum : Z)
| NonContiguousCoefficients
| DegreeMismatch (found expected : Z)
| EmptyModuli
| NonCoprimeModuli (left right : Z)
| NonInvertible (value modulus : Z)
| InvalidRepresentation (v : Z)
| UnknownRepresentation
| RepresentationMismatch
| SerInvalidDegree (d : Z)
| SerInvalidCoefficientCount (actual expected : Z)
(* fhe/src/errors.rs; payloads that no property mentions are dropped *)
| ParameterMismatch
| InvalidLevel (level min max : Z)
| TooFewPolynomials (actual minimum : Z)
| CtPolynomialContextMismatch
| InvalidPolynomialCount (actual expected : Z)
| MultiplicationPolynomialCount (left right expected : Z)
| PtPolynomialContextMismatch
| MissingEncoding
| PtNttOperatorUnavailable
| TooManyValues (actual maximum : Z)
| ValueTooLargeForU64
| EncodingMismatch
| SimdUnavailable
| KeySwitchingNotSupported
| EkUnsupported
| EkMissing
| EmptyKeySwitchingComponents
| InvalidRotationStep (step : Z)
| InvalidExpansionSize (size : Z)
| DpEmptyInput
| DpOperandCountMismatch (cts pts : Z)
| DpPolynomialCountMismatch (actual expected : Z)
| NoShares
| InvalidCrpCount (actual expected : Z)
| MissingRound1
| SerDecode
| SerMissingField
| WrongPolynomialCount (expected actual : Z)
| InconsistentKeySwitchingLevels
| InvalidPublicKeyLevel (level : Z)
| InvalidKskDecompositionLevels
| InvalidKskSeedLength (actual : Z)
| InvalidSecretKeyCoefficientCount (actual expected : Z)
| InvalidCiphertextPolynomialCount (actual : Z) (seed : bool)
| ParInvalidDegree (d : Z)
| ParInvalidPlaintextModulus
| ParInvalidCiphertextModulus (i q : Z)
| ParInvalidModulusSize (i size : Z)
| ParNotEnoughPrimes (size n : Z)
| ParDuplicateModuli
| ParModuliNotCoprime (a b g : Z)
| ParCiphertextNotNttFriendly (i q n : Z)
| ParPlaintextTooLarge
| ParPlaintextNotCoprime (t q i g : Z)
| ParPlaintextReduction (q : Z)
| ParInvalidVariance (v : Z)
| ParConflicting
| ParMissing
| ParNoDefault (bits : Z)
| VarianceError.                         (* fhe-util: "The variance should be between 1 and 32" *)

Inductive M (A : Type) : Type :=
| Val (a : A)
| Err (e : error)
| Panic.
Arguments Val {A} a.
Arguments Err {A} e.
Arguments Panic {A}.

Definition bind {A B} (x : M A) (f : A -> M B) : M B :=
  match x with Val a => f a | Err e => Err e | Panic => Panic end.

Notation "x <- e ;; k" := (bind e (fun x => k))
  (at level 100, e at next level, right associativity).
Notation "' p <- e ;; k" := (bind e (fun x => match x with p => k end))
  (at level 100, p pattern, e at next level, right associativity).
Notation "e ;;; k" := (bind e (fun _ => k)) (at level 100, right associativity).

(** [assert!] / [debug_assert!] *)
Definition guard (b : bool) : M unit := if b then Val tt else Panic.
(** early [return Err(..)] *)
Definition fail_unless (b : bool) (e : error) : M unit := if b then Val tt else Err e.
(** [Option::unwrap] *)
Definition unwrap {A} (o : option A) : M A := match o with Some a => Val a | None => Panic end.
Definition ok_or {A} (o : option A) (e : error) : M A := match o with Some a => Val a | None => Err e end.

(** Word sizes. *)
Notation W8 := 256.
Notation W32 := 4294967296.
Notation W62 := 4611686018427387904.
Notation W63 := 9223372036854775808.
Notation W64 := 18446744073709551616.
Notation W127 := 170141183460469231731687303715884105728.
Notation W128 := 340282366920938463463374607431768211456.
Notation W256 := 115792089237316195423570985008687907853269984665640564039457584007913129639936.

Definition is_u64 (x : Z) : Prop := 0 <= x < W64.
Definition is_u128 (x : Z) : Prop := 0 <= x < W128.
Definition is_i64 (x : Z) : Prop := - W63 <= x < W63.

(** Checked arithmetic results (debug build). *)
Definition chk (lo hi x : Z) : M Z := if (lo <=? x) && (x <? hi) then Val x else Panic.
Definition chk64 (x : Z) : M Z := chk 0 W64 x.
Definition chk128 (x : Z) : M Z := chk 0 W128 x.
Definition chk256 (x : Z) : M Z := chk 0 W256 x.
Definition chki64 (x : Z) : M Z := chk (- W63) W63 x.
Definition chki128 (x : Z) : M Z := chk (- W127) W127 x.

(** Two's complement reinterpretation of a 64-bit word as [i64]. *)
Definition to_i64 (x : Z) : Z := let y := x mod W64 in if y <? W63 then y else y - W64.

(** [u64::leading_zeros]; for 0 it is 64. *)
Definition nbits (x : Z) : Z := if x <=? 0 then 0 else Z.log2 x + 1.
Definition leading_zeros64 (x : Z) : Z := 64 - nbits x.

(** Iterators with fallible bodies. *)
Fixpoint mapM {A B} (f : A -> M B) (l : list A) : M (list B) :=
  match l with
  | [] => Val []
  | a :: t => b <- f a ;; r <- mapM f t ;; Val (b :: r)
  end.

(** [izip!(a, b)]: stops at the shorter one. *)
Fixpoint map2M {A B C} (f : A -> B -> M C) (l : list A) (l' : list B) : M (list C) :=
  match l, l' with
  | a :: t, b :: t' => c <- f a b ;; r <- map2M f t t' ;; Val (c :: r)
  | _, _ => Val []
  end.

Fixpoint map3M {A B C D} (f : A -> B -> C -> M D) (l : list A) (l' : list B) (l'' : list C) : M (list D) :=
  match l, l', l'' with
  | a :: t, b :: t', c :: t'' => d <- f a b c ;; r <- map3M f t t' t'' ;; Val (d :: r)
  | _, _, _ => Val []
  end.

Fixpoint foldM {A S} (f : S -> A -> M S) (l : list A) (s : S) : M S :=
  match l with
  | [] => Val s
  | a :: t => s' <- f s a ;; foldM f t s'
  end.

(** An in-place elementwise update [izip!(a.iter_mut(), b.iter()).for_each(..)]:
    elements of [a] beyond the length of [b] are left alone. *)
Fixpoint zip_upd {A B} (f : A -> B -> M A) (l : list A) (l' : list B) : M (list A) :=
  match l, l' with
  | a :: t, b :: t' => c <- f a b ;; r <- zip_upd f t t' ;; Val (c :: r)
  | _, _ => Val l
  end.

Fixpoint zip_upd3 {A B C} (f : A -> B -> C -> M A) (l : list A) (l' : list B) (l'' : list C) : M (list A) :=
  match l, l', l'' with
  | a :: t, b :: t', c :: t'' => d <- f a b c ;; r <- zip_upd3 f t t' t'' ;; Val (d :: r)
  | _, _, _ => Val l
  end.

Definition list_eqb (l l' : list Z) : bool :=
  if list_eq_dec Z.eq_dec l l' then true else false.

(** [<[T]>::as_chunks::<K>()]: complete chunks and the remainder. *)
Fixpoint chunks_n {A} (m k : nat) (l : list A) : list (list A) * list A :=
  match m with
  | O => ([], l)
  | S m' => let '(cs, r) := chunks_n m' k (skipn k l) in (firstn k l :: cs, r)
  end.
Definition as_chunks {A} (k : nat) (l : list A) : list (list A) * list A :=
  chunks_n (length l / k)%nat k l.
