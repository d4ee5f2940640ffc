(** Model of [generate_prime], crates/fhe-math/src/zq/primes.rs:30-59. *)
From Verif Require Import Outcome.

(** Bounded [while] loops with binary fuel: [step] returns [inl] to continue and [inr] to stop. *)
Fixpoint while_pos {S R : Type} (step : S -> S + R) (p : positive) (s : S) : S + R :=
  match p with
  | xH => step s
  | xO p' => match while_pos step p' s with inl s' => while_pos step p' s' | inr r => inr r end
  | xI p' => match step s with
             | inl s1 => match while_pos step p' s1 with inl s' => while_pos step p' s' | inr r => inr r end
             | inr r => inr r
             end
  end.

(** A loop over u64 states that decreases at each round needs at most 2^64 rounds;
    exhausting the fuel is [Panic] (excluded by the theorems). *)
Definition while64 {S R : Type} (step : S -> S + M R) (s : S) : M R :=
  match while_pos step 18446744073709551616%positive s with inl _ => Panic | inr r => r end.

(** primes.rs:41-44 *)
Definition gp_loop1 (modulo lz : Z) (t : Z) : M Z :=
  while64 (fun t =>
    if negb (t mod modulo =? 1) && (leading_zeros64 t =? lz)
    then inl (t - 1) else inr (Val t)) t.

(** primes.rs:46-51 *)
Definition gp_loop2 (isp : Z -> bool) (modulo lz : Z) (t : Z) : M Z :=
  while64 (fun t =>
    if (leading_zeros64 t =? lz) && negb (isp t) && (modulo <=? t)
    then inl (t - modulo) else inr (Val t)) t.

(** primes.rs:30-59; [isp] is the oracle [fhe_util::is_prime]. *)
Definition generate_prime (isp : Z -> bool) (num_bits modulo upper_bound : Z) : M (option Z) :=
  if negb ((10 <=? num_bits) && (num_bits <=? 62)) then Val None
  else
    guard (upper_bound <=? Z.shiftl 1 num_bits) ;;;
    let lz := 64 - num_bits in
    t <- chk64 (upper_bound - 1) ;;
    guard (negb (modulo =? 0)) ;;;                     (* `%` by zero *)
    t <- gp_loop1 modulo lz t ;;
    t <- gp_loop2 isp modulo lz t ;;
    if (leading_zeros64 t =? lz) && isp t then Val (Some t) else Val None.
