(** The release build of the generation of primes (crates/fhe-math/src/zq/primes.rs), of the moduli of parameters and of the default parameters
    (crates/fhe/src/bfv/parameters.rs), as in ReleaseModel.v: the debug assertions (primes.rs:34-37, parameters.rs:221) are gone, subtractions wrap
    and the amount of a shift is taken modulo 64. *)
From Verif Require Import Outcome PrimesModel ParamsModel DefaultModel ReleaseModel.

(** primes.rs:41-44 and 46-51. *)
Definition rel_gp_loop1 (modulo lz : Z) (t : Z) : M Z :=
  while64 (fun t =>
    if negb (t mod modulo =? 1) && (leading_zeros64 t =? lz)
    then inl (w64 (t - 1)) else inr (Val t)) t.
Definition rel_gp_loop2 (isp : Z -> bool) (modulo lz : Z) (t : Z) : M Z :=
  while64 (fun t =>
    if (leading_zeros64 t =? lz) && negb (isp t) && (modulo <=? t)
    then inl (w64 (t - modulo)) else inr (Val t)) t.
(** primes.rs:30-59. *)
Definition rel_generate_prime (isp : Z -> bool) (num_bits modulo upper_bound : Z) : M (option Z) :=
  if negb ((10 <=? num_bits) && (num_bits <=? 62)) then Val None
  else
    let lz := 64 - num_bits in
    guard (negb (modulo =? 0)) ;;;
    t <- rel_gp_loop1 modulo lz (w64 (upper_bound - 1)) ;;
    t <- rel_gp_loop2 isp modulo lz t ;;
    if (leading_zeros64 t =? lz) && isp t then Val (Some t) else Val None.

(** parameters.rs:408-428 and 390-431 [generate_moduli]. *)
Fixpoint rel_next_prime (isp : Z -> bool) (fuel : nat) (size degree upper : Z) (acc : list Z) : M Z :=
  match fuel with
  | O => Panic
  | S f =>
      o <- rel_generate_prime isp size (w64 (2 * degree)) upper ;;
      p <- ok_or o (ParNotEnoughPrimes size degree) ;;
      if existsb (Z.eqb p) acc then rel_next_prime isp f size degree p acc else Val p
  end.
Fixpoint rel_generate_moduli_from (isp : Z -> bool) (i : Z) (sizes : list Z) (degree : Z) (acc : list Z) : M (list Z) :=
  match sizes with
  | [] => Val acc
  | size :: sizes' =>
      if (62 <? size) || (size <? 10) then Err (ParInvalidModulusSize i size)
      else
        p <- rel_next_prime isp (S (length acc)) size degree (w64 (Z.shiftl 1 (size mod 64))) acc ;;
        rel_generate_moduli_from isp (i + 1) sizes' degree (acc ++ [p])
  end.
Definition rel_generate_moduli (isp : Z -> bool) (sizes : list Z) (degree : Z) : M (list Z) :=
  rel_generate_moduli_from isp 0 sizes degree [].
(** parameters.rs:660-676. *)
Fixpoint rel_extended_basis_loop (isp : Z -> bool) (fuel : nat) (want : nat) (degree upper : Z) (moduli acc : list Z) : M (list Z) :=
  if Nat.eqb (length acc) want then Val acc
  else
    match fuel with
    | O => Panic
    | S f =>
        o <- rel_generate_prime isp 62 (w64 (2 * degree)) upper ;;
        p <- ok_or o (ParNotEnoughPrimes 62 degree) ;;
        rel_extended_basis_loop isp f want degree p moduli
          (if negb (existsb (Z.eqb p) acc) && negb (existsb (Z.eqb p) moduli) then acc ++ [p] else acc)
    end.
Definition rel_extended_basis (isp : Z -> bool) (degree : Z) (moduli : list Z) : M (list Z) :=
  rel_extended_basis_loop isp (2 * length moduli + 2) (length moduli + 1) degree (Z.shiftl 1 62) moduli [].

(** parameters.rs:255-280 and 218-293; [bld id b] is what [build_arc] returns for the builder [b] and the address [id]. *)
Definition rel_default_row (isp : Z -> bool) (bld : Z -> builder -> M params) (nb : Z) (id : Z) (row : Z * list Z) : M (option params) :=
  o <- rel_generate_prime isp nb (2 * fst row) (Z.shiftr (W64 - 1) (w64 (64 - nb) mod 64)) ;;
  match o with
  | None => Val None
  | Some t =>
      if nb <=? fold_right Z.add 0 (map (fun m => 64 - leading_zeros64 m) (snd row)) then
        match bld id (mkBuilder (fst row) t 10 (snd row) []) with
        | Val par => Val (Some par)
        | Err _ => Val None
        | Panic => Panic
        end
      else Val None
  end.
Definition rel_default_parameters_128 (isp : Z -> bool) (bld : Z -> builder -> M params) (ids : nat -> Z) (nb : Z) : M (list params) :=
  os <- mapM (fun p => rel_default_row isp bld nb (ids (fst p)) (snd p)) (combine (seq 0 5) default_table) ;;
  match somes os with
  | [] => Err (ParNoDefault nb)
  | ps => Val ps
  end.
