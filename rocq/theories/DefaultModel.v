(** Model of [BfvParameters::default_parameters_128], crates/fhe/src/bfv/parameters.rs:212-293. *)
From Verif Require Import Outcome PrimesModel ParamsModel.

(** parameters.rs:223-250: the degrees and moduli, which the code sorts by degree. *)
Definition default_table : list (Z * list Z) := [
  (1024, [0x7e00001]);
  (2048, [0x3fffffff000001]);
  (4096, [0xffffee001; 0xffffc4001; 0x1ffffe0001]);
  (8192, [0x7fffffd8001; 0x7fffffc8001; 0xfffffffc001; 0xffffff6c001; 0xfffffebc001]);
  (16384, [0xfffffffd8001; 0xfffffffa0001; 0xfffffff00001; 0x1fffffff68001; 0x1fffffff50001; 0x1ffffffee8001; 0x1ffffffea0001; 0x1ffffffe88001; 0x1ffffffe48001])].

(** parameters.rs:255-280: one round of [filter_map]; [id] is the address of the parameters.  The default variance is 10
    (parameters.rs:339-346), and a shift of a u64 by 64 overflows. *)
Definition default_row (isp : Z -> bool) (cands : Z -> list Z) (nb : Z) (id : Z) (row : Z * list Z) : M (option params) :=
  s <- chk 0 64 (64 - nb) ;;
  o <- generate_prime isp nb (2 * fst row) (Z.shiftr (W64 - 1) s) ;;
  match o with
  | None => Val None
  | Some t =>
      if nb <=? fold_right Z.add 0 (map (fun m => 64 - leading_zeros64 m) (snd row)) then
        match build isp cands id (mkBuilder (fst row) t 10 (snd row) []) with
        | Val par => Val (Some par)
        | Err _ => Val None
        | Panic => Panic
        end
      else Val None
  end.
Fixpoint somes {A} (l : list (option A)) : list A :=
  match l with [] => [] | Some a :: t => a :: somes t | None :: t => somes t end.
(** parameters.rs:218-293; [ids] are the addresses of the parameters. *)
Definition default_parameters_128 (isp : Z -> bool) (cands : Z -> list Z) (ids : nat -> Z) (nb : Z) : M (list params) :=
  guard (nb <? 64) ;;;
  os <- mapM (fun p => default_row isp cands nb (ids (fst p)) (snd p)) (combine (seq 0 5) default_table) ;;
  match somes os with
  | [] => Err (ParNoDefault nb)
  | ps => Val ps
  end.
