(** Specification vocabulary for byte strings. *)
From Verif Require Import Outcome BasicSpec RqModel ParamsModel CipherModel KeysModel WireSpec BytesModel.

(** Strings of bytes, and strings that a [Vec<u8>] can hold. *)
Definition byte_string (l : list Z) : Prop := Forall (fun b => 0 <= b < 2 ^ 8) l.
Definition fits (l : list Z) : Prop := Z.of_nat (length l) < 2 ^ 64.
(** The integer types of the fields. *)
Definition is_i32 (z : Z) : Prop := - 2 ^ 31 <= z < 2 ^ 31.
(** Messages whose fields have values of their types. *)
Definition rq_typed (m : rq_proto) : Prop := is_i32 (rq_repr m) /\ is_u32 (rq_degree m).
Definition ksk_typed (m : ksk_wire) : Prop := is_u32 (kw_ct_level m) /\ is_u32 (kw_level m) /\ is_u32 (kw_log_base m).
Definition opt_typed {A} (P : A -> Prop) (o : option A) : Prop := match o with Some a => P a | None => True end.
Definition galois_typed (m : galois_wire) : Prop := opt_typed ksk_typed (gw_ksk m) /\ is_u32 (gw_exponent m).
Definition ek_typed (m : ek_wire) : Prop := Forall galois_typed (ew_gk m) /\ is_u32 (ew_ct_level m) /\ is_u32 (ew_level m).
Definition params_typed (m : params_proto) : Prop :=
  is_u32 (pp_degree m) /\ Forall is_u64 (pp_moduli m) /\ is_u32 (pp_variance m) /\ match pp_plain m with Some (PpU64 v) => is_u64 v | _ => True end.
(** The same parameters at another address. *)
Definition at_address (id : Z) (p : params) : params :=
  mkParams id (pa_degree p) (pa_moduli p) (pa_sizes p) (pa_variance p) (pa_levels p) (pa_ntt p) (pa_t p) (pa_small p) (pa_index p).
(** The varints of the protobuf format: groups of seven bits, the lowest first, each but the last with its high bit set. *)
Inductive varint_of : list Z -> Z -> Prop :=
| varint_last b : 0 <= b < 128 -> varint_of [b] b
| varint_more b l v : 0 <= b < 128 -> varint_of l v -> varint_of (b + 128 :: l) (b + 128 * v).
