(** The release build of crates/fhe-util/src/lib.rs (bit packing and the sampler) and of the serialization of residue vectors, as in ReleaseModel.v:
    the debug assertions (lib.rs:51, 86, 167) are gone and the products of lengths wrap; the [assert!]s stay. *)
From Verif Require Import Outcome ZqModel TranscodeModel CbdModel ReleaseModel.

(** lib.rs:71-106. *)
Definition rel_transcode_to_bytes (a : list Z) (w : Z) : M (list Z) :=
  guard ((0 <? w) && (w <=? 64)) ;;;
  let mask := Z.shiftr (W64 - 1) (64 - w) in
  let nbytes := div_ceil (w64 (len a * w)) 8 in
  '(cv, n, out) <- tloop (2 * length a) w 8 (fun v => Val (Z.land v mask)) (fun cv => cv mod W8) a 0 0 [] ;;
  if 0 <? n then
    guard (n <? 8) ;;;
    guard (len out =? w64 (nbytes - 1)) ;;;
    Val (out ++ [cv mod W8])
  else
    guard (len out =? nbytes) ;;;
    guard (cv =? 0) ;;;
    Val out.
(** lib.rs:111-144. *)
Definition rel_transcode_from_bytes (b : list Z) (w : Z) : M (list Z) :=
  guard ((0 <? w) && (w <=? 64)) ;;;
  let mask := Z.shiftr (W64 - 1) (64 - w) in
  let nelements := div_ceil (w64 (len b * 8)) w in
  '(cv, n, out) <- tloop (2 * length b * Z.to_nat w) 8 w (fun v => Val v) (fun cv => Z.land cv mask mod W64) b 0 0 [] ;;
  if 0 <? n then
    guard (len out =? w64 (nelements - 1)) ;;;
    Val (out ++ [cv mod W64])
  else
    guard (len out =? nelements) ;;;
    guard (cv =? 0) ;;;
    Val out.
(** lib.rs:150-187. *)
Definition rel_transcode_bidirectional (a : list Z) (w_in w_out : Z) : M (list Z) :=
  guard ((0 <? w_in) && (w_in <=? 64)) ;;;
  guard ((0 <? w_out) && (w_out <=? 64)) ;;;
  let input_mask := Z.shiftr (W64 - 1) (64 - w_in) in
  let output_mask := Z.shiftr (W64 - 1) (64 - w_out) in
  let output_size := div_ceil (w64 (len a * w_in)) w_out in
  '(cv, n, out) <- tloop (2 * length a) w_in w_out (fun v => Val (Z.land v input_mask)) (fun cv => Z.land cv output_mask mod W64) a 0 0 [] ;;
  if 0 <? n then
    guard (n <? w_out) ;;;
    guard (len out =? w64 (output_size - 1)) ;;;
    Val (out ++ [cv mod W64])
  else
    guard (len out =? output_size) ;;;
    guard (cv =? 0) ;;;
    Val out.
(** zq/mod.rs:783-793. *)
Definition rel_serialize_vec (m : modulus) (a : list Z) : M (list Z) := rel_transcode_to_bytes a (64 - leading_zeros64 (mod_p m - 1)).
Definition rel_deserialize_vec (m : modulus) (b : list Z) : M (list Z) := rel_transcode_from_bytes b (64 - leading_zeros64 (mod_p m - 1)).

(** lib.rs:44-55. *)
Fixpoint rel_cbd_small (rng : nat -> Z) (v : Z) (n : nat) (pool nb : Z) (cnt : nat) : list Z * nat :=
  match n with
  | O => ([], cnt)
  | S n' =>
      let number_bits := 4 * v in
      let '(pool, nb, cnt) :=
        if nb <? number_bits
        then (Z.lor pool (Z.shiftl (rng cnt) nb mod W128), w64 (nb + 64), S cnt)
        else (pool, nb, cnt) in
      let '(r, c) := rel_cbd_small rng v n' (Z.shiftr pool number_bits) (w64 (nb - number_bits)) cnt in
      (cbd_sample v pool :: r, c)
  end.
(** lib.rs:22-66. *)
Definition rel_sample_vec_cbd (rng : nat -> Z) (size : nat) (variance : Z) : M (list Z * nat) :=
  if negb ((1 <=? variance) && (variance <=? 32)) then Err VarianceError
  else if 4 * variance <=? 64 then Val (rel_cbd_small rng variance size 0 0 0)
  else Val (cbd_large rng variance size 0).
