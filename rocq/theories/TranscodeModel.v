(** Model of the bit-packing functions of crates/fhe-util/src/lib.rs and of the residue vector
    serialization of crates/fhe-math/src/zq/mod.rs. *)
From Verif Require Import Outcome ZqModel.

(** Inner [while current_value_nbits >= w] loop shared by the three functions
    (fhe-util/src/lib.rs:91-95, 131-135, 175-179).  [emit] is the expression pushed.  The fuel
    bounds the number of rounds; running out of it is [Panic], which the theorems exclude. *)
Fixpoint drain (fuel : nat) (w : Z) (emit : Z -> Z) (cv n : Z) (out : list Z) : M (Z * Z * list Z) :=
  if w <=? n then
    match fuel with
    | O => Panic
    | S f => drain f w emit (Z.shiftr cv w) (n - w) (out ++ [emit cv])
    end
  else Val (cv, n, out).

(** Outer [while current_index < a.len()] loop (lib.rs:80-96, 121-136, 164-180): [rest] is
    [a[current_index..]], [load] what is or-ed in after [<< current_value_nbits] (a u128 shift,
    bits above 128 are dropped). *)
Fixpoint tloop (fuel : nat) (w_in w_out : Z) (load : Z -> M Z) (emit : Z -> Z)
         (rest : list Z) (cv n : Z) (out : list Z) : M (Z * Z * list Z) :=
  match rest with
  | [] => Val (cv, n, out)
  | v :: rest' =>
      match fuel with
      | O => Panic
      | S f =>
          '(rest1, cv1, n1) <-
            (if n <? w_out then
               x <- load v ;; Val (rest', Z.lor cv (Z.shiftl x n mod W128), n + w_in)
             else Val (v :: rest', cv, n)) ;;
          '(cv2, n2, out2) <- drain (Z.to_nat n1) w_out emit cv1 n1 out ;;
          tloop f w_in w_out load emit rest1 cv2 n2 out2
      end
  end.

Definition len {A} (l : list A) : Z := Z.of_nat (length l).
Definition div_ceil (a b : Z) : Z := (a + b - 1) / b.     (* usize::div_ceil for b > 0 *)

(** fhe-util/src/lib.rs:71-106 [transcode_to_bytes]. *)
Definition transcode_to_bytes (a : list Z) (w : Z) : M (list Z) :=
  guard ((0 <? w) && (w <=? 64)) ;;;
  let mask := Z.shiftr (W64 - 1) (64 - w) in
  total <- chk64 (len a * w) ;;
  let nbytes := div_ceil total 8 in
  '(cv, n, out) <-
     tloop (2 * length a) w 8
       (fun v => guard (nbits v <=? w) ;;; Val (Z.land v mask))
       (fun cv => cv mod W8) a 0 0 [] ;;
  if 0 <? n then
    guard (n <? 8) ;;;
    guard (len out =? nbytes - 1) ;;;
    Val (out ++ [cv mod W8])
  else
    guard (len out =? nbytes) ;;;
    guard (cv =? 0) ;;;
    Val out.

(** fhe-util/src/lib.rs:111-144 [transcode_from_bytes]. *)
Definition transcode_from_bytes (b : list Z) (w : Z) : M (list Z) :=
  guard ((0 <? w) && (w <=? 64)) ;;;
  let mask := Z.shiftr (W64 - 1) (64 - w) in
  total <- chk64 (len b * 8) ;;
  let nelements := div_ceil total w in
  '(cv, n, out) <-
     tloop (2 * length b * Z.to_nat w) 8 w (fun v => Val v)
       (fun cv => Z.land cv mask mod W64) b 0 0 [] ;;
  if 0 <? n then
    guard (len out =? nelements - 1) ;;;
    Val (out ++ [cv mod W64])
  else
    guard (len out =? nelements) ;;;
    guard (cv =? 0) ;;;
    Val out.

(** fhe-util/src/lib.rs:150-187 [transcode_bidirectional]. *)
Definition transcode_bidirectional (a : list Z) (w_in w_out : Z) : M (list Z) :=
  guard ((0 <? w_in) && (w_in <=? 64)) ;;;
  guard ((0 <? w_out) && (w_out <=? 64)) ;;;
  let input_mask := Z.shiftr (W64 - 1) (64 - w_in) in
  let output_mask := Z.shiftr (W64 - 1) (64 - w_out) in
  total <- chk64 (len a * w_in) ;;
  let output_size := div_ceil total w_out in
  '(cv, n, out) <-
     tloop (2 * length a) w_in w_out
       (fun v => guard (nbits v <=? w_in) ;;; Val (Z.land v input_mask))
       (fun cv => Z.land cv output_mask mod W64) a 0 0 [] ;;
  if 0 <? n then
    guard (n <? w_out) ;;;
    guard (len out =? output_size - 1) ;;;
    Val (out ++ [cv mod W64])
  else
    guard (len out =? output_size) ;;;
    guard (cv =? 0) ;;;
    Val out.

(** zq/mod.rs:773-777 [serialization_length]. *)
Definition serialization_length (m : modulus) (size : Z) : M Z :=
  guard (size mod 8 =? 0) ;;;
  let p_nbits := 64 - leading_zeros64 (mod_p m - 1) in
  t <- chk64 (p_nbits * size) ;;
  Val (t / 8).

(** zq/mod.rs:783-786 [serialize_vec]. *)
Definition serialize_vec (m : modulus) (a : list Z) : M (list Z) :=
  transcode_to_bytes a (64 - leading_zeros64 (mod_p m - 1)).

(** zq/mod.rs:790-793 [deserialize_vec]. *)
Definition deserialize_vec (m : modulus) (b : list Z) : M (list Z) :=
  transcode_from_bytes b (64 - leading_zeros64 (mod_p m - 1)).
