(** Specification vocabulary for plaintexts and ciphertexts, independent of the model's helpers. *)
From Verif Require Import Outcome BasicSpec PolySpec ZqModel NttModel RnsSpec RqModel RqSpec ParamsModel BfvSpec PlainModel CipherModel.

(** The ciphertext modulus of level [l]. *)
Definition level_modulus (par : params) (l : nat) : Z := prod_list (level_moduli (pa_moduli par) l).
(** [v] followed by zeros up to length [n]. *)
Definition pad (n : nat) (v : list Z) : list Z := v ++ repeat 0 (n - length v).
(** The representative modulo [t] in [floor(t/2) - t, floor(t/2)). *)
Definition signed (t a : Z) : Z := let r := a mod t in if 2 * r + 1 <? t then r else r - t.
(** SIMD encodings need slots. *)
Definition usable (par : params) (e : encoding) : Prop := e_kind e = EncSimd -> pa_ntt par <> None.

(** Decoding works modulo the first modulus when it is larger than t, modulo Q otherwise. *)
Definition decode_base (par : params) (l : nat) : Z :=
  if (pa_t par <? 2 ^ 64) && (pa_t par <? hd 0 (pa_moduli par)) then hd 0 (pa_moduli par) else level_modulus par l.

(** The plaintext [pt] of level [l] carries the polynomial with integer coefficients [m]. *)
Definition is_pt (par : params) (l : nat) (pt : plaintext) (m : list Z) : Prop :=
  pt_par pt = par /\ par_context par l = Val (p_ctx (pt_poly pt)) /\ represents (pt_poly pt) m.
