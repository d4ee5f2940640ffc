(** Specification vocabulary for messages, independent of the model's helpers. *)
From Verif Require Import Outcome BasicSpec PolySpec NttModel RqModel RqSpec ParamsModel BfvSpec PlainModel CipherModel SchemeSpec CipherSpec KeysModel KeysSpec EvalSpec.

(** [m] never panics, and the value it returns, if any, satisfies [Q]. *)
Definition safe {A} (m : M A) (Q : A -> Prop) : Prop := match m with Val a => Q a | Err _ => True | Panic => False end.
Definition any {A} (a : A) : Prop := True.

(** What decoding the protobuf wire format guarantees: bytes are bytes and [uint32] fields are below 2^32. *)
Definition is_u32 (z : Z) : Prop := 0 <= z < 2 ^ 32.
Definition wire_rq (m : rq_proto) : Prop := Forall (fun b => 0 <= b < 2 ^ 8) (rq_coeffs m) /\ is_u32 (rq_degree m).
Definition wire_ct (m : ct_proto) : Prop := Forall wire_rq (cp_c m) /\ is_u32 (cp_level m).
Definition wire_ksk (m : ksk_proto) : Prop :=
  Forall wire_rq (kp_c0 m) /\ Forall wire_rq (kp_c1 m) /\ is_u32 (kp_ct_level m) /\ is_u32 (kp_level m) /\ is_u32 (kp_log_base m).
Definition wire_opt {A} (P : A -> Prop) (m : option A) : Prop := match m with Some a => P a | None => True end.
Definition wire_galois (m : galois_proto) : Prop := is_u32 (gkp_exponent m) /\ wire_opt wire_ksk (gkp_ksk m).
Definition wire_ek (m : ek_proto) : Prop := Forall wire_galois (ep_gk m) /\ is_u32 (ep_ct_level m) /\ is_u32 (ep_level m).
Definition wire_rgsw (m : rgsw_proto) : Prop := wire_opt wire_ksk (rp_ksk0 m) /\ wire_opt wire_ksk (rp_ksk1 m).

(** [k] has the shape of a key from level [l1] to level [l2]: polynomials of level [l2], as many as residues modulo the
    moduli of level [l1], or as digits in base 2^b of the residues modulo the only modulus of the last level. *)
Definition key_count (par : params) (l1 : nat) (b : Z) : Z :=
  if b =? 0 then Z.of_nat (length (level_moduli (pa_moduli par) l1)) else digit_count (hd 0 (pa_moduli par)) b.
Definition key_shape (par : params) (l1 l2 : nat) (k : ksk) : Prop :=
  k_par k = par /\ k_ct_level k = l1 /\ k_level k = l2 /\ (l1 <= max_level par)%nat /\ (l2 <= max_level par)%nat /\
  par_context par l1 = Val (k_ct_ctx k) /\ par_context par l2 = Val (k_ctx k) /\
  0 <= k_log_base k < 2 ^ 32 /\ (k_log_base k <> 0 -> l1 = max_level par /\ l2 = max_level par) /\
  Z.of_nat (length (k_c0 k)) = key_count par l1 (k_log_base k) /\ Z.of_nat (length (k_c1 k)) = key_count par l1 (k_log_base k) /\
  Forall (fun p => p_vt p = true /\ exists x, is_poly par l2 p x) (k_c0 k) /\ Forall (fun p => p_vt p = true /\ exists x, is_poly par l2 p x) (k_c1 k) /\
  (forall sd, k_seed k = Some sd -> length sd = 32%nat).
(** The second halves of a key are derived from its seed, if it has one. *)
Definition key_faithful (expand : expander) (derive : deriver) (k : ksk) : Prop :=
  forall sd, k_seed k = Some sd -> Forall2 (fun i p => p_coeffs p = expand (derive sd i) (c_moduli (k_ctx k)) (c_degree (k_ctx k))) (seq 0 (length (k_c1 k))) (k_c1 k).
(** The shift by the size of a digit does not overflow. *)
Definition base_fits (k : ksk) : Prop := k_log_base k < 64.

(** Ciphertexts of level [l], whatever they encrypt. *)
Definition some_ct (par : params) (l n : nat) (ct : ciphertext) : Prop := exists xs, is_ct par l ct xs /\ length xs = n.
(** Any ciphertext of the parameters, with any number of parts. *)
Definition any_ct (par : params) (ct : ciphertext) : Prop := exists l n, (l <= max_level par)%nat /\ some_ct par l n ct.

(** Automorphism keys, evaluation keys for ciphertexts of level [l1], RGSW ciphertexts and public keys of any content. *)
Definition gk_shape (par : params) (l1 l2 : nat) (g : galois_key) : Prop :=
  key_shape par l1 l2 (g_ksk g) /\ exists c e, par_context par l1 = Val c /\ 0 <= e /\ Z.odd e = true /\ subst_new c e = Val (g_element g).
Definition ek_shape (par : params) (l1 : nat) (ek : eval_key) : Prop :=
  ek_par ek = par /\ ek_ct_level ek = l1 /\ (l1 <= max_level par)%nat /\ rotation_table (pa_degree par) (ek_rot ek) /\
  Forall2 (is_poly par l1) (ek_monomials ek) (map (fun k => monomial (pa_degree par) (2 * Z.of_nat (pa_degree par) - 2 ^ Z.of_nat k)) (seq 0 (Z.to_nat (Z.log2 (Z.of_nat (pa_degree par)))))) /\
  forall e g, lookup (ek_gk ek) e = Some g -> se_exponent (g_element g) = e /\ gk_shape par l1 (ek_level ek) g.
Definition ek_fits (ek : eval_key) : Prop := forall e g, lookup (ek_gk ek) e = Some g -> base_fits (g_ksk g).
Definition rgsw_shape (par : params) (l : nat) (r : rgsw) : Prop := key_shape par l l (r_ksk0 r) /\ key_shape par l l (r_ksk1 r).
Definition pk_shape (par : params) (pk : public_key) : Prop := pk_par pk = par /\ exists n, (2 <= n)%nat /\ some_ct par 0 n (pk_c pk).
(** The same evaluation key, up to the order of its maps. *)
Definition same_ek (a b : eval_key) : Prop :=
  ek_par a = ek_par b /\ ek_ct_level a = ek_ct_level b /\ ek_level a = ek_level b /\ ek_monomials a = ek_monomials b /\
  (forall e, lookup (ek_gk a) e = lookup (ek_gk b) e) /\ (forall i, lookup (ek_rot a) i = lookup (ek_rot b) i).
