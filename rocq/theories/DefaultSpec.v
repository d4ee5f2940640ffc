(** Specification vocabulary for the default parameters. *)
From Verif Require Import Outcome BasicSpec RnsModel RnsSpec ParamsModel BfvSpec.

(** The degrees and ciphertext moduli of the default parameters, in increasing order. *)
Definition default_rows : list (Z * list Z) := [
  (1024, [132120577]);
  (2048, [18014398492704769]);
  (4096, [68719403009; 68719230977; 137438822401]);
  (8192, [8796092858369; 8796092792833; 17592186028033; 17592185438209; 17592184717313]);
  (16384, [281474976546817; 281474976317441; 281474975662081; 562949952798721; 562949952700417; 562949952274433; 562949951979521; 562949951881217; 562949951619073])].
(** The plaintext modulus for [nb] bits and degree [n]: the largest prime of [nb] bits that is 1 modulo 2n, below 2^nb - 1. *)
Definition default_t (nb n t : Z) : Prop :=
  wanted nb (2 * n) (2 ^ nb - 1) t /\ forall x, wanted nb (2 * n) (2 ^ nb - 1) x -> x <= t.
(** A plaintext modulus can be used with the moduli [qs]: it is below the bound 2^62 of all moduli, below their product and not one of them. *)
Definition usable_t (qs : list Z) (t : Z) : Prop := t < 2 ^ 62 /\ t < prod_list qs /\ ~ In t qs.
Definition default_fits (nb n : Z) (qs : list Z) (t : Z) : Prop := default_t nb n t /\ usable_t qs t.
(** The parameters [par] have the degree and moduli of [row], the variance 10 and the plaintext modulus for [nb] bits. *)
Definition default_params (isp : Z -> bool) (cands : Z -> list Z) (nb : Z) (row : Z * list Z) (par : params) : Prop :=
  is_params isp cands par /\ Z.of_nat (pa_degree par) = fst row /\ pa_moduli par = snd row /\ pa_variance par = 10 /\ default_fits nb (fst row) (snd row) (pa_t par).
(** The list [ps] has one parameter set for each row that has a fitting plaintext modulus, in the same order, and nothing else. *)
Inductive defaults (isp : Z -> bool) (cands : Z -> list Z) (nb : Z) : list (Z * list Z) -> list params -> Prop :=
| defaults_end : defaults isp cands nb [] []
| defaults_take row rows par ps : default_params isp cands nb row par -> defaults isp cands nb rows ps -> defaults isp cands nb (row :: rows) (par :: ps)
| defaults_skip row rows ps : (forall t, ~ default_fits nb (fst row) (snd row) t) -> defaults isp cands nb rows ps -> defaults isp cands nb (row :: rows) ps.
