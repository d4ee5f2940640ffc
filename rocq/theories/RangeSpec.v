(** Values outside the range of an encoder. *)
From Verif Require Import Outcome BasicSpec ParamsModel PlainModel SchemeSpec.

(** Slots must stay below 2t; coefficients must stay below four times the modulus of the last level, and are free at the
    other levels. *)
Definition too_large (par : params) (e : encoding) (v : list Z) : Prop :=
  match e_kind e with
  | EncSimd => Exists (fun a => 2 * pa_t par <= a) v
  | EncPoly => e_level e = max_level par /\ Exists (fun a => 4 * level_modulus par (e_level e) <= a) v
  end.
(** The encoding exists for these parameters. *)
Definition available (par : params) (e : encoding) : Prop := usable par e /\ (e_level e <= max_level par)%nat.
(** [pt] is decoded as [e] when [o] is asked for. *)
Definition decoded_as (pt : plaintext) (o : option encoding) (e : encoding) : Prop :=
  (pt_enc pt = Some e /\ (o = None \/ o = Some e)) \/ (pt_enc pt = None /\ o = Some e).
