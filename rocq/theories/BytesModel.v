(** Model of the byte strings of [to_bytes] and [from_bytes]: the protobuf wire format of the messages of crates/fhe/src/proto/bfv.proto and
    crates/fhe-math/src/proto/rq.proto, as the crate prost writes and reads it.  prost is not part of the repository: this is its documented
    format, with its choices (fields are written in the order of their numbers, default values are left out, repeated numbers are packed,
    unknown fields are skipped, the last value of a field wins, embedded messages are merged, groups nest at most 100 deep).  Reading past
    the end of a delimited part is an error here; prost notices it after reading on, and the outcome is the same error. *)
From Verif Require Import Outcome BasicSpec NttModel TranscodeModel RnsModel RqModel ParamsModel PlainModel CipherModel KeysModel.

(** ** Varints, keys and fields *)
Fixpoint put_varint_loop (n : nat) (v : Z) : list Z :=
  match n with
  | O => []
  | S n' => if v <? 128 then [v] else (v mod 128 + 128) :: put_varint_loop n' (v / 128)
  end.
Definition put_varint (v : Z) : list Z := put_varint_loop 10 v.
(** At most ten bytes, and at most one bit in the tenth. *)
Fixpoint get_varint_loop (n : nat) (l : list Z) : option (Z * list Z) :=
  match n, l with
  | S n', b :: t =>
      if b <? 128 then if Nat.eqb n' 0 && (1 <? b) then None else Some (b, t)
      else match get_varint_loop n' t with Some (v, r) => Some (b - 128 + 128 * v, r) | None => None end
  | _, _ => None
  end.
Definition get_varint (l : list Z) : option (Z * list Z) := get_varint_loop 10 l.
Definition obind {A B} (o : option A) (f : A -> option B) : option B := match o with Some a => f a | None => None end.
Notation "'let?' p ':=' e 'in' k" := (obind e (fun p => k)) (at level 200, p pattern, k at level 200).
(** A key: the number of the field and its wire type. *)
Definition get_key (l : list Z) : option (Z * Z * list Z) :=
  let? (k, r) := get_varint l in
  if 2 ^ 32 <=? k then None else if k / 8 =? 0 then None else Some (k / 8, k mod 8, r).
Definition take (n : Z) (l : list Z) : option (list Z * list Z) :=
  if Z.of_nat (length l) <? n then None else Some (firstn (Z.to_nat n) l, skipn (Z.to_nat n) l).
Definition get_bytes (l : list Z) : option (list Z * list Z) := let? (n, r) := get_varint l in take n r.
(** The content of a field; fixed-size fields and groups, which the messages do not have, are not kept. *)
Inductive payload := Varint (v : Z) | Bytes (b : list Z) | Other.
(** The rest after the groups [open]; [depth] is the number of groups that may be open. *)
Fixpoint skip_group (fuel depth : nat) (open : list Z) (l : list Z) : option (list Z) :=
  match fuel with
  | O => None
  | S f =>
      let? (tag, wt, r) := get_key l in
      if wt =? 4 then
        match open with
        | t :: up => if tag =? t then match up with [] => Some r | _ => skip_group f depth up r end else None
        | [] => None
        end
      else if Nat.eqb (length open) depth then None
      else if wt =? 0 then let? (_, r) := get_varint r in skip_group f depth open r
      else if wt =? 1 then let? (_, r) := take 8 r in skip_group f depth open r
      else if wt =? 2 then let? (_, r) := get_bytes r in skip_group f depth open r
      else if wt =? 3 then skip_group f depth (tag :: open) r
      else if wt =? 5 then let? (_, r) := take 4 r in skip_group f depth open r
      else None
  end.
Definition get_field (depth : nat) (l : list Z) : option (Z * payload * list Z) :=
  let? (tag, wt, r) := get_key l in
  if wt =? 0 then let? (v, r) := get_varint r in Some (tag, Varint v, r)
  else if wt =? 1 then let? (_, r) := take 8 r in Some (tag, Other, r)
  else if wt =? 2 then let? (b, r) := get_bytes r in Some (tag, Bytes b, r)
  else if wt =? 3 then let? r := skip_group (length r) depth [tag] r in Some (tag, Other, r)
  else if wt =? 5 then let? (_, r) := take 4 r in Some (tag, Other, r)
  else None.
Fixpoint get_fields_loop (fuel depth : nat) (l : list Z) : option (list (Z * payload)) :=
  match l, fuel with
  | [], _ => Some []
  | _, O => None
  | _, S f =>
      let? (tag, p, r) := get_field depth l in
      let? fs := get_fields_loop f depth r in Some ((tag, p) :: fs)
  end.
Definition get_fields (depth : nat) (l : list Z) : option (list (Z * payload)) := get_fields_loop (length l) depth l.
Definition put_field (f : Z * payload) : list Z :=
  match snd f with
  | Varint v => put_varint (fst f * 8) ++ put_varint v
  | Bytes b => put_varint (fst f * 8 + 2) ++ put_varint (Z.of_nat (length b)) ++ b
  | Other => []
  end.
Definition put_fields (fs : list (Z * payload)) : list Z := flat_map put_field fs.

(** ** Kinds of fields: how they are written, and the effect of a field on the value read so far *)
Definition int_field (tag v : Z) : list (Z * payload) := if v =? 0 then [] else [(tag, Varint v)].
Definition bytes_field (tag : Z) (b : list Z) : list (Z * payload) := match b with [] => [] | _ => [(tag, Bytes b)] end.
Definition repeated_field (tag : Z) (bs : list (list Z)) : list (Z * payload) := map (fun b => (tag, Bytes b)) bs.
Definition packed_field (tag : Z) (vs : list Z) : list (Z * payload) := match vs with [] => [] | _ => [(tag, Bytes (flat_map put_varint vs))] end.
Definition message_field (tag : Z) (m : option (list (Z * payload))) : list (Z * payload) := match m with Some fs => [(tag, Bytes (put_fields fs))] | None => [] end.

Definition read_int {A} (p : payload) (f : Z -> A) : option A := match p with Varint v => Some (f v) | _ => None end.
Definition read_bytes {A} (p : payload) (f : list Z -> A) : option A := match p with Bytes b => Some (f b) | _ => None end.
Fixpoint get_varints (fuel : nat) (l : list Z) : option (list Z) :=
  match l, fuel with
  | [], _ => Some []
  | _, O => None
  | _, S f => let? (v, r) := get_varint l in let? vs := get_varints f r in Some (v :: vs)
  end.
Definition read_ints {A} (p : payload) (f : list Z -> A) : option A :=
  match p with Varint v => Some (f [v]) | Bytes b => let? vs := get_varints (length b) b in Some (f vs) | Other => None end.
Definition to_u32 (v : Z) : Z := v mod 2 ^ 32.
Definition to_i32 (v : Z) : Z := if v mod 2 ^ 32 <? 2 ^ 31 then v mod 2 ^ 32 else v mod 2 ^ 32 - 2 ^ 32.
Definition zigzag (v : Z) : Z := if 0 <=? v then 2 * v else - 2 * v - 1.
Definition unzigzag (n : Z) : Z := if n mod 2 =? 0 then n / 2 else - (n / 2) - 1.

Fixpoint merge {A} (step : A -> Z -> payload -> option A) (fs : list (Z * payload)) (a : A) : option A :=
  match fs with [] => Some a | (tag, p) :: fs' => let? a := step a tag p in merge step fs' a end.
Definition merge_bytes {A} (step : A -> Z -> payload -> option A) (depth : nat) (b : list Z) (a : A) : option A :=
  let? fs := get_fields depth b in merge step fs a.
(** An embedded message. *)
Definition read_message {A B} (step : A -> Z -> payload -> option A) (depth : nat) (p : payload) (a : A) (f : A -> B) : option B :=
  match p with Bytes b => let? a := merge_bytes step depth b a in Some (f a) | _ => None end.
Definition or_default {A} (o : option A) (d : A) : A := match o with Some a => a | None => d end.

(** ** The messages *)
(** rq.proto:12-17 [Rq] *)
Definition rq_fields (m : rq_proto) : list (Z * payload) :=
  int_field 1 (rq_repr m mod 2 ^ 64) ++ int_field 2 (rq_degree m) ++ bytes_field 3 (rq_coeffs m) ++ int_field 4 (if rq_vt m then 1 else 0).
Definition rq_step (m : rq_proto) (tag : Z) (p : payload) : option rq_proto :=
  if tag =? 1 then read_int p (fun v => mkRq (to_i32 v) (rq_degree m) (rq_coeffs m) (rq_vt m))
  else if tag =? 2 then read_int p (fun v => mkRq (rq_repr m) (to_u32 v) (rq_coeffs m) (rq_vt m))
  else if tag =? 3 then read_bytes p (fun b => mkRq (rq_repr m) (rq_degree m) b (rq_vt m))
  else if tag =? 4 then read_int p (fun v => mkRq (rq_repr m) (rq_degree m) (rq_coeffs m) (negb (v =? 0)))
  else Some m.
Definition rq_encode (m : rq_proto) : list Z := put_fields (rq_fields m).
Definition rq_decode (b : list Z) : option rq_proto := merge_bytes rq_step 100 b (mkRq 0 0 [] false).

(** bfv.proto:5-9 [Ciphertext] *)
Record ct_wire := mkCw { cw_c : list (list Z); cw_seed : list Z; cw_level : Z }.
Definition ct_default : ct_wire := mkCw [] [] 0.
Definition ct_fields (m : ct_wire) : list (Z * payload) := repeated_field 1 (cw_c m) ++ bytes_field 2 (cw_seed m) ++ int_field 3 (cw_level m).
Definition ct_step (m : ct_wire) (tag : Z) (p : payload) : option ct_wire :=
  if tag =? 1 then read_bytes p (fun b => mkCw (cw_c m ++ [b]) (cw_seed m) (cw_level m))
  else if tag =? 2 then read_bytes p (fun b => mkCw (cw_c m) b (cw_level m))
  else if tag =? 3 then read_int p (fun v => mkCw (cw_c m) (cw_seed m) (to_u32 v))
  else Some m.
Definition ct_decode (b : list Z) : option ct_wire := merge_bytes ct_step 100 b ct_default.

(** bfv.proto:16-23 [KeySwitchingKey] *)
Record ksk_wire := mkKw { kw_c0 : list (list Z); kw_c1 : list (list Z); kw_seed : list Z; kw_ct_level : Z; kw_level : Z; kw_log_base : Z }.
Definition ksk_default : ksk_wire := mkKw [] [] [] 0 0 0.
Definition ksk_fields (m : ksk_wire) : list (Z * payload) :=
  repeated_field 1 (kw_c0 m) ++ repeated_field 2 (kw_c1 m) ++ bytes_field 3 (kw_seed m) ++ int_field 4 (kw_ct_level m) ++ int_field 5 (kw_level m) ++ int_field 6 (kw_log_base m).
Definition ksk_step (m : ksk_wire) (tag : Z) (p : payload) : option ksk_wire :=
  if tag =? 1 then read_bytes p (fun b => mkKw (kw_c0 m ++ [b]) (kw_c1 m) (kw_seed m) (kw_ct_level m) (kw_level m) (kw_log_base m))
  else if tag =? 2 then read_bytes p (fun b => mkKw (kw_c0 m) (kw_c1 m ++ [b]) (kw_seed m) (kw_ct_level m) (kw_level m) (kw_log_base m))
  else if tag =? 3 then read_bytes p (fun b => mkKw (kw_c0 m) (kw_c1 m) b (kw_ct_level m) (kw_level m) (kw_log_base m))
  else if tag =? 4 then read_int p (fun v => mkKw (kw_c0 m) (kw_c1 m) (kw_seed m) (to_u32 v) (kw_level m) (kw_log_base m))
  else if tag =? 5 then read_int p (fun v => mkKw (kw_c0 m) (kw_c1 m) (kw_seed m) (kw_ct_level m) (to_u32 v) (kw_log_base m))
  else if tag =? 6 then read_int p (fun v => mkKw (kw_c0 m) (kw_c1 m) (kw_seed m) (kw_ct_level m) (kw_level m) (to_u32 v))
  else Some m.

(** bfv.proto:11-14 [RGSWCiphertext] *)
Definition rgsw_wire : Type := option ksk_wire * option ksk_wire.
Definition rgsw_fields (m : rgsw_wire) : list (Z * payload) := message_field 1 (option_map ksk_fields (fst m)) ++ message_field 2 (option_map ksk_fields (snd m)).
Definition rgsw_step (m : rgsw_wire) (tag : Z) (p : payload) : option rgsw_wire :=
  if tag =? 1 then read_message ksk_step 99 p (or_default (fst m) ksk_default) (fun k => (Some k, snd m))
  else if tag =? 2 then read_message ksk_step 99 p (or_default (snd m) ksk_default) (fun k => (fst m, Some k))
  else Some m.
Definition rgsw_decode (b : list Z) : option rgsw_wire := merge_bytes rgsw_step 100 b (None, None).

(** bfv.proto:25-27 [RelinearizationKey] *)
Definition relin_fields (m : option ksk_wire) : list (Z * payload) := message_field 1 (option_map ksk_fields m).
Definition relin_step (m : option ksk_wire) (tag : Z) (p : payload) : option (option ksk_wire) :=
  if tag =? 1 then read_message ksk_step 99 p (or_default m ksk_default) Some else Some m.
Definition relin_decode (b : list Z) : option (option ksk_wire) := merge_bytes relin_step 100 b None.

(** bfv.proto:29-32 [GaloisKey] *)
Record galois_wire := mkGw { gw_ksk : option ksk_wire; gw_exponent : Z }.
Definition galois_default : galois_wire := mkGw None 0.
Definition galois_fields (m : galois_wire) : list (Z * payload) := message_field 1 (option_map ksk_fields (gw_ksk m)) ++ int_field 2 (gw_exponent m).
Definition galois_step (depth : nat) (m : galois_wire) (tag : Z) (p : payload) : option galois_wire :=
  if tag =? 1 then read_message ksk_step depth p (or_default (gw_ksk m) ksk_default) (fun k => mkGw (Some k) (gw_exponent m))
  else if tag =? 2 then read_int p (fun v => mkGw (gw_ksk m) (to_u32 v))
  else Some m.

(** bfv.proto:34-38 [EvaluationKey] *)
Record ek_wire := mkEw { ew_gk : list galois_wire; ew_ct_level : Z; ew_level : Z }.
Definition ek_fields (m : ek_wire) : list (Z * payload) :=
  repeated_field 2 (map (fun g => put_fields (galois_fields g)) (ew_gk m)) ++ int_field 3 (ew_ct_level m) ++ int_field 4 (ew_level m).
Definition ek_step (m : ek_wire) (tag : Z) (p : payload) : option ek_wire :=
  if tag =? 2 then read_message (galois_step 98) 99 p galois_default (fun g => mkEw (ew_gk m ++ [g]) (ew_ct_level m) (ew_level m))
  else if tag =? 3 then read_int p (fun v => mkEw (ew_gk m) (to_u32 v) (ew_level m))
  else if tag =? 4 then read_int p (fun v => mkEw (ew_gk m) (ew_ct_level m) (to_u32 v))
  else Some m.
Definition ek_decode (b : list Z) : option ek_wire := merge_bytes ek_step 100 b (mkEw [] 0 0).

(** bfv.proto:40-48 [Parameters]: the fields of the oneof come at the place of the lower number, and are written even when they are 0. *)
Definition params_fields (m : params_proto) : list (Z * payload) :=
  int_field 1 (pp_degree m) ++ packed_field 2 (pp_moduli m) ++
  match pp_plain m with Some (PpU64 v) => [(3, Varint v)] | Some (PpBig b) => [(5, Bytes b)] | None => [] end ++ int_field 4 (pp_variance m).
Definition params_step (m : params_proto) (tag : Z) (p : payload) : option params_proto :=
  if tag =? 1 then read_int p (fun v => mkPp (to_u32 v) (pp_moduli m) (pp_variance m) (pp_plain m))
  else if tag =? 2 then read_ints p (fun vs => mkPp (pp_degree m) (pp_moduli m ++ vs) (pp_variance m) (pp_plain m))
  else if tag =? 3 then read_int p (fun v => mkPp (pp_degree m) (pp_moduli m) (pp_variance m) (Some (PpU64 v)))
  else if tag =? 4 then read_int p (fun v => mkPp (pp_degree m) (pp_moduli m) (to_u32 v) (pp_plain m))
  else if tag =? 5 then read_bytes p (fun b => mkPp (pp_degree m) (pp_moduli m) (pp_variance m) (Some (PpBig b)))
  else Some m.
Definition params_decode (b : list Z) : option params_proto := merge_bytes params_step 100 b (mkPp 0 [] 0 None).

(** bfv.proto:50-52 [PublicKey] *)
Definition pk_fields (m : option ct_wire) : list (Z * payload) := message_field 1 (option_map ct_fields m).
Definition pk_step (m : option ct_wire) (tag : Z) (p : payload) : option (option ct_wire) :=
  if tag =? 1 then read_message ct_step 99 p (or_default m ct_default) Some else Some m.
Definition pk_decode (b : list Z) : option (option ct_wire) := merge_bytes pk_step 100 b None.

(** bfv.proto:54-56 [SecretKey] *)
Definition sk_fields (coeffs : list Z) : list (Z * payload) := packed_field 1 (map zigzag coeffs).
Definition sk_step (coeffs : list Z) (tag : Z) (p : payload) : option (list Z) :=
  if tag =? 1 then read_ints p (fun vs => coeffs ++ map unzigzag vs) else Some coeffs.
Definition sk_decode (b : list Z) : option (list Z) := merge_bytes sk_step 100 b [].

(** ** [to_bytes] and [from_bytes] *)
(** [Message::decode(bytes).map_err(...)?] *)
Definition decoded {A} (o : option A) : M A := match o with Some a => Val a | None => Err SerDecode end.
(** serialize.rs:10-14, 16-27 *)
Definition poly_to_bytes {R} (p : poly R) : M (list Z) := m <- poly_to_proto p ;; Val (rq_encode m).
Definition poly_from_bytes (R : repn) (b : list Z) (c : ctx) : M (poly R) := m <- decoded (rq_decode b) ;; poly_from_proto R m c false.

(** ciphertext.rs:198-202 with 231-259; the polynomials are those of [ct_to_proto], written to bytes. *)
Definition ct_to_wire (ct : ciphertext) : M ct_wire := m <- ct_to_proto ct ;; Val (mkCw (map rq_encode (cp_c m)) (cp_seed m) (cp_level m)).
Definition ct_to_bytes (ct : ciphertext) : M (list Z) := w <- ct_to_wire ct ;; Val (put_fields (ct_fields w)).
(** ciphertext.rs:261-317, with the polynomials as byte strings, and 204-215 *)
Definition ct_from_wire (expand : expander) (m : ct_wire) (par : params) : M ciphertext :=
  let seeded := negb (Nat.eqb (length (cw_seed m)) 0) in
  if Nat.eqb (length (cw_c m)) 0 || (Nat.eqb (length (cw_c m)) 1 && negb seeded)
  then Err (InvalidCiphertextPolynomialCount (len (cw_c m)) seeded)
  else if Z.of_nat (max_level par) <? cw_level m then Err (InvalidLevel (cw_level m) 0 (Z.of_nat (max_level par)))
  else
    let level := Z.to_nat (cw_level m) in
    c <- par_context par level ;;
    cs <- mapM (fun b => poly_from_bytes Ntt b c) (cw_c m) ;;
    '(sd, cs) <- (if seeded then
                    sd <- seed_of_bytes (cw_seed m) ;;
                    c1 <- poly_from_seed expand Ntt c sd ;;
                    Val (Some sd, cs ++ [c1])
                  else Val (None, cs)) ;;
    Val (mkCt par sd (map allow_vt cs) level).
Definition ct_from_bytes (expand : expander) (b : list Z) (par : params) : M ciphertext := m <- decoded (ct_decode b) ;; ct_from_wire expand m par.

(** secret_key.rs:145-175 *)
Definition sk_to_bytes (sk : secret_key) : list Z := put_fields (sk_fields (sk_to_proto sk)).
Definition sk_from_bytes (b : list Z) (par : params) : M secret_key := m <- decoded (sk_decode b) ;; sk_from_proto m par.

(** public_key.rs:108-151 *)
Definition pk_to_bytes (pk : public_key) : M (list Z) := w <- ct_to_wire (pk_c pk) ;; Val (put_fields (pk_fields (Some w))).
Definition pk_from_bytes (expand : expander) (b : list Z) (par : params) : M public_key :=
  m <- decoded (pk_decode b) ;;
  match m with
  | None => Err SerMissingField
  | Some m =>
      c <- ct_from_wire expand m par ;;
      if negb (Nat.eqb (ct_level c) 0) then Err (InvalidPublicKeyLevel (Z.of_nat (ct_level c)))
      else Val (mkPk par (map_polys disallow_vt c))
  end.

(** key_switching_key.rs:365-385 and 387-482, with the polynomials as byte strings *)
Definition ksk_to_wire (k : ksk) : M ksk_wire :=
  m <- ksk_to_proto k ;; Val (mkKw (map rq_encode (kp_c0 m)) (map rq_encode (kp_c1 m)) (kp_seed m) (kp_ct_level m) (kp_level m) (kp_log_base m)).
Definition ksk_from_wire (expand : expander) (derive : deriver) (m : ksk_wire) (par : params) : M ksk :=
  let ct_level := Z.to_nat (kw_ct_level m) in
  let level := Z.to_nat (kw_level m) in
  c <- par_context par level ;;
  cc <- par_context par ct_level ;;
  size <- (if negb (kw_log_base m =? 0) then
             if negb (Nat.eqb level (max_level par)) || negb (Nat.eqb ct_level (max_level par)) then Err InvalidKskDecompositionLevels
             else q <- unwrap (nth_error (pa_moduli par) 0) ;; lm <- log_modulus q ;; div_ceilM lm (kw_log_base m)
           else Val (len (c_moduli cc))) ;;
  if negb (len (kw_c0 m) =? size) then Err (WrongPolynomialCount size (len (kw_c0 m)))
  else
    sd <- (if Nat.eqb (length (kw_seed m)) 0 then
             if negb (len (kw_c1 m) =? size) then Err (WrongPolynomialCount size (len (kw_c1 m))) else Val None
           else if len (kw_seed m) =? 32 then Val (Some (kw_seed m)) else Err (InvalidKskSeedLength (len (kw_seed m)))) ;;
    c1 <- match sd with
          | Some s => generate_c1 expand derive c s (length (kw_c0 m))
          | None => mapM (fun b => poly_from_bytes NttShoup b c) (kw_c1 m)
          end ;;
    c0 <- mapM (fun b => poly_from_bytes NttShoup b c) (kw_c0 m) ;;
    Val (mkKsk par sd (map allow_vt c0) (map allow_vt c1) ct_level cc level c (kw_log_base m)).

(** relinearization_key.rs:113-158 *)
Definition relin_to_bytes (k : ksk) : M (list Z) := w <- ksk_to_wire k ;; Val (put_fields (relin_fields (Some w))).
Definition relin_from_bytes (expand : expander) (derive : deriver) (b : list Z) (par : params) : M ksk :=
  m <- decoded (relin_decode b) ;;
  match m with Some m => ksk_from_wire expand derive m par | None => Err SerMissingField end.

(** galois_key.rs:146-173; galois keys are only written as parts of evaluation keys. *)
Definition galois_to_wire (g : galois_key) : M galois_wire := w <- ksk_to_wire (g_ksk g) ;; Val (mkGw (Some w) (se_exponent (g_element g) mod W32)).
Definition galois_from_wire (expand : expander) (derive : deriver) (m : galois_wire) (par : params) : M galois_key :=
  match gw_ksk m with
  | None => Err SerMissingField
  | Some km =>
      k <- ksk_from_wire expand derive km par ;;
      c <- par_context par (k_ct_level k) ;;
      e <- subst_new c (gw_exponent m) ;;
      Val (mkGk e k)
  end.
(** evaluation_key.rs:293-310 with 494-550 *)
Definition ek_to_bytes (ek : eval_key) : M (list Z) :=
  gs <- mapM (fun eg => galois_to_wire (snd eg)) (ek_gk ek) ;;
  Val (put_fields (ek_fields (mkEw gs (Z.of_nat (ek_ct_level ek) mod W32) (Z.of_nat (ek_level ek) mod W32)))).
Definition ek_from_bytes (expand : expander) (derive : deriver) (b : list Z) (par : params) : M eval_key :=
  m <- decoded (ek_decode b) ;;
  gk <- foldM (fun acc gm =>
      g <- galois_from_wire expand derive gm par ;;
      let k := g_ksk g in
      if negb (Z.of_nat (k_ct_level k) =? ew_ct_level m) then Err (InvalidLevel (Z.of_nat (k_ct_level k)) (ew_ct_level m) (ew_ct_level m))
      else if negb (Z.of_nat (k_level k) =? ew_level m) then Err (InvalidLevel (Z.of_nat (k_level k)) (ew_level m) (ew_level m))
      else Val (insert acc (se_exponent (g_element g)) g)) (ew_gk m) [] ;;
  c <- par_context par (Z.to_nat (ew_ct_level m)) ;;
  ms <- expansion_monomials par c ;;
  rot <- rot_exponents par ;;
  Val (mkEk par (Z.to_nat (ew_ct_level m)) (Z.to_nat (ew_level m)) gk rot ms).

(** rgsw_ciphertext.rs:30-90 *)
Definition rgsw_to_bytes (r : rgsw) : M (list Z) := w0 <- ksk_to_wire (r_ksk0 r) ;; w1 <- ksk_to_wire (r_ksk1 r) ;; Val (put_fields (rgsw_fields (Some w0, Some w1))).
Definition rgsw_from_bytes (expand : expander) (derive : deriver) (b : list Z) (par : params) : M rgsw :=
  m <- decoded (rgsw_decode b) ;;
  m0 <- ok_or (fst m) SerMissingField ;;
  k0 <- ksk_from_wire expand derive m0 par ;;
  m1 <- ok_or (snd m) SerMissingField ;;
  k1 <- ksk_from_wire expand derive m1 par ;;
  if negb (Nat.eqb (k_level k0) (k_ct_level k0)) || negb (Nat.eqb (k_ct_level k0) (k_ct_level k1))
     || negb (Nat.eqb (k_ct_level k1) (k_level k1))
  then Err InconsistentKeySwitchingLevels
  else Val (mkRgsw k0 k1).

(** parameters.rs:741-789 *)
Definition params_to_bytes (p : params) : list Z := put_fields (params_fields (params_to_proto p)).
Definition params_from_bytes (isp : Z -> bool) (cands : Z -> list Z) (id : Z) (b : list Z) : M params := m <- decoded (params_decode b) ;; params_from_proto isp cands id m.
