(** Model of crates/fhe-math/src/rns/mod.rs and rns/scaler.rs.
    [BigUint] values are integers; [num_bigint_dig]'s extended gcd and modular inverse are modelled by
    [Z.gcd] and by the extended Euclidean algorithm [mod_inverse]. *)
From Verif Require Import Outcome ZqModel NttModel.

(** [BigUint::to_u64().unwrap()] *)
Definition to_u64 (x : Z) : M Z := chk 0 W64 x.

(** [ModInverse::mod_inverse]: r0 = s0*a and r1 = s1*a modulo p; halts when r1 = 0. *)
Fixpoint egcd (fuel : nat) (r0 s0 r1 s1 : Z) : Z * Z :=
  match fuel with
  | O => (r0, s0)
  | S f => if r1 =? 0 then (r0, s0) else egcd f r1 s1 (r0 mod r1) (s0 - r0 / r1 * s1)
  end.
Definition mod_inverse (a p : Z) : option Z :=
  let '(g, s) := egcd (Z.to_nat (2 * Z.log2 p + 3)) p 0 (a mod p) 1 in
  if g =? 1 then Some (s mod p) else None.

(** rns/mod.rs:24-32 [struct RnsContext]. *)
Record rns_ctx := mkRns {
  rns_u64 : list Z;
  rns_moduli : list modulus;
  rns_q_tilde : list Z;
  rns_q_tilde_shoup : list Z;
  rns_q_star : list Z;
  rns_garner : list Z;
  rns_product : Z
}.

Definition product (l : list Z) : Z := fold_left Z.mul l 1.

(** rns/mod.rs:59-76: the double loop; [ixs] are the indices already paired with their values. *)
Fixpoint check_pairs (left : nat * Z) (js : list (nat * Z)) : M unit :=
  match js with
  | [] => Val tt
  | (j, qj) :: rest =>
      if negb (Nat.eqb (fst left) j) && negb (Z.gcd (snd left) qj =? 1)
      then Err (NonCoprimeModuli (snd left) qj)
      else check_pairs left rest
  end.
Definition check_coprime (qs : list Z) : M unit :=
  let ix := combine (seq 0 (length qs)) qs in
  foldM (fun _ iq => check_pairs iq ix) ix tt.

(** rns/mod.rs:90-101: the fields computed for one modulus. *)
Definition rns_entry (Q q : Z) : M (modulus * Z * Z * Z * Z) :=
  m <- modulus_new q ;;
  let q_star := Q / q in
  inv <- unwrap (mod_inverse (Q / q) q) ;;
  q_tilde <- to_u64 inv ;;
  let garner := q_star * q_tilde in
  sh <- shoup m q_tilde ;;
  Val (m, q_tilde, sh, q_star, garner).

(** rns/mod.rs:52-116 [RnsContext::new]. *)
Definition rns_new (qs : list Z) : M rns_ctx :=
  match qs with
  | [] => Err EmptyModuli
  | _ =>
      check_coprime qs ;;;
      let Q := product qs in
      es <- mapM (rns_entry Q) qs ;;
      Val (mkRns qs
             (map (fun '(m, _, _, _, _) => m) es)
             (map (fun '(_, t, _, _, _) => t) es)
             (map (fun '(_, _, s, _, _) => s) es)
             (map (fun '(_, _, _, st, _) => st) es)
             (map (fun '(_, _, _, _, g) => g) es)
             Q)
  end.

(** rns/mod.rs:126-131 [project]. *)
Definition project (c : rns_ctx) (a : Z) : M (list Z) := mapM (fun q => guard (negb (q =? 0)) ;;; to_u64 (a mod q)) (rns_u64 c).

(** rns/mod.rs:138-143 [lift]: [izip!] stops at the shorter list. *)
Fixpoint inner (l l' : list Z) : Z :=
  match l, l' with a :: t, b :: t' => a * b + inner t t' | _, _ => 0 end.
Definition lift (c : rns_ctx) (rests : list Z) : M Z :=
  guard (negb (rns_product c =? 0)) ;;; Val (inner rests (rns_garner c) mod rns_product c).

(** rns/mod.rs:147-149 [get_garner]. *)
Definition get_garner (c : rns_ctx) (i : nat) : option Z := nth_error (rns_garner c) i.

(** ** rns/scaler.rs *)
(** scaler.rs:20-47 [ScalingFactor]. *)
Record factor := mkFactor { f_num : Z; f_den : Z; f_one : bool }.
Definition factor_new (num den : Z) : M factor :=
  guard (negb (den =? 0)) ;;; Val (mkFactor num den (num =? den)).
Definition factor_one : factor := mkFactor 1 1 true.

(** scaler.rs:52-72 [struct RnsScaler]; the (lo, hi) word pairs of the thetas are kept as one number. *)
Record rns_scaler := mkScaler {
  sc_from : rns_ctx;
  sc_to : rns_ctx;
  sc_factor : factor;
  sc_gamma : list Z;
  sc_gamma_shoup : list Z;
  sc_theta_gamma : Z;
  sc_theta_gamma_sign : bool;
  sc_omega : list (list Z);
  sc_omega_shoup : list (list Z);
  sc_theta_omega : list Z;
  sc_theta_omega_sign : list bool;
  sc_theta_garner : list Z;
  sc_shift : Z
}.

(** scaler.rs:183-229 [extract_projection_and_theta]; splitting theta in two u64 words panics when it
    does not fit in 128 bits. *)
Definition extract (to : rns_ctx) (input num den : Z) (round_up : bool) : M (list Z * Z * bool) :=
  let gamma := (num * input + Z.shiftr den 1) / den in
  projected <- project to gamma ;;
  let theta := (num * input) mod den in
  let '(theta, sign) :=
    if 1 <? den then
      if Z.odd den then
        if Z.shiftr den 1 <? theta then (den - theta, true) else (theta, false)
      else
        if Z.shiftr den 1 <=? theta then (den - theta, true) else (theta, false)
    else (theta, false) in
  let theta :=
    if round_up then
      if sign then Z.shiftl theta 127 / den else (Z.shiftl theta 127 + den - 1) / den
    else
      if sign then (Z.shiftl theta 127 + den - 1) / den else Z.shiftl theta 127 / den in
  theta <- chk 0 W128 theta ;;
  Val (projected, theta, sign).

(** scaler.rs:130-142: the shift for the garner thetas. *)
Definition theta_shift1 (k q : Z) : M Z :=
  x <- chk128 (q * k) ;;
  chk 0 W32 (192 - 1 - Z.log2_up x).
Definition theta_shift (qs : list Z) : M Z :=
  ss <- mapM (theta_shift1 (Z.of_nat (length qs))) qs ;;
  match ss with [] => Panic | s :: t => Val (Z.min (fold_left Z.min t s) 127) end.

(** scaler.rs:79-175 [RnsScaler::new]. *)
Definition scaler_new (from to : rns_ctx) (f : factor) : M rns_scaler :=
  guard (negb (f_den f =? 0)) ;;;
  '(gamma, tg, tgs) <- extract to (rns_product from) (f_num f) (f_den f) false ;;
  gamma_shoup <- map2M (fun wi m => shoup m wi) gamma (rns_moduli to) ;;
  es <- mapM (fun g => extract to g (f_num f) (f_den f) true) (rns_garner from) ;;
  omega <- mapM (fun j =>
      mapM (fun e : list Z * Z * bool => let '(pr, _, _) := e in
              m <- get (rns_moduli to) j ;; x <- get pr j ;; reduce m x) es)
      (seq 0 (length (rns_moduli to))) ;;
  omega_shoup <- map2M (fun m row => mapM (shoup m) row) (rns_moduli to) omega ;;
  sh <- theta_shift (rns_u64 from) ;;
  tgar <- mapM (fun g =>
      guard (negb (rns_product from =? 0)) ;;;
      chk 0 W128 ((Z.shiftl g sh + Z.shiftr (rns_product from) 1) / rns_product from)) (rns_garner from) ;;
  Val (mkScaler from to f gamma gamma_shoup tg tgs omega omega_shoup
         (map (fun '(_, t, _) => t) es) (map (fun '(_, _, s) => s) es) tgar sh).

(** scaler.rs:260-272: the sum over the garner thetas, wrapping modulo 2^256, and the rounded quotient
    [v]; the U256 product of a u64 and a u128 cannot overflow. *)
Fixpoint wsum (ts rs : list Z) (acc : Z) : Z :=
  match ts, rs with t :: ts', r :: rs' => wsum ts' rs' ((acc + r * t) mod W256) | _, _ => acc end.
Definition div_ceil2 (x : Z) : Z := (x + 1) / 2.
Definition scale_v (s : rns_scaler) (rests : list Z) : M Z :=
  let sum := wsum (sc_theta_garner s) rests 0 in
  e <- chk64 (sc_shift s - 1) ;;
  Val (div_ceil2 (Z.shiftr sum e mod W128)).

(** scaler.rs:276-314: the signed correction [w]. *)
Fixpoint wsum_signed (ts : list Z) (ss : list bool) (rs : list Z) (acc : Z) : Z :=
  match ts, ss, rs with
  | t :: ts', s :: ss', r :: rs' => wsum_signed ts' ss' rs' ((if s then acc - r * t else acc + r * t) mod W256)
  | _, _, _ => acc
  end.
Definition scale_w (s : rns_scaler) (rests : list Z) (v : Z) : M (bool * Z) :=
  if f_one (sc_factor s) then Val (false, 0)
  else
    let sum := wsum_signed (sc_theta_omega s) (sc_theta_omega_sign s) rests 0 in
    vt <- chk256 (v * sc_theta_gamma s) ;;
    let sum := (if sc_theta_gamma_sign s then sum + vt else sum - vt) mod W256 in
    let w_sign := 0 <? Z.shiftr sum (63 + 128) in
    if w_sign then
      x <- chk128 (Z.shiftr (W256 - 1 - sum) 126 mod W128 + 1) ;;
      Val (true, x / 2)
    else Val (false, div_ceil2 (Z.shiftr sum 126 mod W128)).

(** scaler.rs:323-349: one output residue. *)
Fixpoint dot_lazy (m : modulus) (rests omega omega_shoup : list Z) (acc : Z) : M Z :=
  match rests with
  | [] => Val acc
  | r :: rests' =>
      match omega, omega_shoup with
      | o :: os, osh :: oshs =>
          t <- lazy_mul_shoup m r o osh ;; acc <- chk128 (acc + t) ;; dot_lazy m rests' os oshs acc
      | _, _ => Panic
      end
  end.
Definition scale_one (s : rns_scaler) (rests : list Z) (v : Z) (w_sign : bool) (w : Z) (i : nat) : M Z :=
  q <- get (rns_moduli (sc_to s)) i ;;
  omega <- get (sc_omega s) i ;; omega_shoup <- get (sc_omega_shoup s) i ;;
  gamma <- get (sc_gamma s) i ;; gamma_shoup <- get (sc_gamma_shoup s) i ;;
  p2 <- chk64 (mod_p q * 2) ;;
  vr <- reduce_u128 q v ;;
  t <- lazy_mul_shoup q vr gamma gamma_shoup ;;
  y <- chk64 (p2 - t) ;;
  y <- (if f_one (sc_factor s) then Val y
        else
          wi <- lazy_reduce_u128 q w ;;
          if w_sign then d <- chk64 (p2 - wi) ;; chk128 (y + d) else chk128 (y + wi)) ;;
  y <- dot_lazy q rests omega omega_shoup y ;;
  reduce_u128 q y.

(** scaler.rs:249-352 [scale] with an output of length [len] placed at [start]. *)
Definition scale (s : rns_scaler) (rests : list Z) (start len : nat) : M (list Z) :=
  guard (Nat.eqb (length rests) (length (rns_u64 (sc_from s)))) ;;;
  guard (negb (Nat.eqb len 0)) ;;;
  guard (Nat.leb (start + len) (length (rns_u64 (sc_to s)))) ;;;
  v <- scale_v s rests ;;
  '(w_sign, w) <- scale_w s rests v ;;
  mapM (fun i => scale_one s rests v w_sign w (start + i)) (seq 0 len).

(** scaler.rs:237-241 [scale_new]. *)
Definition scale_new (s : rns_scaler) (rests : list Z) (size : nat) : M (list Z) := scale s rests 0 size.
