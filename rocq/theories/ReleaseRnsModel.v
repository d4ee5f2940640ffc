(** The release build of crates/fhe-math/src/rns/mod.rs and rns/scaler.rs ([debug-assertions] and [overflow-checks] off, as in
    ReleaseModel.v).  [BigUint] arithmetic, [unwrap] and divisions are the same as in the debug build.

    [RnsScaler::scale] reads the tables of the scaler with [get_unchecked], and the lengths are compared by [debug_assert!] only.
    A read outside of a table is undefined behaviour in the release build; it is written [Panic] here, and no theorem says what
    happens after it. *)
From Verif Require Import Outcome ZqModel NttModel RnsModel ReleaseModel.

(** rns/mod.rs:90-101 and 52-116 [RnsContext::new]. *)
Definition rel_rns_entry (Q q : Z) : M (modulus * Z * Z * Z * Z) :=
  m <- modulus_new q ;;
  let q_star := Q / q in
  inv <- unwrap (mod_inverse (Q / q) q) ;;
  q_tilde <- to_u64 inv ;;
  let garner := q_star * q_tilde in
  sh <- rel_shoup m q_tilde ;;
  Val (m, q_tilde, sh, q_star, garner).
Definition rel_rns_new (qs : list Z) : M rns_ctx :=
  match qs with
  | [] => Err EmptyModuli
  | _ =>
      check_coprime qs ;;;
      let Q := product qs in
      es <- mapM (rel_rns_entry Q) qs ;;
      Val (mkRns qs
             (map (fun '(m, _, _, _, _) => m) es)
             (map (fun '(_, t, _, _, _) => t) es)
             (map (fun '(_, _, s, _, _) => s) es)
             (map (fun '(_, _, _, st, _) => st) es)
             (map (fun '(_, _, _, _, g) => g) es)
             Q)
  end.

(** scaler.rs:130-142.  [next_power_of_two] gives 0 when the power does not fit in 128 bits, and [ilog2] of 0 panics. *)
Definition rel_theta_shift1 (k q : Z) : M Z :=
  let x := w128 (q * k) in
  guard (Z.log2_up x <? 128) ;;;
  Val ((192 - 1 - Z.log2_up x) mod W32).
Definition rel_theta_shift (qs : list Z) : M Z :=
  ss <- mapM (rel_theta_shift1 (Z.of_nat (length qs))) qs ;;
  match ss with [] => Panic | s :: t => Val (Z.min (fold_left Z.min t s) 127) end.
(** scaler.rs:79-175 [RnsScaler::new]; [extract] (scaler.rs:183-229) computes with [BigUint] only. *)
Definition rel_scaler_new (from to : rns_ctx) (f : factor) : M rns_scaler :=
  guard (negb (f_den f =? 0)) ;;;
  '(gamma, tg, tgs) <- extract to (rns_product from) (f_num f) (f_den f) false ;;
  gamma_shoup <- map2M (fun wi m => rel_shoup m wi) gamma (rns_moduli to) ;;
  es <- mapM (fun g => extract to g (f_num f) (f_den f) true) (rns_garner from) ;;
  omega <- mapM (fun j =>
      mapM (fun e : list Z * Z * bool => let '(pr, _, _) := e in
              m <- get (rns_moduli to) j ;; x <- get pr j ;; Val (rel_reduce m x)) es)
      (seq 0 (length (rns_moduli to))) ;;
  omega_shoup <- map2M (fun m row => mapM (rel_shoup m) row) (rns_moduli to) omega ;;
  sh <- rel_theta_shift (rns_u64 from) ;;
  tgar <- mapM (fun g =>
      guard (negb (rns_product from =? 0)) ;;;
      chk 0 W128 ((Z.shiftl g sh + Z.shiftr (rns_product from) 1) / rns_product from)) (rns_garner from) ;;
  Val (mkScaler from to f gamma gamma_shoup tg tgs omega omega_shoup
         (map (fun '(_, t, _) => t) es) (map (fun '(_, _, s) => s) es) tgar sh).

(** scaler.rs:260-272.  What ethnum does with shifts of 256 bits and more is not modelled: they are written [Panic], and no
    scaler made by [rel_scaler_new] has one. *)
Definition rel_scale_v (s : rns_scaler) (rests : list Z) : M Z :=
  let sum := wsum (sc_theta_garner s) rests 0 in
  let e := w64 (sc_shift s - 1) in
  guard (e <? 256) ;;;
  Val (div_ceil2 (Z.shiftr sum e mod W128)).
(** scaler.rs:276-314. *)
Definition rel_scale_w (s : rns_scaler) (rests : list Z) (v : Z) : bool * Z :=
  if f_one (sc_factor s) then (false, 0)
  else
    let sum := wsum_signed (sc_theta_omega s) (sc_theta_omega_sign s) rests 0 in
    let vt := (v * sc_theta_gamma s) mod W256 in
    let sum := (if sc_theta_gamma_sign s then sum + vt else sum - vt) mod W256 in
    if 0 <? Z.shiftr sum (63 + 128)
    then (true, w128 (Z.shiftr (W256 - 1 - sum) 126 mod W128 + 1) / 2)
    else (false, div_ceil2 (Z.shiftr sum 126 mod W128)).
(** scaler.rs:316-349: [get_unchecked] of the rows, then of their elements. *)
Fixpoint rel_dot_lazy (m : modulus) (rests omega omega_shoup : list Z) (acc : Z) : M Z :=
  match rests with
  | [] => Val acc
  | r :: rests' =>
      match omega, omega_shoup with
      | o :: os, osh :: oshs => rel_dot_lazy m rests' os oshs (w128 (acc + rel_lazy_mul_shoup m r o osh))
      | _, _ => Panic
      end
  end.
Definition rel_scale_one (s : rns_scaler) (rests : list Z) (v : Z) (w_sign : bool) (w : Z) (i : nat) : M Z :=
  q <- get (rns_moduli (sc_to s)) i ;;
  omega <- get (sc_omega s) i ;; omega_shoup <- get (sc_omega_shoup s) i ;;
  gamma <- get (sc_gamma s) i ;; gamma_shoup <- get (sc_gamma_shoup s) i ;;
  let p2 := w64 (mod_p q * 2) in
  let y := w64 (p2 - rel_lazy_mul_shoup q (rel_reduce_u128 q v) gamma gamma_shoup) in
  let y := if f_one (sc_factor s) then y
           else let wi := rel_lazy_reduce_u128 q w in w128 (y + (if w_sign then w64 (p2 - wi) else wi)) in
  y <- rel_dot_lazy q rests omega omega_shoup y ;;
  Val (rel_reduce_u128 q y).
(** scaler.rs:249-352 [scale] with an output of length [len] placed at [start]; scaler.rs:237-241 [scale_new]. *)
Definition rel_scale (s : rns_scaler) (rests : list Z) (start len : nat) : M (list Z) :=
  v <- rel_scale_v s rests ;;
  let '(w_sign, w) := rel_scale_w s rests v in
  mapM (fun i => rel_scale_one s rests v w_sign w (start + i)) (seq 0 len).
Definition rel_scale_new (s : rns_scaler) (rests : list Z) (size : nat) : M (list Z) := rel_scale s rests 0 size.
