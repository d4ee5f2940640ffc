(** Model of crates/fhe/examples/voting.rs: a vote among [parties] who share the decryption key.  The generator is modelled by one
    stream for each use; printing and the parsing of the arguments are left out. *)
From Verif Require Import Outcome BasicSpec NttModel CbdModel TranscodeModel RqModel ParamsModel PlainModel CipherModel OpsModel MbfvModel.

(** voting.rs:110-113 [struct Party], and the streams of a party for its secret key, its share of the public key and its share of
    the decryption. *)
Record party := mkParty { y_sk : nat -> Z; y_pk : nat -> Z; y_dec : nat -> Z }.
(** voting.rs:128-138: a vote, and the streams of its encryption. *)
Record ballot := mkBallot { b_vote : Z; b_u : nat -> Z; b_e1 : nat -> Z; b_e2 : nat -> Z }.

(** util.rs:19-34 [timeit_n!] with [n as u32] loops: the code runs once and then for the range [1..n]; the mean duration is a
    division by [n]. *)
Definition rounds (n : Z) : M nat :=
  let k := n mod 2 ^ 32 in
  if k =? 0 then Panic else Val (Z.to_nat k).

(** voting.rs:48-50 and 96-104. *)
Definition voting_moduli : list Z := [0xffffee001; 0xffffc4001; 0x1ffffe0001].
Definition voting_params (isp : Z -> bool) (cands : Z -> list Z) (id : Z) : M params :=
  build isp cands id (mkBuilder 4096 4096 10 voting_moduli []).
(** voting.rs:114-119: the keys and the shares of the parties. *)
Definition voting_setup (par : params) (crp : poly Ntt) (ys : list party) : M (list (secret_key * pk_share)) :=
  mapM (fun y => sk <- sk_random par (y_sk y) ;; sh <- pk_share_new sk crp (y_pk y) ;; Val (sk, sh)) ys.
(** voting.rs:131-138: the encryption of the votes. *)
Definition voting_cast (par : params) (pk : public_key) (bs : list ballot) : M (list ciphertext) :=
  mapM (fun b => pt <- encode_u64 false [b_vote b] (mkEnc EncPoly 0) par ;; pk_encrypt pk pt (b_u b) (b_e1 b) (b_e2 b)) bs.
(** voting.rs:142-148: the tally. *)
Definition voting_tally (par : params) (cts : list ciphertext) : M ciphertext := foldM ct_add cts (ct_zero par).
(** voting.rs:48-50 and 95-178 [main]: the printed result, once the final assertion holds (lines 86-88 exit when there is no party or no voter).  [rows] are the coefficients drawn for the
    common random polynomial (line 106). *)
Definition voting (isp : Z -> bool) (cands : Z -> list Z) (id : Z) (rows : list (list Z)) (parties : list party) (ballots : list ballot) : M Z :=
  par <- voting_params isp cands id ;;
  crp <- crp_new par rows ;;
  np <- rounds (len parties) ;;
  let ys := firstn np parties in
  setup <- voting_setup par crp ys ;;
  pk <- pk_from_shares (map snd setup) ;;
  nv <- rounds (len ballots) ;;
  cts <- voting_cast par pk (firstn nv ballots) ;;
  tally <- voting_tally par cts ;;
  shares <- mapM (fun p => dec_share_new (fst p) tally (y_dec (snd p))) (combine (map fst setup) ys) ;;
  pt <- dec_from_shares shares ;;
  v <- decode_u64 pt (Some (mkEnc EncPoly 0)) ;;
  r <- get v 0 ;;
  expected <- foldM (fun s b => chk64 (s + b_vote b)) ballots 0 ;;
  guard (r =? expected) ;;; Val r.
