(** Model of crates/fhe-math/src/ntt/tfhe.rs: the transform operator of the optional feature [tfhe-ntt].
    The plans of the crate [tfhe-ntt] are external; a plan is given by its functions. *)
From Verif Require Import Outcome ZqModel NttModel.

(** tfhe_ntt::prime64::Plan: the three functions that tfhe.rs calls, each on a vector of the size of the plan. *)
Record plan := mkPlan {
  pl_fwd : list Z -> M (list Z);
  pl_inv : list Z -> M (list Z);
  pl_normalize : list Z -> M (list Z)
}.

(** tfhe.rs:9-12 [struct NttOperator]. *)
Record tfhe_op := mkTfhe { tf_plan : option plan; tf_native : ntt_op }.

(** tfhe.rs:41-48 [NttOperator::new]; [plan_new] is [Plan::try_new]. *)
Definition tfhe_new (isp : Z -> bool) (plan_new : nat -> Z -> option plan) (cands : list Z) (m : modulus) (size : nat) : M (option tfhe_op) :=
  native <- ntt_new isp cands m size ;;
  match native with
  | None => Val None
  | Some op => Val (Some (mkTfhe (plan_new size (mod_p m)) op))
  end.

(** tfhe.rs:52-58 [forward]. *)
Definition tfhe_forward (t : tfhe_op) (a : list Z) : M (list Z) :=
  match tf_plan t with Some pl => pl_fwd pl a | None => ntt_forward (tf_native t) a end.

(** tfhe.rs:62-69 [backward]. *)
Definition tfhe_backward (t : tfhe_op) (a : list Z) : M (list Z) :=
  match tf_plan t with
  | Some pl => b <- pl_inv pl a ;; pl_normalize pl b
  | None => ntt_backward (tf_native t) a
  end.

(** tfhe.rs:79-88 [forward_vt_lazy].  The slice made from the pointer has the size of the plan, which is the size
    given to [new]; the model takes the vector. *)
Definition tfhe_forward_vt_lazy (t : tfhe_op) (a : list Z) : M (list Z) :=
  match tf_plan t with Some pl => pl_fwd pl a | None => ntt_forward_vt_lazy (tf_native t) a end.

(** tfhe.rs:96-105 [forward_vt]. *)
Definition tfhe_forward_vt (t : tfhe_op) (a : list Z) : M (list Z) :=
  match tf_plan t with Some pl => pl_fwd pl a | None => ntt_forward_vt (tf_native t) a end.

(** tfhe.rs:113-123 [backward_vt]. *)
Definition tfhe_backward_vt (t : tfhe_op) (a : list Z) : M (list Z) :=
  match tf_plan t with
  | Some pl => b <- pl_inv pl a ;; pl_normalize pl b
  | None => ntt_backward_vt (tf_native t) a
  end.
