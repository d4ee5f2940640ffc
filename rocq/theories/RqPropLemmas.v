(** The statements of PropsRq.v, assembled. *)
From Verif Require Import Outcome BasicSpec OutcomeLemmas ZqModel ZqProofs ZqPow NumTheory TranscodeModel TranscodeProofs CbdModel CbdSpec CbdProofs NttModel PolySpec PolyRing NttPure NttStages NttProofs.
From Verif Require Import RnsModel RnsSpec RnsProofs RnsScalerProofs RnsPropLemmas RqModel RqSpec RqCtx RqRows RqProofs RingRn RqOps RqIO.
From Coq Require Import Znumtheory.

Lemma ctx_of isp cands c : oracles isp cands -> is_context isp cands c -> good_ctx c /\ ctx_ok c.
Proof. intros (H1 & H2) H. pose proof (built_good isp H1 cands H2 c H) as G. split; [exact G|apply good_ok, G]. Qed.
Ltac use_ctx c := intros isp cands Ho c Hcx; destruct (ctx_of isp cands c Ho Hcx) as (Hg & Hc).

Lemma rep_eq {R} (p : poly R) c x : p_ctx p = c -> represents p x -> length x = c_degree c /\ p = poly_of R c (p_vt p) x.
Proof. intros <- H. exact H. Qed.
Ltac use_rep H := let L := fresh "L" in let E := fresh "E" in apply rep_eq in H; [destruct H as (L & E)|assumption].
Lemma returns_val {R} m c v x : ctx_ok c -> length x = c_degree c -> m = Val (poly_of R c v x) -> returns m c x.
Proof. intros Hc Hx ->. eexists. split; [reflexivity|]. split; [reflexivity|]. split; [split; [exact Hx|reflexivity]|apply (poly_of_wf c Hc), Hx]. Qed.

(** C20 *)
Lemma representation_all : forall isp cands, oracles isp cands -> forall c, is_context isp cands c ->
  forall R (p : poly R), p_ctx p = c ->
  (well_formed p <-> exists x, represents p x) /\
  (forall x, represents p x -> forall y, represents p y <-> congruent (modulus_of c) x y).
Proof.
  use_ctx c. intros R p Ep. split; [split|].
  - intros Hw. destruct (wf_exists c Hc p Ep Hw) as (x & Hx & _ & E). exists x. split; rewrite Ep; assumption.
  - intros (x & Hx). apply rep_eq with (c := c) in Hx; [|exact Ep]. destruct Hx as (L & ->). apply (poly_of_wf c Hc), L.
  - intros x Hx y. apply rep_eq with (c := c) in Hx; [|exact Ep]. destruct Hx as (L & E). split.
    + intros Hy. apply rep_eq with (c := c) in Hy; [|exact Ep]. destruct Hy as (L' & E'). assert (E2 : poly_of R c (p_vt p) x = poly_of R c (p_vt p) y) by congruence. apply (poly_of_eq c Hc) in E2; [|assumption..]. apply E2.
    + intros H. pose proof (Forall2_length_eq _ _ _ H) as Hl. split; [rewrite Ep; congruence|]. rewrite Ep, E at 1. apply (poly_of_eq c Hc); [congruence..|]. split; [reflexivity|exact H].
Qed.
Lemma arithmetic_all : forall isp cands, oracles isp cands -> forall c, is_context isp cands c ->
  forall R (p q : poly R) x y, R <> NttShoup -> p_ctx p = c -> p_ctx q = c -> represents p x -> represents q y ->
  returns (poly_add p q) c (zipWith Z.add x y) /\
  returns (poly_sub p q) c (zipWith Z.sub x y) /\
  returns (poly_neg p) c (map Z.opp x) /\
  (forall k, returns (poly_scalar_mul p k) c (map (Z.mul k) x)).
Proof.
  use_ctx c. intros R p q x y HR Ep Eq Hp Hq. apply rep_eq with (c := c) in Hp; [|exact Ep]. apply rep_eq with (c := c) in Hq; [|exact Eq].
  destruct Hp as (Lx & ->). destruct Hq as (Ly & ->). split; [|split; [|split]].
  - eapply returns_val; [exact Hc|apply (ladd_length x y); assumption|]. apply (add_eq c Hc); assumption.
  - eapply returns_val; [exact Hc|apply (lsub_length x y); assumption|]. apply (sub_eq c Hc); assumption.
  - eapply returns_val; [exact Hc|rewrite map_length; assumption|]. apply (neg_eq c Hc); assumption.
  - intros k. eapply returns_val; [exact Hc|rewrite map_length; assumption|]. apply (scalar_mul_eq c Hc); assumption.
Qed.
Lemma negacyclic_length n a b : length (negacyclic n a b) = n.
Proof. unfold negacyclic. rewrite map_length, seq_length. reflexivity. Qed.
Lemma product_all : forall isp cands, oracles isp cands -> forall c, is_context isp cands c ->
  forall (p q : poly Ntt) (s : poly NttShoup) x y z, p_ctx p = c -> p_ctx q = c -> p_ctx s = c -> represents p x -> represents q y -> represents s z ->
  returns (poly_mul p q) c (negacyclic (c_degree c) x y) /\
  returns (poly_mul_shoup p s) c (negacyclic (c_degree c) x z).
Proof.
  use_ctx c. intros p q s x y z Ep Eq Es Hp Hq Hs. apply rep_eq with (c := c) in Hp; [|exact Ep]. apply rep_eq with (c := c) in Hq; [|exact Eq]. apply rep_eq with (c := c) in Hs; [|exact Es].
  destruct Hp as (Lx & ->). destruct Hq as (Ly & ->). destruct Hs as (Lz & ->). split.
  - eapply returns_val; [exact Hc|apply negacyclic_length|]. rewrite <- nmul_negacyclic by assumption. apply (mul_eq c Hc); assumption.
  - eapply returns_val; [exact Hc|apply negacyclic_length|]. rewrite <- nmul_negacyclic by assumption. apply (mul_shoup_eq c Hc); assumption.
Qed.
Lemma mismatch_all : forall R (p q : poly R), ~ (c_moduli (p_ctx p) = c_moduli (p_ctx q) /\ c_degree (p_ctx p) = c_degree (p_ctx q)) ->
  poly_add p q = Panic /\ poly_sub p q = Panic.
Proof.
  intros R p q H. assert (E : ctx_eqb (p_ctx p) (p_ctx q) = false) by (destruct (ctx_eqb (p_ctx p) (p_ctx q)) eqn:E; [apply ctx_eqb_true in E; contradiction|reflexivity]).
  unfold poly_add, poly_sub, poly_op2. rewrite E. destruct (negb (p_lazy p) && negb (p_lazy q)); split; reflexivity.
Qed.
Lemma mul_mismatch_all : forall (p q : poly Ntt) (s : poly NttShoup),
  (~ (c_moduli (p_ctx p) = c_moduli (p_ctx q) /\ c_degree (p_ctx p) = c_degree (p_ctx q)) -> poly_mul p q = Panic) /\
  (~ (c_moduli (p_ctx p) = c_moduli (p_ctx s) /\ c_degree (p_ctx p) = c_degree (p_ctx s)) -> poly_mul_shoup p s = Panic).
Proof.
  intros p q s. split; intros H.
  - assert (E : ctx_eqb (p_ctx p) (p_ctx q) = false) by (destruct (ctx_eqb (p_ctx p) (p_ctx q)) eqn:E; [apply ctx_eqb_true in E; contradiction|reflexivity]).
    unfold poly_mul, poly_op2. rewrite E. destruct (negb (p_lazy p) && negb (p_lazy q)); reflexivity.
  - assert (E : ctx_eqb (p_ctx p) (p_ctx s) = false) by (destruct (ctx_eqb (p_ctx p) (p_ctx s)) eqn:E; [apply ctx_eqb_true in E; contradiction|reflexivity]).
    unfold poly_mul_shoup. rewrite E. destruct (negb (p_lazy s)); reflexivity.
Qed.

(** C21 *)
Lemma conversions_all : forall isp cands, oracles isp cands -> forall c, is_context isp cands c ->
  forall (a : poly PowerBasis) (b : poly Ntt) (s : poly NttShoup) x, p_ctx a = c -> p_ctx b = c -> p_ctx s = c ->
  p_vt a = p_vt b -> p_vt a = p_vt s -> represents a x -> represents b x -> represents s x ->
  pb_into_ntt a = Val b /\ pb_into_ntt_shoup a = Val s /\
  ntt_into_pb b = Val a /\ ntt_into_shoup b = Val s /\
  shoup_into_ntt s = Val b /\ shoup_into_pb s = Val a.
Proof.
  use_ctx c. intros a b s x Ea Eb Es V1 V2 Ha Hb Hs. apply rep_eq with (c := c) in Ha; [|exact Ea]. apply rep_eq with (c := c) in Hb; [|exact Eb]. apply rep_eq with (c := c) in Hs; [|exact Es].
  destruct Ha as (L & Ha). destruct Hb as (_ & Hb). destruct Hs as (_ & Hs). rewrite <- V1 in Hb. rewrite <- V2 in Hs. rewrite Ha, Hb, Hs. cbn [p_vt poly_of].
  split; [apply (pb_ntt_eq c Hc), L|]. split; [apply (pb_shoup_eq c Hc), L|]. split; [apply (ntt_pb_eq c Hc), L|]. split; [apply (ntt_shoup_eq c Hc), L|].
  split; [reflexivity|apply (shoup_pb_eq c Hc), L].
Qed.
Lemma triple_all : forall isp cands, oracles isp cands -> forall c, is_context isp cands c ->
  forall R (p : poly R), p_ctx p = c -> well_formed p ->
  exists (a : poly PowerBasis) (b : poly Ntt) (s : poly NttShoup) x, p_ctx a = c /\ p_ctx b = c /\ p_ctx s = c /\
    p_vt a = p_vt p /\ p_vt b = p_vt p /\ p_vt s = p_vt p /\ represents a x /\ represents b x /\ represents s x /\
    represents p x /\ match R return poly R -> Prop with PowerBasis => fun p => p = a | Ntt => fun p => p = b | NttShoup => fun p => p = s end p.
Proof.
  use_ctx c. intros R p Ep Hw. destruct (wf_exists c Hc p Ep Hw) as (x & Hx & _ & E).
  exists (poly_of PowerBasis c (p_vt p) x), (poly_of Ntt c (p_vt p) x), (poly_of NttShoup c (p_vt p) x), x.
  do 6 (split; [reflexivity|]). do 3 (split; [split; [exact Hx|reflexivity]|]). split; [split; rewrite Ep; assumption|]. destruct R; exact E.
Qed.

(** C22 *)
Lemma subst_new_all : forall isp cands, oracles isp cands -> forall c, is_context isp cands c -> Z.of_nat (c_degree c) <= 2 ^ 31 ->
  forall e, 0 <= e ->
  (Z.odd e = true <-> exists i, subst_new c e = Val i) /\
  (forall i, subst_new c e = Val i -> se_exponent i = e mod (2 * Z.of_nat (c_degree c))) /\
  (Z.odd e = false -> subst_new c e = Err (InvalidSubstitutionExponent (e mod (2 * Z.of_nat (c_degree c))) (Z.of_nat (c_degree c)))).
Proof.
  use_ctx c. intros HN e He. destruct (Z.odd e) eqn:Eo.
  - destruct (subst_new_ok c e Hc HN He Eo) as (i & E & _ & Hi). split; [|split; [|discriminate]].
    + split; [intros _; eauto|reflexivity].
    + intros i' E'. assert (i' = i) by congruence. subst i'. apply (so_exp _ _ _ Hi).
  - rewrite (subst_new_even c e Hc He Eo). split; [|split; [discriminate|reflexivity]]. split; [discriminate|intros (i & Hi); discriminate].
Qed.
Lemma odd_nat e : 0 <= e -> Z.odd e = true -> Nat.odd (Z.to_nat e) = true.
Proof. intros H Ho. rewrite <- (Z2Nat.id e) in Ho by lia. apply Z.odd_spec in Ho. destruct Ho as (h & Hh). apply Nat.odd_spec. exists (Z.to_nat h). lia. Qed.
Lemma odd_mod e n : 0 < n -> Z.odd (e mod (2 * n)) = Z.odd e.
Proof. intros H. rewrite (Z.div_mod e (2 * n)) at 2 by lia. replace (2 * n * (e / (2 * n)) + e mod (2 * n)) with (e mod (2 * n) + 2 * (n * (e / (2 * n)))) by ring. rewrite Z.odd_add_mul_2. reflexivity. Qed.
Lemma Z2N_mod e n : 0 <= e -> (0 < n)%nat -> Z.to_nat (e mod (2 * Z.of_nat n)) = (Z.to_nat e mod (2 * n))%nat.
Proof. intros He Hn. rewrite Z2Nat.inj_mod by lia. f_equal. lia. Qed.
Lemma automorphism_raut n e (x : Rn n) : (0 < n)%nat -> 0 <= e -> automorphism n e (rl x) = rl (raut (Z.to_nat e) x).
Proof. intros Hn He. rewrite raut_spec by exact Hn. rewrite Z2Nat.id by exact He. reflexivity. Qed.
Lemma substitute_all : forall isp cands, oracles isp cands -> forall c, is_context isp cands c -> Z.of_nat (c_degree c) <= 2 ^ 31 ->
  forall e i, 0 <= e -> subst_new c e = Val i ->
  forall R (p : poly R) x, p_ctx p = c -> represents p x -> returns (substitute p i) c (automorphism (c_degree c) e x).
Proof.
  use_ctx c. intros HN e i He Ei R p x Ep Hp. apply rep_eq with (c := c) in Hp; [|exact Ep]. destruct Hp as (Lx & ->). pose proof (N_ge8 c Hc).
  destruct (Z.odd e) eqn:Eo; [|rewrite (subst_new_even c e Hc He Eo) in Ei; discriminate].
  destruct (subst_new_ok c e Hc HN He Eo) as (i' & E & _ & Hi). assert (i' = i) by congruence. subst i'.
  pose proof (substitute_eq c Hc R (p_vt p) _ i (mkR x Lx) Hi HN) as ES. cbn [rl mkR proj1_sig] in ES.
  eapply returns_val; [exact Hc| |].
  - unfold automorphism. rewrite map_length, seq_length. reflexivity.
  - change x with (rl (mkR x Lx)). rewrite automorphism_raut by lia. rewrite Z2N_mod, raut_mod in ES by lia. exact ES.
Qed.
Lemma substitute_compose_all : forall isp cands, oracles isp cands -> forall c, is_context isp cands c -> Z.of_nat (c_degree c) <= 2 ^ 31 ->
  forall k l i j m, 0 <= k -> 0 <= l -> subst_new c k = Val i -> subst_new c l = Val j -> subst_new c ((k * l) mod (2 * Z.of_nat (c_degree c))) = Val m ->
  forall R (p : poly R), p_ctx p = c -> well_formed p -> bind (substitute p i) (fun q => substitute q j) = substitute p m.
Proof.
  use_ctx c. intros HN k l i j m Hk Hl Ei Ej Em R p Ep Hw. destruct (wf_exists c Hc p Ep Hw) as (x & Lx & _ & E). revert E. generalize (p_vt p). intros v ->. pose proof (N_ge8 c Hc) as H8.
  set (kl := (k * l) mod (2 * Z.of_nat (c_degree c))) in *. assert (Hkl : 0 <= kl) by (apply Z.mod_pos_bound; lia).
  destruct (Z.odd k) eqn:Ok; [|rewrite (subst_new_even c k Hc Hk Ok) in Ei; discriminate].
  destruct (Z.odd l) eqn:Ol; [|rewrite (subst_new_even c l Hc Hl Ol) in Ej; discriminate].
  destruct (Z.odd kl) eqn:Okl; [|rewrite (subst_new_even c kl Hc Hkl Okl) in Em; discriminate].
  destruct (subst_new_ok c k Hc HN Hk Ok) as (i' & E & _ & Hi). assert (i' = i) by congruence. subst i'.
  destruct (subst_new_ok c l Hc HN Hl Ol) as (j' & E' & _ & Hj). assert (j' = j) by congruence. subst j'.
  destruct (subst_new_ok c kl Hc HN Hkl Okl) as (m' & E'' & _ & Hm). assert (m' = m) by congruence. subst m'.
  assert (EX : exists X : Rn (c_degree c), rl X = x) by (exists (mkR x Lx); reflexivity). destruct EX as (X & <-).
  rewrite (substitute_eq c Hc R v _ i X Hi HN). cbn [bind]. rewrite (substitute_eq c Hc R v _ j _ Hj HN). rewrite (substitute_eq c Hc R v _ m X Hm HN).
  f_equal. f_equal. f_equal. rewrite !Z2N_mod, !raut_mod by lia. rewrite raut_comp by (lia || apply odd_nat; assumption).
  unfold kl. rewrite Z2N_mod, raut_mod by lia. f_equal. rewrite Nat.mul_comm. symmetry. apply Z2Nat.inj_mul; assumption.
Qed.

(** C23 *)
Lemma built_unique isp cands c mo n : oracles isp cands -> context_new isp cands mo n = Val c -> c_moduli c = mo /\ c_degree c = n.
Proof. intros (H1 & H2) E. destruct (context_new_good isp H1 cands H2 _ _ _ E) as (_ & A & B). auto. Qed.
Lemma next_single isp cands c : oracles isp cands -> is_context isp cands c -> (c_next c = None <-> (length (c_moduli c) <= 1)%nat).
Proof.
  intros Ho H. destruct (ctx_of isp cands c Ho H) as (Hg & Hc). inversion Hg as [? ? H1 H2|? ? ? H1 H2]; subst.
  - split; [intros _; lia|intros _; exact H2].
  - split; [congruence|lia].
Qed.
Lemma switch_down_all : forall isp cands, oracles isp cands -> forall moduli n c, context_new isp cands moduli n = Val c ->
  forall (p : poly PowerBasis) x, p_ctx p = c -> represents p x ->
  ((length moduli <= 1)%nat -> switch_down p = Err NoMoreContext) /\
  ((2 <= length moduli)%nat -> exists c', context_new isp cands (removelast moduli) n = Val c' /\
     modulus_of c = modulus_of c' * last moduli 0 /\
     returns (switch_down p) c' (map (round_div (last moduli 0)) x)).
Proof.
  intros isp cands Ho moduli n c Hnew p x Ep Hp. assert (Hcx : is_context isp cands c) by (eexists _, _; exact Hnew). destruct (ctx_of isp cands c Ho Hcx) as (Hg & Hc).
  destruct (built_unique _ _ _ _ _ Ho Hnew) as (Em & Ed). pose proof (next_single isp cands c Ho Hcx) as Hn. rewrite Em in Hn.
  apply rep_eq with (c := c) in Hp; [|exact Ep]. destruct Hp as (Lx & Hp). revert Hp. generalize (p_vt p). intros v ->. split; intros Hl.
  - unfold switch_down. cbn [p_ctx poly_of]. rewrite (proj2 Hn Hl). reflexivity.
  - destruct (c_next c) as [c'|] eqn:En; [|destruct Hn as (Hn & _); specialize (Hn eq_refl); lia]. exists c'.
    destruct Ho as (H1 & H2). pose proof (built_next isp H1 cands H2 c c' Hcx En) as Hb. rewrite Em, Ed in Hb. destruct (good_next c c' Hg En) as (Hg' & Hm' & Ho' & Hd').
    split; [exact Hb|]. split.
    + unfold modulus_of. rewrite Hm', Em. rewrite (app_removelast_last 0) at 1 by (destruct moduli; [cbn in Hl; lia|discriminate]). rewrite prod_list_app. cbn [prod_list]. ring.
    + eapply returns_val; [apply good_ok, Hg'|rewrite map_length; congruence|]. rewrite <- Em. apply (switch_down_eq c Hg c' v x En Lx).
Qed.
Lemma switch_down_to_all : forall isp cands, oracles isp cands -> forall moduli n c, context_new isp cands moduli n = Val c ->
  forall (p : poly PowerBasis) x, p_ctx p = c -> represents p x ->
  (forall i t, (i < length moduli)%nat -> context_new isp cands (firstn (length moduli - i) moduli) n = Val t ->
     returns (switch_down_to p t) t (round_divs (rev (skipn (length moduli - i) moduli)) x)) /\
  (forall t, is_context isp cands t -> ~ (c_degree t = n /\ exists i, (i < length moduli)%nat /\ c_moduli t = firstn (length moduli - i) moduli) ->
     switch_down_to p t = Err ContextNotReachable).
Proof.
  intros isp cands Ho moduli n c Hnew p x Ep Hp. assert (Hcx : is_context isp cands c) by (eexists _, _; exact Hnew). destruct (ctx_of isp cands c Ho Hcx) as (Hg & Hc).
  destruct (built_unique _ _ _ _ _ Ho Hnew) as (Em & Ed). apply rep_eq with (c := c) in Hp; [|exact Ep]. destruct Hp as (Lx & Hp). revert Hp. generalize (p_vt p). intros v ->. split.
  - intros i t Hi Ht. destruct (built_unique _ _ _ _ _ Ho Ht) as (Emt & Edt). destruct Ho as (H1 & H2).
    destruct (built_level isp H1 cands H2 i c Hcx ltac:(rewrite Em; exact Hi)) as (Hbl & El). rewrite Em, Ed, Ht in El. assert (Et : level_of c i = t) by congruence.
    eapply returns_val; [eapply ctx_of; [split; eassumption|eexists _, _; exact Ht]|rewrite round_chain_length; congruence|].
    rewrite (switch_down_to_eq v c t i x Hg Lx) by congruence. rewrite Et, Em. reflexivity.
  - intros t Ht Hn. apply (switch_down_to_err PowerBasis); [reflexivity|exact Hg|]. intros (i & Hi & H1 & H2). apply Hn. rewrite Em in *. split; [congruence|eauto].
Qed.

(** C24 *)
Lemma N_lt63 c : ctx_ok c -> Z.of_nat (c_degree c) < 2 ^ 63.
Proof. intros Hc. destruct (N_pow2 c Hc) as (K & HK & ->). rewrite nat_pow2_Z. apply Z.pow_lt_mono_r; lia. Qed.
Lemma inverse_power_all : forall isp cands, oracles isp cands -> forall c, is_context isp cands c ->
  forall (p : poly PowerBasis) x k, p_ctx p = c -> represents p x -> let n := Z.of_nat (c_degree c) in 0 <= k ->
  (k <= 2 * n -> exists y, returns (multiply_inverse_power_of_x p k) c y /\ y = negacyclic (c_degree c) (monomial (c_degree c) (2 * n - k)) x /\
     negacyclic (c_degree c) (monomial (c_degree c) k) y = x) /\
  (2 * n < k -> multiply_inverse_power_of_x p k = Panic).
Proof.
  use_ctx c. intros p x k Ep Hp n Hk0. pose proof (N_lt63 c Hc) as HN. pose proof (N_ge8 c Hc) as H8. apply rep_eq with (c := c) in Hp; [|exact Ep]. destruct Hp as (Lx & Hp). revert Hp. generalize (p_vt p). intros v ->.
  assert (EX : exists X : Rn (c_degree c), rl X = x) by (exists (mkR x Lx); reflexivity). destruct EX as (X & <-). clear Lx. split; intros Hk.
  - assert (Em : forall (m : Z) (Y : Rn (c_degree c)), 0 <= m -> negacyclic (c_degree c) (monomial (c_degree c) m) (rl Y) = rl (rmul (rX (c_degree c) (Z.to_nat m)) Y)).
    { intros m Y Hm. rewrite <- (Z2Nat.id m) at 1 by exact Hm. rewrite <- rX_monomial by lia. symmetry. apply nmul_negacyclic; apply rl_length. }
    assert (E : rX (c_degree c) (Z.to_nat ((2 * n - k) mod (2 * n))) = rX (c_degree c) (Z.to_nat (2 * n - k))).
    { unfold n. rewrite Z2N_mod by lia. apply rX_mod. lia. }
    exists (negacyclic (c_degree c) (monomial (c_degree c) (2 * n - k)) (rl X)). split; [|split; [reflexivity|]].
    + eapply returns_val; [exact Hc|apply negacyclic_length|]. rewrite Em by lia. rewrite <- E. apply (inverse_power_eq c Hc v X k); [unfold n in Hk; lia|exact HN].
    + rewrite !Em by (unfold n in *; lia). f_equal. pose proof (Rn_ring (c_degree c)) as RR. rewrite (Rmul_assoc RR), <- rX_add.
      replace (Z.to_nat k + Z.to_nat (2 * n - k))%nat with (0 + 2 * c_degree c)%nat by (unfold n in *; lia). rewrite rX_2n. change (rX (c_degree c) 0) with (r1 (c_degree c)). apply (Rmul_1_l RR).
  - unfold multiply_inverse_power_of_x. cbn [p_ctx poly_of]. fold n. unfold chk64, chk. replace ((0 <=? 2 * n - k) && (2 * n - k <? W64)) with false; [reflexivity|].
    symmetry. apply andb_false_iff. left. apply Z.leb_gt. lia.
Qed.

(** C25 *)
Lemma dot_all : forall isp cands, oracles isp cands -> forall c, is_context isp cands c ->
  forall (ps qs : list (poly Ntt)) xs ys, ps <> [] -> length ps = length qs ->
  Forall2 (fun p x => p_ctx p = c /\ represents p x) ps xs -> Forall2 (fun q y => p_ctx q = c /\ represents q y) qs ys ->
  returns (dot_product ps qs) c (poly_sum (c_degree c) (zipWith (negacyclic (c_degree c)) xs ys)).
Proof.
  use_ctx c. intros ps qs xs ys Hne Hl HF HG.
  assert (H : exists ts : list (term c), ps = map (lhs c) ts /\ qs = map (rhs c) ts /\ xs = map (fun t => rl (snd (fst t))) ts /\ ys = map (fun t => rl (snd (snd t))) ts).
  { clear Hne. revert qs ys Hl HG. induction HF as [|p x ps xs (Ep & Hp) HF IH]; intros qs ys Hl HG; inversion HG as [|q y qs' ys' (Eq & Hq) HG']; subst; try discriminate; [exists []; auto|].
    destruct (IH qs' ys' ltac:(cbn in Hl; lia) HG') as (ts & -> & -> & -> & ->).
    apply rep_eq with (c := p_ctx p) in Hp; [|reflexivity]. apply rep_eq with (c := p_ctx p) in Hq; [|assumption]. destruct Hp as (Lx & Hp). destruct Hq as (Ly & Hq).
    exists (((p_vt p, mkR x Lx), (p_vt q, mkR y Ly)) :: ts). cbn [map]. repeat split; f_equal; assumption. }
  destruct H as (ts & -> & -> & -> & ->). destruct ts as [|t ts]; [contradiction|].
  assert (Esum : poly_sum (c_degree c) (zipWith (negacyclic (c_degree c)) (map (fun t => rl (snd (fst t))) (t :: ts)) (map (fun t => rl (snd (snd t))) (t :: ts))) = rl (tsum c (r0 (c_degree c)) (t :: ts))).
  { unfold poly_sum, tsum. change (repeat 0 (c_degree c)) with (rl (r0 (c_degree c))). generalize (t :: ts) as l. generalize (r0 (c_degree c)) as s. intros s l. revert s. clear.
    induction l as [|t l IH]; intros s; [reflexivity|]. cbn [map zipWith fold_left]. rewrite <- IH. f_equal. rewrite <- nmul_negacyclic by apply rl_length. reflexivity. }
  rewrite Esum. eapply returns_val; [exact Hc|apply rl_length|]. apply (dot_product_eq c Hc t ts).
Qed.
Lemma dot_errors_all : forall ps qs : list (poly Ntt),
  (ps = [] \/ qs = [] -> dot_product ps qs = Err EmptyDotProduct) /\
  (ps <> [] -> qs <> [] -> length ps <> length qs -> dot_product ps qs = Err (DotProductLengthMismatch (Z.of_nat (length ps)) (Z.of_nat (length qs)))) /\
  (forall p0 p, In p0 (firstn 1 ps) -> In p (ps ++ qs) -> length ps = length qs ->
     ~ (c_moduli (p_ctx p) = c_moduli (p_ctx p0) /\ c_degree (p_ctx p) = c_degree (p_ctx p0)) -> dot_product ps qs = Err PolynomialContextMismatch).
Proof.
  intros ps qs. split; [|split].
  - intros [->| ->]; [reflexivity|]. destruct ps; reflexivity.
  - intros Hp Hq Hl. destruct ps as [|p ps]; [contradiction|]. destruct qs as [|q qs]; [contradiction|]. unfold dot_product.
    replace (Nat.eqb (length (p :: ps)) (length (q :: qs))) with false by (symmetry; apply Nat.eqb_neq, Hl). reflexivity.
  - intros p0 p H0 Hin Hl Hne. destruct ps as [|p1 ps]; [contradiction|]. destruct H0 as [->|[]]. destruct qs as [|q qs]; [discriminate|]. unfold dot_product.
    rewrite Hl, Nat.eqb_refl. cbn [negb].
    assert (E : ctx_eqb (p_ctx p) (p_ctx p0) = false) by (destruct (ctx_eqb (p_ctx p) (p_ctx p0)) eqn:E; [apply ctx_eqb_true in E; contradiction|reflexivity]).
    assert (Ex : existsb (fun p : poly Ntt => negb (ctx_eqb (p_ctx p) (p_ctx p0))) (p0 :: ps) || existsb (fun p : poly Ntt => negb (ctx_eqb (p_ctx p) (p_ctx p0))) (q :: qs) = true).
    { rewrite <- existsb_app. apply existsb_exists. exists p. split; [exact Hin|]. rewrite E. reflexivity. }
    rewrite Ex. reflexivity.
Qed.

(** C26 *)
Lemma proto_all : forall isp cands, oracles isp cands -> forall c, is_context isp cands c ->
  Z.of_nat (c_degree c) < 2 ^ 32 -> Z.of_nat (length (c_moduli c)) < 2 ^ 29 ->
  forall R (p : poly R), p_ctx p = c -> well_formed p ->
  exists m, poly_to_proto p = Val m /\ rq_degree m = Z.of_nat (c_degree c) /\
    poly_from_proto R m c (p_vt p) = Val p /\
    (forall R' vt, R' <> R -> poly_from_proto R' m c vt = Err RepresentationMismatch).
Proof.
  use_ctx c. intros HN Hk R p Ep Hw. destruct (wf_exists c Hc p Ep Hw) as (x & Lx & _ & E). 
  destruct (proto_eq c Hc HN Hk R (p_vt p) x Lx) as (m & E1 & _ & E2 & _ & E3 & E4). exists m. split; [rewrite E; exact E1|]. split; [exact E2|]. split; [rewrite E3; f_equal; symmetry; exact E|exact E4].
Qed.

(** C27 *)
Lemma deserialize_length m b v d : valid_modulus m -> 0 <= d -> serialization_length m d = Val (len b) -> deserialize_vec m b = Val v -> len v = d.
Proof.
  intros Hm Hd Hs Hv. destruct (valid_fields _ Hm) as (Hp & _). destruct (pbits_spec _ Hp) as (Hw & _).
  unfold serialization_length in Hs. unfold deserialize_vec in Hv. set (w := 64 - leading_zeros64 (mod_p m - 1)) in *.
  apply bind_inv in Hs. destruct Hs as (u & Hg & Hs). apply guard_inv, Z.eqb_eq in Hg. apply Z.mod_divide in Hg; [|lia]. destruct Hg as (e & He).
  apply bind_inv in Hs. destruct Hs as (t & Ht & Hs). unfold chk64, chk in Ht. destruct ((0 <=? w * d) && (w * d <? W64)) eqn:Er; [|discriminate]. assert (t = w * d) by congruence. subst t.
  assert (Hlen : len b * 8 = w * d) by (assert (Hlb : len b = w * d / 8) by congruence; rewrite Hlb, He; replace (w * (e * 8)) with (w * e * 8) by ring; rewrite Z.div_mul by lia; reflexivity).
  unfold transcode_from_bytes in Hv. apply bind_inv in Hv. destruct Hv as (u' & _ & Hv). apply bind_inv in Hv. destruct Hv as (tot & Htot & Hv). unfold chk64, chk in Htot.
  destruct ((0 <=? len b * 8) && (len b * 8 <? W64)); [|discriminate]. assert (tot = len b * 8) by congruence. subst tot.
  assert (Hn : div_ceil (len b * 8) w = d) by (rewrite Hlen; unfold div_ceil; rewrite Z.mul_comm, ?Z.div_mul, ?Z_mod_mult by lia; try reflexivity; replace (d * w + w - 1) with ((w - 1) + d * w) by ring; rewrite Z.div_add by lia; rewrite Z.div_small by lia; lia).
  rewrite Hn in Hv. apply bind_inv in Hv. destruct Hv as (((cv & n) & out) & _ & Hv). destruct (0 <? n).
  - apply bind_inv in Hv. destruct Hv as (u1 & Hg & Hv). apply guard_inv, Z.eqb_eq in Hg. assert (v = out ++ [cv mod W64]) by congruence. subst v. unfold len in *. rewrite app_length. cbn [length]. lia.
  - apply bind_inv in Hv. destruct Hv as (u1 & Hg & Hv). apply guard_inv, Z.eqb_eq in Hg. apply bind_inv in Hv. destruct Hv as (u2 & _ & Hv). assert (v = out) by congruence. subst v. exact Hg.
Qed.
Lemma parse_rows_length d : 0 <= d -> forall qs b v a t, Forall valid_modulus qs ->
  foldM (fun acc q => s <- serialization_length q d ;; chk64 (acc + s)) qs a = Val t -> len b = t - a -> parse_rows qs d b = Val v -> len v = d * Z.of_nat (length qs).
Proof.
  intros Hd. induction qs as [|q qs IH]; intros b v a t HF Ht Hb Hv; cbn [parse_rows foldM] in *; [assert (v = []) by congruence; subst v; unfold len; cbn [length]; lia|].
  inversion HF as [|? ? J1 J2]; subst. apply bind_inv in Ht. destruct Ht as (a1 & Ha1 & Ht). apply bind_inv in Ha1. destruct Ha1 as (s & Hs & Ha1).
  unfold chk64, chk in Ha1. destruct ((0 <=? a + s) && (a + s <? W64)) eqn:Er; [|discriminate]. assert (a1 = a + s) by congruence. subst a1.
  rewrite Hs in Hv. cbn [bind] in Hv. apply bind_inv in Hv. destruct Hv as (v1 & Hv1 & Hv). apply bind_inv in Hv. destruct Hv as (v2 & Hv2 & Hv). assert (v = v1 ++ v2) by congruence. subst v.
  assert (Hs0 : 0 <= s).
  { unfold serialization_length in Hs. apply bind_inv in Hs. destruct Hs as (u & _ & Hs). apply bind_inv in Hs. destruct Hs as (t0 & Ht0 & Hs). unfold chk64, chk in Ht0. destruct ((0 <=? (64 - leading_zeros64 (mod_p q - 1)) * d) && ((64 - leading_zeros64 (mod_p q - 1)) * d <? W64)) eqn:E0; [|discriminate].
    apply andb_true_iff in E0. destruct E0 as (E0 & _). apply Z.leb_le in E0. assert (s = t0 / 8) by congruence. subst s. assert (t0 = (64 - leading_zeros64 (mod_p q - 1)) * d) by congruence. apply Z.div_pos; lia. }
  assert (Hmono : forall qs' a' t', foldM (fun acc q => s <- serialization_length q d ;; chk64 (acc + s)) qs' a' = Val t' -> Forall valid_modulus qs' -> a' <= t').
  { clear - Hd. induction qs' as [|q' qs' IH]; intros a' t' H HF; cbn [foldM] in H; [assert (a' = t') by congruence; lia|]. inversion HF; subst.
    apply bind_inv in H. destruct H as (a1 & Ha1 & H). apply bind_inv in Ha1. destruct Ha1 as (s & Hs & Ha1). unfold chk64, chk in Ha1. destruct ((0 <=? a' + s) && (a' + s <? W64)); [|discriminate]. assert (a1 = a' + s) by congruence. subst a1.
    assert (0 <= s).
    { unfold serialization_length in Hs. apply bind_inv in Hs. destruct Hs as (u & _ & Hs). apply bind_inv in Hs. destruct Hs as (t0 & Ht0 & Hs). unfold chk64, chk in Ht0. destruct ((0 <=? (64 - leading_zeros64 (mod_p q' - 1)) * d) && ((64 - leading_zeros64 (mod_p q' - 1)) * d <? W64)) eqn:E0; [|discriminate].
      apply andb_true_iff in E0. destruct E0 as (E0 & _). apply Z.leb_le in E0. assert (s = t0 / 8) by congruence. subst s. assert (t0 = (64 - leading_zeros64 (mod_p q' - 1)) * d) by congruence. apply Z.div_pos; lia. }
    specialize (IH _ _ H ltac:(assumption)). lia. }
  specialize (Hmono qs (a + s) t Ht J2). unfold len in Hb.
  assert (L1 : len (firstn (Z.to_nat s) b) = s) by (unfold len; rewrite firstn_length; lia).
  assert (L2 : len (skipn (Z.to_nat s) b) = t - (a + s)) by (unfold len; rewrite skipn_length; lia).
  pose proof (deserialize_length q _ v1 d J1 Hd ltac:(rewrite L1; exact Hs) Hv1) as E1. pose proof (IH _ v2 _ _ J2 Ht L2 Hv2) as E2.
  unfold len in *. rewrite app_length. cbn [length]. lia.
Qed.
Lemma from_proto_degree_all : forall isp cands, oracles isp cands -> forall c, is_context isp cands c ->
  forall R m vt p, 0 <= rq_degree m -> poly_from_proto R m c vt = Val p ->
  rq_degree m = Z.of_nat (c_degree c) \/ rq_degree m * Z.of_nat (length (c_moduli c)) <= Z.of_nat (c_degree c).
Proof.
  use_ctx c. intros R m vt p Hd Hp. unfold poly_from_proto in Hp. apply bind_inv in Hp. destruct Hp as ((r & v) & Hparse & Hp).
  destruct (negb (repn_eqb r R)); [discriminate|]. apply bind_inv in Hp. destruct Hp as (pb & Hpb & _).
  unfold parse_proto in Hparse. apply bind_inv in Hparse. destruct Hparse as (r' & _ & Hparse). cbv zeta in Hparse.
  destruct (negb (rq_degree m mod 8 =? 0) || (rq_degree m <? 8)); [discriminate|]. apply bind_inv in Hparse. destruct Hparse as (t & Ht & Hparse).
  destruct (negb (len (rq_coeffs m) =? t)) eqn:Et; [discriminate|]. apply negb_false_iff, Z.eqb_eq in Et. apply bind_inv in Hparse. destruct Hparse as (v' & Hv & Hparse). assert (v' = v) by congruence. subst v'.
  assert (HF : Forall valid_modulus (c_q c)).
  { rewrite (q_ops c Hc). apply Forall_forall. intros q Hq. apply in_map_iff in Hq. destruct Hq as (op & <- & Hop). destruct (op_ok c Hc op Hop) as (K & w & Hok & _). apply (ok_m _ _ _ Hok). }
  pose proof (parse_rows_length _ Hd (c_q c) (rq_coeffs m) v 0 t HF Ht ltac:(lia) Hv) as L. assert (Lm : length (c_moduli c) = length (c_q c)) by (rewrite (co_moduli _ Hc), map_length; reflexivity). rewrite Lm. clear Lm.
  assert (Hk : (0 < length (c_q c))%nat) by (rewrite (q_length c Hc); pose proof (co_ne _ Hc); destruct (c_ops c); [contradiction|cbn [length]; lia]).
  unfold len in L. unfold pb_from_u64 in Hpb. destruct (Nat.eqb (length v) (length (c_q c) * c_degree c)) eqn:E1.
  - apply Nat.eqb_eq in E1. left. rewrite E1, Nat2Z.inj_mul in L. apply (Z.mul_cancel_r _ _ (Z.of_nat (length (c_q c)))); lia.
  - destruct (Nat.leb (length v) (c_degree c)) eqn:E2; [|discriminate]. apply Nat.leb_le in E2. right. lia.
Qed.
Lemma valid_modulus_inj m m' : valid_modulus m -> valid_modulus m' -> mod_p m = mod_p m' -> m = m'.
Proof.
  intros Hm Hm' E. destruct (valid_fields _ Hm) as (Hp & _). destruct (valid_fields _ Hm') as (Hp' & _). destruct Hm as (p & E1). destruct Hm' as (p' & E2).
  destruct (modulus_new_ex p) as (m1 & E3 & _ & E4); [apply modulus_new_inv in E1; exact E1|]. destruct (modulus_new_ex p') as (m2 & E5 & _ & E6); [apply modulus_new_inv in E2; exact E2|]. assert (p = p') by congruence. congruence.
Qed.
Lemma same_q c c' : ctx_ok c -> ctx_ok c' -> c_moduli c = c_moduli c' -> c_q c = c_q c'.
Proof.
  intros Hc Hc' E. rewrite (co_moduli _ Hc), (co_moduli _ Hc') in E.
  assert (V : forall d, ctx_ok d -> Forall valid_modulus (c_q d)).
  { intros d Hd. rewrite (q_ops d Hd). apply Forall_forall. intros q Hq. apply in_map_iff in Hq. destruct Hq as (op & <- & Hop). destruct (op_ok d Hd op Hop) as (K & w & Hok & _). apply (ok_m _ _ _ Hok). }
  pose proof (V c Hc) as V1. pose proof (V c' Hc') as V2. revert E V1 V2. generalize (c_q c) (c_q c'). clear. induction l as [|m l IH]; intros [|m' l'] E V1 V2; try discriminate; [reflexivity|].
  cbn [map] in E. inversion V1; subst. inversion V2; subst. f_equal; [apply valid_modulus_inj; [assumption..|congruence]|apply IH; [congruence|assumption..]].
Qed.
Lemma from_proto_other_degree : forall isp cands, oracles isp cands -> forall c c', is_context isp cands c -> is_context isp cands c' ->
  c_moduli c' = c_moduli c -> (c_degree c' * length (c_moduli c) <= c_degree c)%nat -> c_degree c' <> c_degree c ->
  Z.of_nat (c_degree c') < 2 ^ 32 -> Z.of_nat (length (c_moduli c)) < 2 ^ 29 ->
  forall (p : poly PowerBasis) vt, p_ctx p = c' -> well_formed p ->
  exists m q, poly_to_proto p = Val m /\ rq_degree m <> Z.of_nat (c_degree c) /\ poly_from_proto PowerBasis m c vt = Val q.
Proof.
  intros isp cands Ho c c' H H' Em Hd Hne HN Hk p vt Ep Hw. destruct (ctx_of _ _ _ Ho H) as (_ & Hc). destruct (ctx_of _ _ _ Ho H') as (_ & Hc').
  destruct (wf_exists c' Hc' p Ep Hw) as (x & Lx & Cx & E). destruct (proto_eq c' Hc' HN ltac:(rewrite Em; exact Hk) PowerBasis (p_vt p) x Lx) as (m & E1 & _ & E2 & E3 & _).
  assert (Eq : c_q c' = c_q c) by (apply same_q; assumption). 
  assert (E3' : parse_proto m c = Val (PowerBasis, concat (map (fun op => row PowerBasis op x) (c_ops c')))) by (rewrite <- E3; unfold parse_proto; rewrite Eq; reflexivity).
  assert (Hrl : forall op, In op (c_ops c') -> length (row PowerBasis op x) = c_degree c').
  { intros op Hop. destruct (op_ok c' Hc' op Hop) as (K & w & Hok & Hs). rewrite (row_length op K w Hok); congruence. }
  pose proof (concat_length_rows c' (fun op => row PowerBasis op x) (c_ops c') Hrl) as L.
  assert (Lm : length (c_moduli c) = length (c_ops c')) by (rewrite <- Em, (moduli_ops c' Hc'), map_length; reflexivity).
  assert (Hpos : (0 < length (c_ops c'))%nat) by (pose proof (co_ne _ Hc'); destruct (c_ops c'); [contradiction|cbn [length]; lia]). pose proof (N_ge8 c Hc).
  exists m, (poly_of PowerBasis c vt (padded c (concat (map (fun op => row PowerBasis op x) (c_ops c'))))).
  split; [rewrite E; exact E1|]. split; [rewrite E2; lia|]. unfold poly_from_proto. rewrite E3'. cbn [bind repn_eqb repr_code Z.eqb Pos.eqb negb].
  rewrite (from_u64_eq c Hc).
  - cbn [bind]. apply (pb_into_eq c Hc), padded_length. rewrite L. nia.
  - rewrite L. nia.
  - apply Forall_forall. intros a Ha. apply in_concat in Ha. destruct Ha as (r & Hr & Ha). apply in_map_iff in Hr. destruct Hr as (op & <- & Hop). destruct (op_ok c' Hc' op Hop) as (K & w & Hok & Hs).
    pose proof (row_u64 op K w Hok PowerBasis x ltac:(congruence)) as HU. rewrite Forall_forall in HU. apply HU, Ha.
  - rewrite L, Lm. nia.
Qed.

(** Contexts exist: the degree-8 and degree-16 contexts of 97 and 193. *)
Definition cands_ex (p : Z) : list Z := if (p =? 97) || (p =? 193) then [5] else [].
Lemma cands_ex_canonical p : canonical p (cands_ex p).
Proof.
  unfold cands_ex. destruct ((p =? 97) || (p =? 193)) eqn:E; [|constructor]. apply orb_true_iff in E. constructor; [|constructor].
  destruct E as [E|E]; apply Z.eqb_eq in E; subst p; lia.
Qed.
Lemma context_example K : (3 <= K <= 4)%nat -> forall isp, prime_oracle isp -> exists c, context_new isp cands_ex [97; 193] (2 ^ K) = Val c.
Proof.
  intros HK isp Hisp.
  assert (P97 : prime 97) by (apply (check_prime_spec 1000); vm_compute; reflexivity).
  assert (P193 : prime 193) by (apply (check_prime_spec 1000); vm_compute; reflexivity).
  apply (context_new_accept isp Hisp cands_ex cands_ex_canonical).
  - intros p [<-|[<-|[]]] _ _ _; exists 5; (split; [vm_compute; auto|vm_compute; reflexivity]).
  - split; [exists K; split; [lia|reflexivity]|]. split; [discriminate|]. split; [repeat constructor; cbn; intuition discriminate|].
    assert (K = 3 \/ K = 4)%nat as [->| ->] by lia; (apply Forall_cons; [|apply Forall_cons; [|apply Forall_nil]]; (split; [assumption|split; vm_compute; reflexivity])).
Qed.
Lemma context_exists : exists isp cands c, oracles isp cands /\ is_context isp cands c /\ c_moduli c = [97; 193] /\ c_degree c = 8%nat.
Proof.
  destruct prime_oracle_exists as (isp & Hisp). destruct (context_example 3 ltac:(lia) isp Hisp) as (c & Hc). exists isp, cands_ex, c.
  assert (Ho : oracles isp cands_ex) by (split; [exact Hisp|exact cands_ex_canonical]). split; [exact Ho|]. split; [eexists _, _; exact Hc|]. exact (built_unique _ _ _ _ _ Ho Hc).
Qed.
Lemma from_proto_degree_refuted : exists isp cands c m vt (q : poly PowerBasis), oracles isp cands /\ is_context isp cands c /\
  rq_degree m <> Z.of_nat (c_degree c) /\ poly_from_proto PowerBasis m c vt = Val q.
Proof.
  destruct prime_oracle_exists as (isp & Hisp). destruct (context_example 3 ltac:(lia) isp Hisp) as (c' & Hc'). destruct (context_example 4 ltac:(lia) isp Hisp) as (c & Hc).
  assert (Ho : oracles isp cands_ex) by (split; [exact Hisp|exact cands_ex_canonical]). destruct (built_unique _ _ _ _ _ Ho Hc') as (M' & D'). destruct (built_unique _ _ _ _ _ Ho Hc) as (M & D).
  assert (H' : is_context isp cands_ex c') by (eexists _, _; exact Hc'). assert (H : is_context isp cands_ex c) by (eexists _, _; exact Hc). destruct (ctx_of _ _ _ Ho H') as (_ & Hok').
  destruct (from_proto_other_degree isp cands_ex Ho c c' H H' ltac:(congruence)) with (p := poly_zero PowerBasis c') (vt := false) as (m & q & _ & E1 & E2).
  - rewrite D', D, M. cbn. lia.
  - rewrite D', D. cbn. lia.
  - rewrite D'. reflexivity.
  - rewrite M. reflexivity.
  - reflexivity.
  - rewrite (zero_eq c' Hok'). apply (poly_of_wf c' Hok'). apply lzero_length.
  - exists isp, cands_ex, c, m, false, q. auto.
Qed.

(** C28 *)
Lemma from_u64_all : forall isp cands, oracles isp cands -> forall c, is_context isp cands c ->
  forall v vt, Forall is_u64 v -> let n := c_degree c in let k := length (c_moduli c) in
  ((length v <= n)%nat -> (length v < k * n)%nat -> returns (pb_from_u64 c v vt) c (v ++ repeat 0 (n - length v))) /\
  ((n < length v)%nat -> length v <> (k * n)%nat -> pb_from_u64 c v vt = Err (InvalidCoefficientCount (Z.of_nat (length v)))).
Proof.
  use_ctx c. intros v vt Hv n k. split; [intros H1 H2|intros H1 H2].
  - eapply returns_val; [exact Hc|apply (padded_length c), H1|]. apply (from_u64_eq c Hc); assumption.
  - unfold pb_from_u64. assert (length (c_q c) = k) by (unfold k; rewrite (co_moduli _ Hc), map_length; reflexivity). rewrite H. fold n.
    replace (Nat.eqb (length v) (k * n)) with false by (symmetry; apply Nat.eqb_neq, H2). replace (Nat.leb (length v) n) with false by (symmetry; apply Nat.leb_gt, H1). reflexivity.
Qed.
Lemma from_signed_all : forall isp cands, oracles isp cands -> forall c, is_context isp cands c -> let n := c_degree c in
  (forall v vt, Forall is_i64 v -> (length v <= n)%nat -> returns (pb_from_i64 c v vt) c (v ++ repeat 0 (n - length v))) /\
  (forall R v vt, (length v <= n)%nat -> returns (poly_from_big R c v vt) c (v ++ repeat 0 (n - length v))) /\
  (forall R v vt, (n < length v)%nat -> pb_from_i64 c v vt = Err (TooManyCoefficients (Z.of_nat (length v)) (Z.of_nat n)) /\
     poly_from_big R c v vt = Err (TooManyCoefficients (Z.of_nat (length v)) (Z.of_nat n))).
Proof.
  use_ctx c. intros n. split; [|split].
  - intros v vt Hv Hl. eapply returns_val; [exact Hc|apply (padded_length c), Hl|]. apply (from_i64_eq c Hc); assumption.
  - intros R v vt Hl. eapply returns_val; [exact Hc|apply (padded_length c), Hl|]. apply (poly_from_big_eq c Hc); assumption.
  - intros R v vt Hl. split; [apply (from_i64_err c), Hl|]. unfold poly_from_big. rewrite (from_big_err c) by exact Hl. reflexivity.
Qed.
Lemma to_big_all : forall isp cands, oracles isp cands -> forall c, is_context isp cands c ->
  forall (p : poly PowerBasis) x, p_ctx p = c -> represents p x -> poly_to_big p = Val (map (fun a => a mod modulus_of c) x).
Proof. use_ctx c. intros p x Ep Hp. apply rep_eq with (c := c) in Hp; [|exact Ep]. destruct Hp as (Lx & ->). apply (to_big_eq c Hc), Lx. Qed.
Lemma from_u64_single : forall isp cands, oracles isp cands -> forall c q, is_context isp cands c -> c_moduli c = [q] ->
  exists p, pb_from_u64 c (repeat q (c_degree c)) false = Val p /\ ~ well_formed p.
Proof.
  intros isp cands Ho c q Hcx Hm. destruct (ctx_of isp cands c Ho Hcx) as (Hg & Hc). pose proof (N_ge8 c Hc) as H8. unfold pb_from_u64.
  assert (Hq1 : c_q c <> [] /\ length (c_q c) = 1%nat /\ map mod_p (c_q c) = [q]). { rewrite <- (co_moduli _ Hc), Hm. split; [|split; [|reflexivity]]. { intros E. pose proof (co_moduli _ Hc) as E'. rewrite E, Hm in E'. discriminate. } rewrite <- (map_length mod_p), <- (co_moduli _ Hc), Hm. reflexivity. }
  destruct Hq1 as (_ & L1 & Emq). rewrite repeat_length, L1. replace (Nat.eqb (c_degree c) (1 * c_degree c)) with true by (symmetry; apply Nat.eqb_eq; lia).
  eexists. split; [reflexivity|]. intros (_ & HF & _). cbn [p_ctx p_coeffs] in HF. unfold rows_of in HF. rewrite L1 in HF. cbn [chunks_n] in HF.
  rewrite firstn_all2 in HF by (rewrite repeat_length; lia). destruct (c_q c) as [|m []]; try discriminate. cbn [fst] in HF. inversion HF as [|? ? ? ? (J1 & J2) J3]. subst.
  cbn [map] in Emq. assert (mod_p m = q) by congruence. destruct (c_degree c) as [|d]; [lia|]. cbn [repeat] in J2. inversion J2. lia.
Qed.
Lemma from_u64_refuted : exists isp cands c v p, oracles isp cands /\ is_context isp cands c /\ Forall is_u64 v /\ (length v <= c_degree c)%nat /\
  pb_from_u64 c v false = Val p /\ ~ well_formed p.
Proof.
  destruct prime_oracle_exists as (isp & Hisp). assert (Ho : oracles isp cands_ex) by (split; [exact Hisp|exact cands_ex_canonical]).
  assert (P97 : prime 97) by (apply (check_prime_spec 1000); vm_compute; reflexivity).
  destruct (proj2 (context_new_accept isp Hisp cands_ex cands_ex_canonical [97] 8%nat ltac:(intros p [<-|[]] _ _ _; exists 5; (split; [vm_compute; auto|vm_compute; reflexivity])))) as (c & Hc).
  - split; [exists 3%nat; split; [lia|reflexivity]|]. split; [discriminate|]. split; [repeat constructor; cbn; intuition discriminate|]. apply Forall_cons; [|apply Forall_nil]. split; [exact P97|split; vm_compute; reflexivity].
  - destruct (built_unique _ _ _ _ _ Ho Hc) as (M & D). assert (H : is_context isp cands_ex c) by (eexists _, _; exact Hc).
    destruct (from_u64_single isp cands_ex Ho c 97 H M) as (p & Hp & Hn). exists isp, cands_ex, c, (repeat 97 (c_degree c)), p. split; [exact Ho|]. split; [exact H|]. split.
    + apply Forall_forall. intros a Ha. apply repeat_spec in Ha. subst a. unfold is_u64. lia.
    + split; [rewrite repeat_length; lia|auto].
Qed.

(** C29 *)
Lemma accept_all : forall isp cands, oracles isp cands -> forall moduli degree,
  (forall p, In p moduli -> prime p -> 2 < p < 2 ^ 62 -> exists a, In a (cands p) /\ a ^ ((p - 1) / 2) mod p = p - 1) ->
  (exists c, context_new isp cands moduli degree = Val c) <->
  (exists K : nat, (3 <= K)%nat /\ degree = (2 ^ K)%nat) /\ moduli <> [] /\ NoDup moduli /\
  Forall (fun p => prime p /\ p < 2 ^ 62 /\ p mod (2 * Z.of_nat degree) = 1) moduli.
Proof.
  intros isp cands (H1 & H2) moduli degree Hn. apply (context_new_accept isp H1 cands H2). intros p Hin Hp Hlt Hgt. destruct (Hn p Hin Hp ltac:(change (2 ^ 62) with W62; lia)) as (a & Ha & Ea). exists a. split; [exact Ha|].
  unfold cong. rewrite Ea. replace (-1) with (p - 1 + (-1) * p) by ring. rewrite Z_mod_plus_full, Z.mod_small by lia. reflexivity.
Qed.
Lemma reject_all : forall isp cands, oracles isp cands -> forall moduli degree,
  (~ (exists K : nat, (3 <= K)%nat /\ degree = (2 ^ K)%nat) -> context_new isp cands moduli degree = Err (InvalidPolynomialDegree (Z.of_nat degree))) /\
  ((exists K : nat, (3 <= K)%nat /\ degree = (2 ^ K)%nat) -> forall e, rns_new moduli = Err e -> context_new isp cands moduli degree = Err e).
Proof.
  intros isp cands (H1 & H2) moduli degree. split.
  - apply context_err_degree; assumption.
  - intros (K & HK & ->) e. apply context_err_rns; assumption.
Qed.
Lemma chain_all : forall isp cands, oracles isp cands -> forall moduli n c, context_new isp cands moduli n = Val c ->
  c_moduli c = moduli /\ c_degree c = n /\ 
  (forall i, (i < length moduli)%nat -> exists c', context_new isp cands (firstn (length moduli - i) moduli) n = Val c' /\
     follow i c = Val c' /\ context_at_level c i = Val c' /\ niterations_to c c' = Val i) /\
  (forall i, (length moduli <= i)%nat -> context_at_level c i = Err (InvalidContextLevel (Z.of_nat i) (Z.of_nat (length moduli) - 1))) /\
  (forall t, is_context isp cands t -> ~ (c_degree t = n /\ exists i, (i < length moduli)%nat /\ c_moduli t = firstn (length moduli - i) moduli) ->
     niterations_to c t = Err ContextNotReachable).
Proof.
  intros isp cands Ho moduli n c Hnew. assert (Hcx : is_context isp cands c) by (eexists _, _; exact Hnew). destruct (ctx_of isp cands c Ho Hcx) as (Hg & Hc). destruct (built_unique _ _ _ _ _ Ho Hnew) as (Em & Ed).
  split; [exact Em|]. split; [exact Ed|]. split; [|split].
  - intros i Hi. destruct Ho as (H1 & H2). rewrite <- Em in Hi. destruct (built_level isp H1 cands H2 i c Hcx Hi) as (_ & El). destruct (follow_spec i c Hg Hi) as (F1 & _ & F3 & F4 & _).
    exists (level_of c i). rewrite <- Em at 1 2. rewrite <- Ed at 1. split; [exact El|]. split; [exact F1|]. split.
    + unfold context_at_level. replace (Nat.leb (length (c_moduli c)) i) with false by (symmetry; apply Nat.leb_gt, Hi). exact F1.
    + apply (proj1 (niterations_to_spec c (level_of c i) Hg) i); assumption.
  - intros i Hi. rewrite <- Em in *. apply (proj2 (context_at_level_spec c i Hg)), Hi.
  - intros t Ht Hn. apply (proj2 (niterations_to_spec c t Hg)). intros (i & Hi & Hd & Hm). apply Hn. rewrite Em in *. split; [congruence|eauto].
Qed.

(** The scaler (used by C37, C38) *)
Lemma scaler_poly_all : forall isp cands, oracles isp cands -> forall from to, is_context isp cands from -> is_context isp cands to ->
  c_degree from = c_degree to -> Z.of_nat (length (c_moduli from)) < 2 ^ 60 ->
  forall num den f, 0 <= num -> 0 <= den -> factor_new num den = Val f -> num = den \/ load num den (c_moduli from) < 2 ^ 65 ->
  exists s, poly_scaler_new from to f = Val s /\
  forall R (p : poly R) x, R <> NttShoup -> p_ctx p = from -> represents p x ->
  exists y, Forall2 (scaled_value (c_moduli from) num den) x y /\ returns (poly_scale s p) to y.
Proof.
  intros isp cands Ho from to Hf Ht Hd Hl num den f Hn Hdn Ef HL. destruct (ctx_of _ _ _ Ho Hf) as (_ & Cf). destruct (ctx_of _ _ _ Ho Ht) as (_ & Ct).
  destruct (poly_scale_eq from to Cf Ct Hd (built_same_ops isp cands from to Hf Ht Hd) num den f Hl Hn Hdn Ef HL) as (s & Es & Hs). exists s. split; [exact Es|].
  intros R p x HR Ep Hp. apply rep_eq with (c := from) in Hp; [|exact Ep]. destruct Hp as (Lx & Hp). revert Hp. generalize (p_vt p). intros v ->.
  destruct (Hs R v x HR Lx) as (y & Ly & Hy & E). exists y. split; [exact Hy|]. eapply returns_val; [exact Ct|congruence|exact E].
Qed.
(** [Switcher]: scaling by the quotient of the two moduli (used by C38) *)
Lemma switcher_all : forall isp cands, oracles isp cands -> forall from to, is_context isp cands from -> is_context isp cands to ->
  c_degree from = c_degree to -> Z.of_nat (length (c_moduli from)) < 2 ^ 60 -> load (prod_list (c_moduli to)) (prod_list (c_moduli from)) (c_moduli from) < 2 ^ 65 ->
  exists s, switcher_new from to = Val s /\
  forall R (p : poly R) x, R <> NttShoup -> p_ctx p = from -> represents p x ->
  exists y, Forall2 (scaled_value (c_moduli from) (prod_list (c_moduli to)) (prod_list (c_moduli from))) x y /\ returns (poly_scale s p) to y.
Proof.
  intros isp cands Ho from to Hf Ht Hd Hl HL. destruct (ctx_of _ _ _ Ho Hf) as (_ & Cf). destruct (ctx_of _ _ _ Ho Ht) as (_ & Ct).
  assert (Pp : forall c, ctx_ok c -> 0 < prod_list (c_moduli c)) by (intros c Hc; rewrite <- (co_u64 _ Hc); pose proof (basis_pos _ (gr_basis _ (co_rns _ Hc))); lia). pose proof (Pp from Cf) as Pf. pose proof (Pp to Ct) as Pt.
  assert (Ef : factor_new (prod_list (c_moduli to)) (prod_list (c_moduli from)) = Val (mkFactor (prod_list (c_moduli to)) (prod_list (c_moduli from)) (prod_list (c_moduli to) =? prod_list (c_moduli from)))).
  { unfold factor_new. replace (prod_list (c_moduli from) =? 0) with false by (symmetry; apply Z.eqb_neq; lia). reflexivity. }
  destruct (scaler_poly_all isp cands Ho from to Hf Ht Hd Hl (prod_list (c_moduli to)) (prod_list (c_moduli from)) _ ltac:(lia) ltac:(lia) Ef (or_intror HL)) as (s & Es & Hs). exists s. split; [|exact Hs].
  unfold switcher_new. rewrite (gr_product _ (co_rns _ Cf)), (gr_product _ (co_rns _ Ct)), (co_u64 _ Cf), (co_u64 _ Ct), Ef. exact Es.
Qed.
(** The representation field of a message *)
Lemma from_proto_repr_all : forall R m c vt,
  (forall p : poly R, poly_from_proto R m c vt = Val p -> rq_repr m = match R with PowerBasis => 1 | Ntt => 2 | NttShoup => 3 end) /\
  (rq_repr m = 0 -> poly_from_proto R m c vt = Err UnknownRepresentation) /\
  (~ 0 <= rq_repr m <= 3 -> poly_from_proto R m c vt = Err (InvalidRepresentation (rq_repr m))).
Proof.
  intros R m c vt. unfold poly_from_proto, parse_proto. split; [|split].
  - intros p E. apply bind_inv in E. destruct E as ((r & v) & E1 & E). apply bind_inv in E1. destruct E1 as (r' & E1 & E2).
    assert (r' = r). { revert E2. destruct (negb _ || _); [discriminate|]. intros E2. apply bind_inv in E2. destruct E2 as (z & _ & E2). revert E2. destruct (negb (len (rq_coeffs m) =? z)); [discriminate|]. intros E2. apply bind_inv in E2. destruct E2 as (w & _ & E2). congruence. }
    subst r'. clear E2. destruct (repn_eqb r R) eqn:Er; [|discriminate]. unfold repn_eqb in Er. apply Z.eqb_eq in Er.
    destruct (Z.eqb_spec (rq_repr m) 1); [injection E1 as <-; destruct R; try discriminate Er; assumption|]. destruct (Z.eqb_spec (rq_repr m) 2); [injection E1 as <-; destruct R; try discriminate Er; assumption|].
    destruct (Z.eqb_spec (rq_repr m) 3); [injection E1 as <-; destruct R; try discriminate Er; assumption|]. destruct (rq_repr m =? 0); discriminate E1.
  - intros ->. reflexivity.
  - intros H. destruct (Z.eqb_spec (rq_repr m) 1); [lia|]. destruct (Z.eqb_spec (rq_repr m) 2); [lia|]. destruct (Z.eqb_spec (rq_repr m) 3); [lia|]. destruct (Z.eqb_spec (rq_repr m) 0); [lia|]. reflexivity.
Qed.
(** Random small polynomials (used by C34) *)
Lemma small_all : forall isp cands, oracles isp cands -> forall c, is_context isp cands c ->
  forall R rng v, (forall k, is_u64 (rng k)) ->
  (1 <= v <= 32 -> returns (poly_small R c v rng) c (map (cbd_value rng v) (seq 0 (c_degree c)))) /\
  (~ (1 <= v <= 32) -> poly_small R c v rng = Err (InvalidVariance v)).
Proof.
  use_ctx c. intros R rng v Hr. split; intros Hv.
  - destruct (sample_vec_cbd_ok rng (c_degree c) v Hr Hv) as (k & Ek & _). eapply returns_val; [exact Hc|rewrite map_length, seq_length; reflexivity|].
    unfold poly_small. replace ((1 <=? v) && (v <=? 32)) with true by (symmetry; apply andb_true_iff; split; apply Z.leb_le; lia). cbn [negb]. rewrite Ek. cbn [bind].
    rewrite (from_i64_eq c Hc); [|rewrite map_length, seq_length; lia|].
    + rewrite padded_full by (rewrite map_length, seq_length; reflexivity). cbn [bind]. rewrite (pb_into_eq c Hc) by (rewrite map_length, seq_length; reflexivity). cbn [bind].
      destruct R; reflexivity.
    + apply Forall_forall. intros a Ha. apply in_map_iff in Ha. destruct Ha as (i & <- & _). pose proof (cbd_value_bounds rng v i ltac:(lia)). unfold is_i64. lia.
  - unfold poly_small. destruct ((1 <=? v) && (v <=? 32)) eqn:E; [|reflexivity]. apply andb_true_iff in E. rewrite !Z.leb_le in E. lia.
Qed.
Lemma ntt_reject_all : forall isp cands, oracles isp cands -> forall pre p post K, (3 <= K < 63)%nat -> rns_basis (pre ++ p :: post) ->
  Forall (fun q => prime q /\ q < 2 ^ 62 /\ q mod (2 * 2 ^ Z.of_nat K) = 1 /\ exists a, In a (cands q) /\ a ^ ((q - 1) / 2) mod q = q - 1) pre ->
  ~ (prime p /\ p mod (2 * 2 ^ Z.of_nat K) = 1) ->
  context_new isp cands (pre ++ p :: post) (2 ^ K) = Err (NttOperatorUnavailable p (2 ^ Z.of_nat K)).
Proof.
  intros isp cands (H1 & H2) pre p post K HK Hb HF Hp. rewrite <- nat_pow2_Z in *. apply (context_err_ntt isp H1 cands H2); [exact HK|exact Hb| |].
  - eapply Forall_impl; [|exact HF]. cbv beta. intros q (Pq & Hq & Mq & a & Ia & Ea). split; [split; [exact Pq|split; [exact Hq|exact Mq]]|]. exists a. split; [exact Ia|].
    pose proof (prime_ge_2 _ Pq). unfold cong. rewrite Ea. replace (-1) with (q - 1 + (-1) * q) by ring. rewrite Z_mod_plus_full, Z.mod_small by lia. reflexivity.
  - intros (P & _ & Q). auto.
Qed.

(** A closed context for the examples. *)
Definition isp_ex (p : Z) : bool := (p =? 97) || (p =? 193).
Definition ctx_ex : M ctx := context_new isp_ex cands_ex [97; 193] 8.
Definition show {R} (p : poly R) : M (list Z) := q <- into_pb p ;; poly_to_big q.
