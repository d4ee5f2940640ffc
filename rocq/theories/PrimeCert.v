(** Primality certificates (Pocklington) and existence of quadratic non-residues, for closed examples. *)
From Verif Require Import Outcome BasicSpec NumTheory.
From Coq Require Import Znumtheory Zpow_facts.

(** * Modular powers *)
Fixpoint powm_pos (p a : Z) (e : positive) : Z :=
  match e with
  | xH => a mod p
  | xO e' => let r := powm_pos p a e' in r * r mod p
  | xI e' => let r := powm_pos p a e' in (r * r mod p) * a mod p
  end.
Definition powm (p a e : Z) : Z := match e with Z0 => 1 mod p | Zpos e => powm_pos p a e | Zneg _ => 0 end.
Lemma powm_pos_spec p a e : powm_pos p a e = a ^ Zpos e mod p.
Proof.
  induction e as [e IH|e IH|]; cbn [powm_pos].
  - rewrite IH. replace (Z.pos e~1) with (Z.pos e + Z.pos e + 1) by lia. rewrite !Z.pow_add_r, Z.pow_1_r by lia.
    rewrite <- Zmult_mod, Zmult_mod_idemp_l. reflexivity.
  - rewrite IH. replace (Z.pos e~0) with (Z.pos e + Z.pos e) by lia. rewrite Z.pow_add_r by lia. rewrite <- Zmult_mod. reflexivity.
  - rewrite Z.pow_1_r. reflexivity.
Qed.
Lemma powm_spec p a e : 0 <= e -> powm p a e = a ^ e mod p.
Proof. destruct e as [|e|e]; intros H; [reflexivity|apply powm_pos_spec|lia]. Qed.

(** * Certificates *)
Lemma pow_gcd_1 p b x y : prime p -> ~ cong p b 0 -> 0 <= x -> 0 <= y -> cong p (b ^ x) 1 -> cong p (b ^ y) 1 -> cong p (b ^ Z.gcd x y) 1.
Proof.
  intros Hp Hb Hx Hy Ex Ey. pose proof (prime_ge_2 _ Hp) as Hp2. revert y Hy Ex Ey. generalize Hx. pattern x. apply Z_lt_induction; [|exact Hx].
  clear x Hx. intros x IH Hx y Hy Ex Ey. destruct (Z.eq_dec x 0) as [->|Hx0]; [rewrite Z.gcd_0_l, Z.abs_eq by lia; exact Ey|].
  rewrite <- Z.gcd_mod by lia. pose proof (Z.mod_pos_bound y x ltac:(lia)) as Hm. apply IH; try lia.
  - apply (cong_mul_cancel_l p (b ^ (x * (y / x)))); [lia| |].
    + apply prime_rel_prime_cong; [exact Hp|]. intros H. pose proof (Z.div_pos y x ltac:(lia) ltac:(lia)). rewrite Z.pow_mul_r in H by lia.
      pose proof (cong_pow p _ _ (y / x) ltac:(lia) Ex) as H1. rewrite Z.pow_1_l in H1 by lia. pose proof (cong_trans _ _ _ _ (cong_sym _ _ _ H1) H) as H2. unfold cong in H2. rewrite !Z.mod_small in H2 by lia. lia.
    + pose proof (Z.div_pos y x ltac:(lia) ltac:(lia)). rewrite <- Z.pow_add_r by nia. rewrite <- Z_div_mod_eq_full, Z.mul_1_r. eapply cong_trans; [exact Ey|].
      rewrite Z.pow_mul_r by lia. apply cong_sym. pose proof (cong_pow p _ _ (y / x) ltac:(lia) Ex) as H1. rewrite Z.pow_1_l in H1 by lia. exact H1.
  - exact Ex.
Qed.
Lemma divide_prime_power r e d : prime r -> 0 <= e -> 0 <= d -> (d | r ^ (e + 1)) -> d <> r ^ (e + 1) -> (d | r ^ e).
Proof.
  intros Hr He Hd0 Hd Hne. pose proof (prime_ge_2 _ Hr). destruct (Zdivide_power_2 d r (e + 1)) as (m & Em); try assumption; try lia.
  assert (0 < r ^ (e + 1)) by (apply Z.pow_pos_nonneg; lia). assert (Hd1 : d <= r ^ (e + 1)) by (apply Z.divide_pos_le; assumption).
  assert (0 < d) by (destruct Hd as (x0 & Ex0); assert (d <> 0) by (intros H9; rewrite H9, Z.mul_0_r in Ex0; lia); lia). destruct (Z_lt_dec m 0) as [Hm|Hm]; [rewrite Z.pow_neg_r in Em by lia; lia|].
  assert (m < e + 1) by (apply (Z.pow_lt_mono_r_iff r); lia). exists (r ^ (e - m)). rewrite Em, <- Z.pow_add_r by lia. apply (f_equal (Z.pow r)). lia.
Qed.

(** One prime power [r ^ (e + 1)] of [p - 1] with its base [a]; [known] lists primes already certified. *)
Definition cert_entry (known : list Z) (p : Z) (c : Z * Z * Z) : bool :=
  let '(r, e, a) := c in
  (0 <=? e) && (if existsb (Z.eqb r) known then true else check_prime (S (Z.to_nat (Z.sqrt r))) r) && ((p - 1) mod (r ^ (e + 1)) =? 0) && (powm p a (p - 1) =? 1) && (Z.gcd (powm p a ((p - 1) / r) - 1) p =? 1).
Lemma cert_entry_spec known p r e a : Forall prime known -> 1 < p -> cert_entry known p (r, e, a) = true ->
  prime r /\ 0 <= e /\ forall q, prime q -> (q | p) -> (r ^ (e + 1) | q - 1).
Proof.
  intros Hkn Hp H. unfold cert_entry in H. rewrite !andb_true_iff, Z.leb_le, !Z.eqb_eq in H. destruct H as ((((He & Hr) & Hdiv) & Hf) & Hg).
  assert (Hr' : prime r).
  { destruct (existsb (Z.eqb r) known) eqn:Ek; [|exact (check_prime_spec _ _ Hr)]. apply existsb_exists in Ek. destruct Ek as (x & Hx & Ex). apply Z.eqb_eq in Ex. subst x. rewrite Forall_forall in Hkn. apply Hkn, Hx. }
  clear Hr. rename Hr' into Hr. pose proof (prime_ge_2 _ Hr) as Hr2. split; [exact Hr|]. split; [exact He|]. intros q Hq Hqp. pose proof (prime_ge_2 _ Hq) as Hq2.
  set (f := r ^ (e + 1)) in *. assert (Hf0 : 0 < f) by (apply Z.pow_pos_nonneg; lia). apply Z.mod_divide in Hdiv; [|lia]. destruct Hdiv as (k & Ek).
  assert (Hk : 0 < k) by nia. assert (Er : (p - 1) / r = k * r ^ e).
  { rewrite Ek. unfold f. rewrite Z.pow_add_r, Z.pow_1_r by lia. rewrite Z.mul_assoc. apply Z.div_mul. lia. }
  rewrite powm_spec in Hf by lia. rewrite powm_spec in Hg by (apply Z.div_pos; lia). rewrite Er in Hg.
  assert (H : 0 < r ^ e) by (apply Z.pow_pos_nonneg; lia).
  assert (Hf' : cong q (a ^ (p - 1)) 1).
  { apply cong_divide; [lia|]. eapply Z.divide_trans; [exact Hqp|]. apply cong_divide; [lia|]. unfold cong. rewrite Hf, Z.mod_small by lia. reflexivity. }
  assert (Ha : ~ cong q (a ^ k) 0).
  { intros H0. pose proof (cong_pow q _ _ f ltac:(lia) H0) as H1. rewrite Z.pow_0_l in H1 by lia. rewrite <- Z.pow_mul_r, <- Ek in H1 by lia.
    pose proof (cong_trans _ _ _ _ (cong_sym _ _ _ Hf') H1) as H2. unfold cong in H2. rewrite !Z.mod_small in H2 by lia. lia. }
  assert (Hb : cong q ((a ^ k) ^ f) 1) by (rewrite <- Z.pow_mul_r, <- Ek by lia; exact Hf').
  assert (Hfe : cong q ((a ^ k) ^ (q - 1)) 1).
  { apply cong_trans with (((a ^ k) mod q) ^ (q - 1)); [apply cong_sym, cong_pow_mod; lia|]. apply fermat; [exact Hq|]. pose proof (Z.mod_pos_bound (a ^ k) q ltac:(lia)).
    destruct (Z.eq_dec (a ^ k mod q) 0) as [E|]; [|lia]. destruct Ha. unfold cong. rewrite E, Z.mod_0_l by lia. reflexivity. }
  destruct (Z.eq_dec (Z.gcd f (q - 1)) f) as [E|E]; [rewrite <- E; apply Z.gcd_divide_r|]. exfalso.
  pose proof (pow_gcd_1 q (a ^ k) f (q - 1) Hq Ha ltac:(lia) ltac:(lia) Hb Hfe) as H1.
  destruct (divide_prime_power r e (Z.gcd f (q - 1)) Hr He (Z.gcd_nonneg _ _) (Z.gcd_divide_l _ _) E) as (j & Ej).
  pose proof (Z.gcd_nonneg f (q - 1)) as H0. assert (Hj : 0 <= j) by (clear - Ej H H0; nia).
  pose proof (cong_pow q _ _ j Hj H1) as H2. rewrite Z.pow_1_l in H2 by lia. rewrite <- Z.pow_mul_r in H2 by lia. rewrite (Z.mul_comm (Z.gcd f (q - 1))), <- Ej, <- Z.pow_mul_r in H2 by lia.
  assert (Hq1 : (q | Z.gcd (a ^ (k * r ^ e) mod p - 1) p)).
  { apply Z.gcd_greatest; [|exact Hqp]. apply cong_divide; [lia|]. eapply cong_trans; [|exact H2]. apply cong_divide; [lia|]. eapply Z.divide_trans; [exact Hqp|]. apply cong_divide; [lia|]. apply cong_mod. }
  rewrite Hg in Hq1. apply Z.divide_1_r_nonneg in Hq1; lia.
Qed.

Definition cert_product (l : list (Z * Z * Z)) : Z := fold_right (fun c x => let '(r, e, a) := c in r ^ (e + 1) * x) 1 l.
Fixpoint cert_coprime (l : list (Z * Z * Z)) : bool :=
  match l with [] => true | (r, e, a) :: t => (Z.gcd (r ^ (e + 1)) (cert_product t) =? 1) && cert_coprime t end.
Definition prime_cert (known : list Z) (p : Z) (l : list (Z * Z * Z)) : bool :=
  (1 <? p) && forallb (cert_entry known p) l && cert_coprime l && (p <? cert_product l * cert_product l).
Lemma prime_factor k : 1 < k -> exists s, prime s /\ (s | k).
Proof.
  assert (G : forall n : nat, forall k, 1 < k <= Z.of_nat n -> exists s, prime s /\ (s | k)).
  { induction n as [|n IH]; intros j Hk; [lia|]. destruct (prime_dec j) as [P|P]; [exists j; split; [exact P|apply Z.divide_refl]|].
    destruct (not_prime_divide j ltac:(lia) P) as (q & Hq & Hdq). destruct (IH q ltac:(lia)) as (s & Ps & Hs). exists s. split; [exact Ps|]. exact (Z.divide_trans _ _ _ Hs Hdq). }
  intros H1. apply (G (Z.to_nat k)). lia.
Qed.
Theorem prime_cert_spec known p l : Forall prime known -> prime_cert known p l = true -> prime p.
Proof.
  unfold prime_cert. rewrite !andb_true_iff, !Z.ltb_lt, forallb_forall. intros Hkn (((Hp & He) & Hc) & Hl).
  assert (G : forall q, prime q -> (q | p) -> (cert_product l | q - 1)).
  { intros q Hq Hqp. clear Hl. induction l as [|((r, e), a) l IH]; [apply Z.divide_1_l|]. cbn [cert_product fold_right cert_coprime] in *.
    apply andb_true_iff in Hc. destruct Hc as (Hc1 & Hc2). apply Z.eqb_eq in Hc1. fold (cert_product l) in *.
    destruct (cert_entry_spec known p r e a Hkn Hp (He _ (or_introl eq_refl))) as (_ & _ & H1). specialize (H1 q Hq Hqp).
    specialize (IH (fun x Hx => He x (or_intror Hx)) Hc2). destruct H1 as (u & Eu). rewrite Eu in IH |- *. rewrite Z.mul_comm in IH |- *. 
    destruct (Z.gauss (cert_product l) (r ^ (e + 1)) u IH ltac:(rewrite Z.gcd_comm; exact Hc1)) as (v & ->). exists v. ring. }
  destruct (prime_dec p) as [P|P]; [exact P|exfalso].
  destruct (not_prime_divide p Hp P) as (n & Hn & (m & Em)). 
  assert (Hsmall : exists x, 1 < x /\ x * x <= p /\ (x | p)).
  { assert (1 < m < p) by nia. destruct (Z_le_dec n m); [exists n|exists m]; (split; [lia|]); (split; [nia|]); [exists m|exists n]; lia. }
  destruct Hsmall as (x & Hx & Hxx & Hxp). destruct (prime_factor x Hx) as (s & Ps & Hs). pose proof (prime_ge_2 _ Ps). assert (s <= x) by (apply Z.divide_pos_le; [lia|exact Hs]).
  assert (Hcp : 0 < cert_product l).
  { clear - He Hp Hkn. induction l as [|((r, e), a) l IH]; [reflexivity|]. cbn [cert_product fold_right]. fold (cert_product l). destruct (cert_entry_spec known p r e a Hkn Hp (He _ (or_introl eq_refl))) as (Hr & H0 & _). apply prime_ge_2 in Hr.
    assert (0 < r ^ (e + 1)) by (apply Z.pow_pos_nonneg; lia). specialize (IH (fun x Hx => He x (or_intror Hx))). nia. }
  assert (Hle : cert_product l <= s - 1) by (apply Z.divide_pos_le; [lia|exact (G s Ps (Z.divide_trans _ _ _ Hs Hxp))]).
  assert (cert_product l * cert_product l <= x * x) by (apply Z.mul_le_mono_nonneg; lia). lia.
Qed.

(** * A primality oracle with a table *)
Inductive verdict := Composite (d : Z) | IsPrime (cert : list (Z * Z * Z)).
Definition check_verdict (known : list Z) (e : Z * verdict) : bool :=
  match snd e with
  | Composite d => (1 <? d) && (d <? fst e) && (fst e mod d =? 0)
  | IsPrime l => prime_cert known (fst e) l
  end.
Fixpoint check_table (known : list Z) (tbl : list (Z * verdict)) : bool :=
  match tbl with
  | [] => true
  | e :: t => check_verdict known e && check_table (match snd e with IsPrime _ => fst e :: known | _ => known end) t
  end.
Definition table_oracle (tbl : list (Z * bool)) (p : Z) : bool :=
  match find (fun e => fst e =? p) tbl with Some (_, b) => b | None => if prime_dec p then true else false end.
Definition verdict_bool (v : verdict) : bool := match v with Composite _ => false | IsPrime _ => true end.
Lemma check_verdict_spec known e : Forall prime known -> check_verdict known e = true -> (verdict_bool (snd e) = true <-> prime (fst e)).
Proof.
  intros Hkn. destruct e as (p, [d|l]); unfold check_verdict; cbn [fst snd verdict_bool].
  - rewrite !andb_true_iff, !Z.ltb_lt, Z.eqb_eq. intros ((H1 & H2) & H3). split; [discriminate|]. intros P. apply prime_alt in P. destruct P as (_ & P). destruct (P d ltac:(lia)). apply Z.mod_divide; [lia|exact H3].
  - intros H. split; [intros _; exact (prime_cert_spec known p l Hkn H)|reflexivity].
Qed.
Lemma check_table_spec tbl : forall known, Forall prime known -> check_table known tbl = true -> Forall (fun e => verdict_bool (snd e) = true <-> prime (fst e)) tbl.
Proof.
  induction tbl as [|e t IH]; intros known Hkn H; constructor; cbn [check_table] in H; apply andb_true_iff in H; destruct H as (H1 & H2).
  - exact (check_verdict_spec known e Hkn H1).
  - apply (IH _) in H2; [exact H2|]. pose proof (check_verdict_spec known e Hkn H1) as H3. destruct e as (p, [d|l]); cbn [fst snd verdict_bool] in *; [exact Hkn|]. constructor; [apply H3; reflexivity|exact Hkn].
Qed.
Theorem table_oracle_spec cert : check_table [] cert = true -> prime_oracle (table_oracle (map (fun e => (fst e, verdict_bool (snd e))) cert)).
Proof.
  intros H p _. apply check_table_spec in H; [|constructor]. unfold table_oracle. destruct (find _ _) as [(p', b)|] eqn:E.
  - apply find_some in E. destruct E as (Hin & Ep). cbn [fst] in Ep. apply Z.eqb_eq in Ep. subst p'. apply in_map_iff in Hin. destruct Hin as (e & Ee & Hin). injection Ee as <- <-.
    rewrite Forall_forall in H. apply H, Hin.
  - destruct (prime_dec p); split; intros; try reflexivity; try assumption; try discriminate; contradiction.
Qed.

(** * Quadratic non-residues exist *)
Definition pval (x : Z) (f : list Z) : Z := fold_right (fun c r => c + x * r) 0 f.
(** Coefficients are in increasing degree; [pdiv a f] is the quotient of [f] by [X - a]. *)
Fixpoint pdiv (a : Z) (f : list Z) : list Z :=
  match f with
  | [] => []
  | c :: f' => match f' with [] => [] | _ => pval a f' :: pdiv a f' end
  end.
Lemma pdiv_length a f : length (pdiv a f) = (length f - 1)%nat.
Proof. induction f as [|c f IH]; [reflexivity|]. cbn [pdiv]. destruct f as [|c' f]; [reflexivity|]. cbn [length] in *. rewrite IH. lia. Qed.
Lemma pdiv_val a x f : pval x f = pval a f + (x - a) * pval x (pdiv a f).
Proof.
  induction f as [|c f IH]; [cbn; ring|]. cbn [pdiv]. destruct f as [|c' f]; [cbn; ring|].
  change (pval x (c :: c' :: f)) with (c + x * pval x (c' :: f)). change (pval a (c :: c' :: f)) with (c + a * pval a (c' :: f)).
  change (pval x (pval a (c' :: f) :: pdiv a (c' :: f))) with (pval a (c' :: f) + x * pval x (pdiv a (c' :: f))). rewrite IH. ring.
Qed.
Lemma pdiv_last a f : (2 <= length f)%nat -> last (pdiv a f) 0 = last f 0.
Proof.
  induction f as [|c f IH]; cbn [length]; [lia|]. intros H. destruct f as [|c' f]; cbn [length] in *; [lia|]. destruct f as [|c'' f]; [cbn; ring|].
  cbn [length] in IH. specialize (IH ltac:(lia)). change (last (pval a (c' :: c'' :: f) :: pdiv a (c' :: c'' :: f)) 0 = last (c' :: c'' :: f) 0).
  rewrite <- IH. destruct (pdiv a (c' :: c'' :: f)) as [|u v] eqn:E; [|reflexivity]. apply (f_equal (@length Z)) in E. rewrite pdiv_length in E. cbn in E. lia.
Qed.
Lemma roots_bound p f : prime p -> f <> [] -> ~ cong p (last f 0) 0 -> forall roots, NoDup roots -> Forall (fun x => 0 <= x < p /\ cong p (pval x f) 0) roots -> (length roots < length f)%nat.
Proof.
  intros Hp. remember (length f) as n eqn:En. revert f En. induction n as [|n IH]; intros f En Hf Hl roots Hnd HF; [destruct f; [congruence|discriminate]|].
  destruct roots as [|a roots]; [cbn; lia|]. inversion Hnd as [|? ? Hna Hnd']; subst. inversion HF as [|? ? (Ha & Ea) HF']; subst.
  destruct n as [|n].
  - destruct f as [|c [|]]; try discriminate. cbn in Ea, Hl. replace (c + a * 0) with c in Ea by ring. contradiction.
  - cbn [length]. apply Nat.succ_lt_mono with (n := length roots). apply (IH (pdiv a f)); try assumption.
    + rewrite pdiv_length. lia.
    + intros E0. apply (f_equal (@length Z)) in E0. rewrite pdiv_length in E0. cbn in E0. lia.
    + rewrite pdiv_last by lia. exact Hl.
    + rewrite Forall_forall in HF' |- *. intros x Hx. destruct (HF' x Hx) as (Hxr & Ex). split; [exact Hxr|]. rewrite (pdiv_val a x f) in Ex.
      assert (E2 : cong p ((x - a) * pval x (pdiv a f)) 0).
      { replace ((x - a) * pval x (pdiv a f)) with (pval a f + (x - a) * pval x (pdiv a f) - pval a f) by ring. replace 0 with (0 - 0) by ring. apply cong_sub; assumption. }
      apply prime_integral in E2; [|exact Hp]. destruct E2 as [E2|E2]; [|exact E2]. exfalso. apply Hna. replace a with x; [exact Hx|]. apply (cong_small p); [exact Hxr|exact Ha|].
      pose proof (cong_add p _ _ _ _ E2 (cong_refl p a)) as E3. replace (x - a + a) with x in E3 by ring. exact E3.
Qed.
Lemma pval_monomial x n : pval x (repeat 0 n ++ [1]) = x ^ Z.of_nat n.
Proof. induction n as [|n IH]; [unfold pval; cbn [repeat app fold_right]; change (Z.of_nat 0) with 0; ring|]. change (repeat 0 (S n) ++ [1]) with (0 :: repeat 0 n ++ [1]). cbn [pval fold_right]. fold (pval x (repeat 0 n ++ [1])). rewrite IH, Nat2Z.inj_succ, Z.pow_succ_r by lia. ring. Qed.
Theorem nonresidue_exists p : prime p -> 2 < p -> exists a, 1 <= a < p /\ a ^ ((p - 1) / 2) mod p = p - 1.
Proof.
  intros Hp H2. set (h := (p - 1) / 2). assert (Hodd : 2 * h = p - 1).
  { pose proof (Z.div_mod (p - 1) 2 ltac:(lia)) as E. fold h in E. pose proof (Z.mod_pos_bound (p - 1) 2 ltac:(lia)). destruct (Z.eq_dec ((p - 1) mod 2) 0) as [E0|E0]; [lia|].
    exfalso. apply prime_alt in Hp. destruct Hp as (_ & Hp). apply (Hp 2 ltac:(lia)). exists (h + 1). lia. }
  assert (Hh : 0 < h) by lia.
  destruct (existsb (fun a => a ^ h mod p =? p - 1) (residues p)) eqn:E.
  { apply existsb_exists in E. destruct E as (a & Ha & Ea). apply residues_in in Ha; [|lia]. apply Z.eqb_eq in Ea. eauto. }
  exfalso.
  assert (Hall : forall a, In a (residues p) -> cong p (a ^ h) 1).
  { intros a Ha. apply residues_in in Ha as Hr; [|lia]. assert (Hsq : cong p (a ^ h * a ^ h) 1) by (rewrite <- Z.pow_add_r by lia; replace (h + h) with (p - 1) by lia; apply fermat; [exact Hp|lia]).
    destruct (prime_square_1 p (a ^ h) Hp Hsq) as [H|H]; [exact H|].
    - exfalso. assert (Hx : existsb (fun a => a ^ h mod p =? p - 1) (residues p) = true); [|congruence]. apply existsb_exists. exists a. split; [exact Ha|]. apply Z.eqb_eq. unfold cong in H. rewrite H.
      replace (-1) with (p - 1 + (-1) * p) by ring. rewrite Z_mod_plus_full, Z.mod_small by lia. reflexivity. }
  destruct (Z.to_nat h) as [|n] eqn:En; [lia|].
  pose proof (roots_bound p ((-1) :: repeat 0 n ++ [1]) Hp ltac:(discriminate)) as Hb.
  assert (Hlast : last ((-1) :: repeat 0 n ++ [1]) 0 = 1) by (rewrite app_comm_cons; apply last_last). rewrite Hlast in Hb.
  specialize (Hb ltac:(unfold cong; rewrite !Z.mod_small by lia; lia) (residues p) (residues_nodup p)).
  assert (HF : Forall (fun x => 0 <= x < p /\ cong p (pval x ((-1) :: repeat 0 n ++ [1])) 0) (residues p)).
  { apply Forall_forall. intros x Hx. apply residues_in in Hx as Hr; [|lia]. split; [lia|]. cbn [pval fold_right]. fold (pval x (repeat 0 n ++ [1])). rewrite pval_monomial.
    replace (-1 + x * x ^ Z.of_nat n) with (x ^ h - 1); [|replace h with (Z.succ (Z.of_nat n)) by lia; rewrite Z.pow_succ_r by lia; ring]. replace 0 with (1 - 1) by ring. apply cong_sub; [apply Hall, Hx|apply cong_refl]. }
  specialize (Hb HF). cbn [length] in Hb. rewrite app_length, repeat_length in Hb. cbn [length] in Hb. pose proof (residues_length p ltac:(lia)). lia.
Qed.
