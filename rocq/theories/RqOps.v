(** Substitution, modulus switching, multiplication by monomials and dot products on canonical representations. *)
From Verif Require Import Outcome BasicSpec OutcomeLemmas ZqModel ZqProofs ZqPow NumTheory NttModel PolySpec PolyRing NttPure NttStages NttProofs.
From Verif Require Import RnsModel RnsSpec RnsProofs RqModel RqSpec RqCtx RqRows RqProofs RingRn.
From Coq Require Import Znumtheory.

(** ** Modulus switching *)
Lemma ntt_ok_odd op K w : ntt_ok op K w -> mod_p (nt_p op) mod 2 = 1.
Proof.
  intros Hok. pose proof (ok_prime _ _ _ Hok) as Hp. pose proof (prime_ge_2 _ Hp). pose proof (Z.mod_pos_bound (mod_p (nt_p op)) 2 ltac:(lia)) as Hb.
  destruct (Z.eq_dec (mod_p (nt_p op) mod 2) 0) as [E|E]; [exfalso|lia].
  apply Z.mod_divide in E; [|lia]. apply (prime_divisors _ Hp) in E. assert (E2 : mod_p (nt_p op) = 2) by lia.
  pose proof (ok_si1 _ _ _ Hok) as Hs. rewrite E2 in Hs. unfold cong in Hs. pose proof (ok_K _ _ _ Hok) as HK.
  replace (Z.of_nat K) with (1 + Z.of_nat (K - 1)) in Hs by lia. rewrite Z.pow_add_r in Hs by lia.
  replace (2 ^ 1 * 2 ^ Z.of_nat (K - 1) * nt_size_inv op) with (2 ^ Z.of_nat (K - 1) * nt_size_inv op * 2) in Hs by ring. rewrite Z_mod_mult in Hs. discriminate.
Qed.
Lemma round_div_half q v : q mod 2 = 1 -> 2 <= q -> round_div q v = (v + q / 2) / q.
Proof.
  intros Ho Hq. unfold round_div. pose proof (Z.div_mod q 2 ltac:(lia)) as E. rewrite Ho in E. set (h := q / 2) in *.
  pose proof (Z.div_mod (v + h) q ltac:(lia)). pose proof (Z.mod_pos_bound (v + h) q ltac:(lia)).
  symmetry. apply Z.div_unique with (r := 2 * ((v + h) mod q) + 1); lia.
Qed.

Section SwitchCoeff.
  Variables (qi : modulus) (Hm : valid_modulus qi) (ql : Z) (Hql : 2 <= ql < W62).
  Notation p := (mod_p qi).
  Variables (inv : Z) (Hinv : 0 <= inv < p) (Hone : cong p (ql * inv) 1).
  Let Hp : 2 <= p < W62 := proj1 (valid_fields qi Hm).
  Lemma switch_coeff_spec v : 
    switch_coeff qi (p - (ql / 2) mod p) inv (shoup_of qi inv) (v mod p) ((v mod ql + ql / 2) mod ql) = Val (((v + ql / 2) / ql) mod p).
  Proof.
    assert (HW : W62 * 4 = W64) by reflexivity. set (h := ql / 2) in *. unfold switch_coeff.
    pose proof (Z.mod_pos_bound (v mod ql + h) ql ltac:(lia)) as HL. set (L := (v mod ql + h) mod ql) in *.
    destruct (lazy_reduce_spec qi L Hm ltac:(unfold is_u64; lia)) as (l & -> & Hl & El). cbn [bind].
    pose proof (Z.mod_pos_bound h p ltac:(lia)) as Hh. pose proof (Z.mod_pos_bound v p ltac:(lia)) as Hv. unfold chk64.
    rewrite !bind_chk by lia. rewrite (mul_shoup_spec qi Hm) by (try assumption; unfold is_u64; lia). f_equal.
    assert (EL : L = v + h - ql * ((v + h) / ql)).
    { unfold L. rewrite Zplus_mod_idemp_l. pose proof (Z.div_mod (v + h) ql ltac:(lia)). lia. }
    change (cong p ((v mod p + (3 * p - (l + (p - h mod p)))) * inv) ((v + h) / ql)).
    set (t := (v + h) / ql) in *.
    assert (C1 : cong p (v mod p + (3 * p - (l + (p - h mod p)))) (ql * t)).
    { unfold cong. replace (v mod p + (3 * p - (l + (p - h mod p)))) with (v mod p + (h mod p - l) + 2 * p) by ring.
      rewrite Z_mod_plus_full, Zplus_mod_idemp_l, <- Zplus_mod_idemp_r, Zminus_mod_idemp_l, Zplus_mod_idemp_r.
      rewrite <- Zplus_mod_idemp_r, Zminus_mod, El, <- Zminus_mod, Zplus_mod_idemp_r. f_equal. lia. }
    rewrite C1. replace (ql * t * inv) with (ql * inv * t) by ring. rewrite Hone. replace (1 * t) with t by ring. reflexivity.
  Qed.
End SwitchCoeff.

Lemma zip_upd_map2 {A B C} (f : A -> B -> M A) (g : C -> A) (h : C -> B) (r : C -> A) l :
  (forall a, f (g a) (h a) = Val (r a)) -> zip_upd f (map g l) (map h l) = Val (map r l).
Proof. intros H. apply zip_upd_map. intros; apply H. Qed.

Lemma last_app_l {A} (l : list A) a d : last (l ++ [a]) d = a.
Proof. induction l as [|b l IH]; [reflexivity|]. cbn [app last]. destruct (l ++ [a]) eqn:E; [destruct l; discriminate|]. exact IH. Qed.

Section Switch.
  Variables (c : ctx) (Hg : good_ctx c).
  Let Hc : ctx_ok c := good_ok c Hg.
  Notation N := (c_degree c).
  Definition q_last : Z := last (c_moduli c) 0.
  Lemma switch_rows_spec v half last_row x ops invs invs_shoup : 
    half = q_last / 2 -> last_row = map (fun a => (a mod q_last + half) mod q_last) x -> 2 <= q_last < W62 ->
    Forall2 (fun op i => valid_modulus (nt_p op) /\ 0 <= i < mod_p (nt_p op) /\ cong (mod_p (nt_p op)) (q_last * i) 1) ops invs ->
    Forall2 (fun op ii => snd ii = shoup_of (nt_p op) (fst ii)) ops (combine invs invs_shoup) -> length invs_shoup = length invs ->
    forall more, switch_rows v half last_row (map (fun op => rmod (mod_p (nt_p op)) x) ops) (map nt_p ops ++ more) invs invs_shoup =
      Val (map (fun op => rmod (mod_p (nt_p op)) (map (fun a => (a + half) / q_last) x)) ops).
  Proof.
    intros Eh El Hl H. revert invs_shoup. induction H as [|op i ops invs (Hm & Hi & H1) H IH]; intros [|s invs_shoup] Hs Hlen more; try discriminate; [reflexivity|].
    cbn [combine] in Hs. inversion Hs as [|? ? ? ? Es Hs']; subst. cbn [fst snd] in Es. subst s.
    cbn [map app switch_rows].
    destruct (valid_fields _ Hm) as (Hp & _). assert (HW : W62 * 4 = W64) by reflexivity.
    assert (Hh : 0 <= q_last / 2 < q_last) by (split; [apply Z.div_pos; lia|apply Z.div_lt; lia]).
    assert (E : (if v then reduce_vt (nt_p op) (q_last / 2) else reduce (nt_p op) (q_last / 2)) = Val ((q_last / 2) mod mod_p (nt_p op))).
    { destruct v; [apply reduce_vt_spec|apply reduce_spec]; try assumption; unfold is_u64; lia. }
    rewrite E. cbn [bind]. pose proof (Z.mod_pos_bound (q_last / 2) (mod_p (nt_p op)) ltac:(lia)). unfold chk64. rewrite bind_chk by lia.
    unfold rmod at 1. rewrite zip_upd_map2 with (r := fun a => ((a + q_last / 2) / q_last) mod mod_p (nt_p op)).
    2:{ intros a. apply switch_coeff_spec; assumption. }
    cbn [bind]. rewrite IH by (try assumption; cbn [length] in Hlen; lia). cbn [bind]. do 2 f_equal. unfold rmod. rewrite map_map. reflexivity.
  Qed.

  Theorem switch_down_eq c' v x : c_next c = Some c' -> length x = N ->
    switch_down (poly_of PowerBasis c v x) = Val (poly_of PowerBasis c' v (map (round_div q_last) x)).
  Proof.
    intros En Hx. destruct (good_next c c' Hg En) as (Hg' & Hm' & Ho' & Hd'). unfold switch_down. cbn [p_ctx p_coeffs p_vt p_lazy p_shoup poly_of]. rewrite En.
    destruct (exists_last (co_ne _ Hc)) as (ops & opl & Eops). rewrite (q_length c Hc).
    assert (Eq : c_q c = map nt_p ops ++ [nt_p opl]) by (rewrite (q_ops c Hc), Eops, map_app; reflexivity).
    assert (El : q_last = mod_p (nt_p opl)) by (unfold q_last; rewrite (moduli_ops c Hc), Eops, map_app; apply last_app_l).
    assert (Hok : exists K w, ntt_ok opl K w /\ nt_size opl = N) by (apply (op_ok c Hc); rewrite Eops; apply in_elt).
    destruct Hok as (K & w & Hok & Hs). pose proof (ok_m _ _ _ Hok) as Hm. destruct (valid_fields _ Hm) as (Hp & _).
    assert (Eo' : c_ops c' = ops) by (rewrite Ho', Eops; apply removelast_last).
    rewrite Eops, app_length. cbn [length]. replace (length ops + 1 - 1)%nat with (length ops) by lia.
    rewrite Eq. rewrite nth_error_app2 by (rewrite map_length; lia). rewrite map_length, Nat.sub_diag. cbn [nth_error unwrap bind].
    rewrite map_app. cbn [map]. rewrite nth_error_app2 by (rewrite map_length; lia). rewrite map_length, Nat.sub_diag. cbn [nth_error unwrap bind].
    cbn [row]. rewrite <- El. fold (rmod q_last x).
    assert (E : mapM (fun a => if v then zq_add_vt (nt_p opl) a (q_last / 2) else zq_add (nt_p opl) a (q_last / 2)) (rmod q_last x) = Val (map (fun a => (a mod q_last + q_last / 2) mod q_last) x)).
    { unfold rmod. apply mapM_map. intros a _. pose proof (Z.mod_pos_bound a q_last ltac:(lia)).
      assert (0 <= q_last / 2 < q_last) by (split; [apply Z.div_pos; lia|apply Z.div_lt; lia]).
      rewrite El in *. destruct v; [apply zq_add_vt_spec|apply zq_add_spec]; assumption. }
    rewrite E. cbn [bind]. rewrite firstn_app, map_length, Nat.sub_diag. cbn [firstn]. rewrite app_nil_r, firstn_all2 by (rewrite map_length; lia).
    pose proof (co_inv _ Hc) as Hinv. pose proof (co_inv_shoup _ Hc) as Hinvs. rewrite Eops, removelast_last in Hinv, Hinvs.
    rewrite (switch_rows_spec v (q_last / 2) _ x ops (c_inv c) (c_inv_shoup c) eq_refl eq_refl); [|lia| |exact Hinvs|apply (co_inv_len _ Hc)].
    - cbn [bind]. unfold poly_of. rewrite Eo'. do 2 f_equal. apply map_ext. intros op. cbn [row]. unfold rmod. f_equal. apply map_ext. intros a. symmetry. apply round_div_half; [rewrite El; apply (ntt_ok_odd _ _ _ Hok)|lia].
    - assert (Hv : Forall (fun op => valid_modulus (nt_p op)) ops).
      { apply Forall_forall. intros op Hop. destruct (op_ok c Hc op) as (K' & w' & Hok' & _); [rewrite Eops; apply in_or_app; left; exact Hop|]. apply (ok_m _ _ _ Hok'). }
      clear -Hinv Hv. induction Hinv as [|op i ops invs (H1 & H2) H IH]; constructor; inversion Hv; subst; [|auto]. unfold q_last. auto.
  Qed.
  Theorem switch_down_none v x : c_next c = None -> switch_down (poly_of PowerBasis c v x) = Err NoMoreContext.
  Proof. intros En. unfold switch_down. cbn [p_ctx poly_of]. rewrite En. reflexivity. Qed.
End Switch.

(** ** Placement of coefficients *)
Definition place (n j : nat) (f : nat -> Z) (x : list Z) : list Z :=
  map (fun k => sumn j (fun j' => if f j' mod Z.of_nat n =? Z.of_nat k then monomial_sign (Z.of_nat n) (f j') * nth j' x 0 else 0)) (seq 0 n).
Lemma place_length n j f x : length (place n j f x) = n.
Proof. unfold place. rewrite map_length, seq_length. reflexivity. Qed.
Lemma nth_place n j f x k : (k < n)%nat -> nth k (place n j f x) 0 = sumn j (fun j' => if f j' mod Z.of_nat n =? Z.of_nat k then monomial_sign (Z.of_nat n) (f j') * nth j' x 0 else 0).
Proof. intros Hk. unfold place. apply (nth_map_seq (fun k => sumn j (fun j' => if f j' mod Z.of_nat n =? Z.of_nat k then _ else _))). exact Hk. Qed.
Lemma set_nth_length {A} (l : list A) i v : length (set_nth l i v) = length l.
Proof. revert i. induction l as [|a l IH]; intros [|i]; cbn [set_nth length]; auto. Qed.
Lemma nth_set_nth (l : list Z) i v k d : (i < length l)%nat -> nth k (set_nth l i v) d = if Nat.eqb k i then v else nth k l d.
Proof.
  revert i k. induction l as [|a l IH]; intros [|i] [|k] Hi; cbn [length] in Hi; try lia; cbn [set_nth nth Nat.eqb]; try reflexivity. apply IH. lia.
Qed.
Lemma land_mask a K : 0 <= K -> Z.land a (2 ^ K - 1) = a mod 2 ^ K.
Proof. intros HK. rewrite <- Z.land_ones by exact HK. rewrite Z.ones_equiv, Z.sub_1_r. reflexivity. Qed.
Lemma land_bit a K : 0 <= K -> (Z.land a (2 ^ K) =? 0) = Z.even (a / 2 ^ K).
Proof.
  intros HK. rewrite <- Z.shiftr_div_pow2 by exact HK. rewrite <- Z.negb_odd, <- Z.testbit_odd. destruct (Z.testbit a K) eqn:E; cbn [negb].
  - apply Z.eqb_neq. intros E0. apply (f_equal (fun z => Z.testbit z K)) in E0. rewrite Z.land_spec, E, Z.pow2_bits_eqb, Z.eqb_refl, Z.testbit_0_l in E0 by exact HK. discriminate.
  - apply Z.eqb_eq. apply Z.bits_inj'. intros i Hi. rewrite Z.land_spec, Z.pow2_bits_eqb, Z.testbit_0_l by exact HK.
    destruct (Z.eqb_spec K i) as [<-|]; [rewrite E; reflexivity|apply andb_false_r].
Qed.
Lemma rmod_nth p x k : nth k (rmod p x) 0 = nth k x 0 mod p.
Proof. unfold rmod. rewrite <- (Zmod_0_l p) at 1. apply (map_nth (fun v => v mod p)). Qed.
Lemma skipn_nth_cons (l : list Z) j : (j < length l)%nat -> skipn j l = nth j l 0 :: skipn (S j) l.
Proof. revert j. induction l as [|a l IH]; intros [|j] H; cbn [length] in H; try lia; [reflexivity|]. cbn [skipn nth]. apply IH. lia. Qed.

Section Place.
  Variables (op : ntt_op) (K : nat) (w : Z) (Hok : ntt_ok op K w).
  Notation q := (nt_p op).
  Notation p := (mod_p q).
  Variables (n : nat) (Hn : n = (2 ^ K)%nat).
  Notation nz := (Z.of_nat n).
  Let Hm : valid_modulus q := ok_m _ _ _ Hok.
  Let Hp : 2 <= p < W62 := proj1 (valid_fields q Hm).
  Let Enz : nz = 2 ^ Z.of_nat K.
  Proof. rewrite Hn. apply nat_pow2_Z. Qed.
  Let Hnz : 0 < nz.
  Proof. rewrite Enz. apply Z.pow_pos_nonneg; lia. Qed.
  Lemma mask a : Z.land a (nz - 1) = a mod nz.
  Proof. rewrite Enz. apply land_mask. lia. Qed.
  Lemma signbit a : (Z.land a nz =? 0) = Z.even (a / nz).
  Proof. rewrite Enz. apply land_bit. lia. Qed.

  Lemma subst_row_spec e x : length x = n -> 0 <= e -> nz * e < W64 -> forall j, (j <= n)%nat ->
    subst_row q nz e (skipn j (rmod p x)) (Z.of_nat j * e) (rmod p (place n j (fun j' => Z.of_nat j' * e) x)) =
    Val (rmod p (place n n (fun j' => Z.of_nat j' * e) x)).
  Proof.
    intros Hx He Hlt. set (f := fun j' : nat => Z.of_nat j' * e).
    assert (G : forall k j, (j + k = n)%nat -> subst_row q nz e (skipn j (rmod p x)) (Z.of_nat j * e) (rmod p (place n j f x)) = Val (rmod p (place n n f x))).
    2:{ intros j Hj. apply (G (n - j)%nat). lia. }
    induction k as [|k IH]; intros j Hj.
    - rewrite skipn_all2 by (rewrite rmod_length; lia). replace j with n by lia. reflexivity.
    - rewrite skipn_nth_cons by (rewrite rmod_length; lia). cbn [subst_row]. rewrite mask, signbit.
      pose proof (Z.mod_pos_bound (Z.of_nat j * e) nz Hnz) as Hi. set (i := Z.to_nat ((Z.of_nat j * e) mod nz)). assert (Hin : (i < n)%nat) by lia.
      rewrite get_nth by (rewrite rmod_length, place_length; exact Hin). cbn [bind]. rewrite !rmod_nth.
      pose proof (Z.mod_pos_bound (nth i (place n j f x) 0) p ltac:(lia)) as B1. pose proof (Z.mod_pos_bound (nth j x 0) p ltac:(lia)) as B2.
      assert (Ez : (if negb (Z.even (Z.of_nat j * e / nz)) then zq_sub q (nth i (place n j f x) 0 mod p) (nth j x 0 mod p) else zq_add q (nth i (place n j f x) 0 mod p) (nth j x 0 mod p))
                   = Val ((nth i (place n j f x) 0 + monomial_sign nz (f j) * nth j x 0) mod p)).
      { unfold monomial_sign, f. destruct (Z.even (Z.of_nat j * e / nz)); cbn [negb].
        - rewrite (zq_add_spec q Hm) by assumption. rewrite <- Zplus_mod. f_equal; f_equal; ring.
        - rewrite (zq_sub_spec q Hm) by assumption. rewrite <- Zminus_mod. f_equal; f_equal; ring. }
      rewrite Ez. cbn [bind]. unfold chk64.
      assert (Hb : 0 <= Z.of_nat j * e + e < W64) by nia. rewrite bind_chk by exact Hb.
      replace (Z.of_nat j * e + e) with (Z.of_nat (S j) * e) by lia.
      assert (Es : set_nth (rmod p (place n j f x)) i ((nth i (place n j f x) 0 + monomial_sign nz (f j) * nth j x 0) mod p) = rmod p (place n (S j) f x)).
      { apply list_ext_Z; [rewrite set_nth_length, !rmod_length, !place_length; reflexivity|]. rewrite set_nth_length, rmod_length, place_length. intros k' Hk'.
        rewrite nth_set_nth by (rewrite rmod_length, place_length; exact Hin). rewrite !rmod_nth, !nth_place by assumption. rewrite sumn_snoc.
        destruct (Nat.eqb_spec k' i) as [->|Hne].
        - replace (f j mod nz =? Z.of_nat i) with true; [reflexivity|]. symmetry. apply Z.eqb_eq. unfold f, i. rewrite Z2Nat.id; lia.
        - replace (f j mod nz =? Z.of_nat k') with false; [rewrite Z.add_0_r; reflexivity|]. symmetry. apply Z.eqb_neq. unfold f. intros E. apply Hne. unfold i. rewrite E. lia. }
      rewrite Es. apply IH. lia.
  Qed.

  Lemma shift_row_spec s x : length x = n -> 0 <= s -> forall j, (j <= n)%nat ->
    shift_row q nz (skipn j (rmod p x)) (Z.of_nat j + s) (rmod p (place n j (fun j' => Z.of_nat j' + s) x)) =
    Val (rmod p (place n n (fun j' => Z.of_nat j' + s) x)).
  Proof.
    intros Hx Hs. set (f := fun j' : nat => Z.of_nat j' + s).
    assert (G : forall k j, (j + k = n)%nat -> shift_row q nz (skipn j (rmod p x)) (Z.of_nat j + s) (rmod p (place n j f x)) = Val (rmod p (place n n f x))).
    2:{ intros j Hj. apply (G (n - j)%nat). lia. }
    induction k as [|k IH]; intros j Hj.
    - rewrite skipn_all2 by (rewrite rmod_length; lia). replace j with n by lia. reflexivity.
    - rewrite skipn_nth_cons by (rewrite rmod_length; lia). cbn [shift_row]. rewrite mask, signbit.
      pose proof (Z.mod_pos_bound (Z.of_nat j + s) nz Hnz) as Hi. set (i := Z.to_nat ((Z.of_nat j + s) mod nz)). assert (Hin : (i < n)%nat) by lia.
      rewrite rmod_nth. pose proof (Z.mod_pos_bound (nth j x 0) p ltac:(lia)) as B2.
      assert (E0 : nth i (place n j f x) 0 = 0).
      { rewrite nth_place by exact Hin. rewrite (sumn_ext j _ (fun _ => 0)); [apply sumn_0|]. intros j' Hj'.
        replace (f j' mod nz =? Z.of_nat i) with false; [reflexivity|]. symmetry. apply Z.eqb_neq. unfold i. rewrite Z2Nat.id by lia. unfold f. intros E.
        pose proof (Z.div_mod (Z.of_nat j' + s) nz ltac:(lia)) as D1. pose proof (Z.div_mod (Z.of_nat j + s) nz ltac:(lia)) as D2.
        assert (Z.of_nat j - Z.of_nat j' = nz * ((Z.of_nat j + s) / nz - (Z.of_nat j' + s) / nz)) by lia.
        assert (0 < Z.of_nat j - Z.of_nat j' < nz) by lia. revert H H0. clear. generalize ((Z.of_nat j + s) / nz - (Z.of_nat j' + s) / nz). intros t H H0. destruct (Z.le_gt_cases t 0); nia. }
      assert (Ez : (if Z.even ((Z.of_nat j + s) / nz) then Val (nth j x 0 mod p) else zq_neg q (nth j x 0 mod p)) = Val ((nth i (place n j f x) 0 + monomial_sign nz (f j) * nth j x 0) mod p)).
      { rewrite E0, Z.add_0_l. unfold monomial_sign, f. destruct (Z.even ((Z.of_nat j + s) / nz)).
        - f_equal; f_equal; ring.
        - rewrite (zq_neg_spec q Hm) by assumption. f_equal. change (cong p (- (nth j x 0 mod p)) (-1 * nth j x 0)). replace (-1 * nth j x 0) with (- nth j x 0) by ring.
          unfold cong. rewrite <- !Z.sub_0_l. apply Zminus_mod_idemp_r. }
      rewrite Ez. cbn [bind]. rewrite bind_guard by (rewrite rmod_length, place_length; apply Nat.ltb_lt, Hin).
      replace (Z.of_nat j + s + 1) with (Z.of_nat (S j) + s) by lia.
      assert (Es : set_nth (rmod p (place n j f x)) i ((nth i (place n j f x) 0 + monomial_sign nz (f j) * nth j x 0) mod p) = rmod p (place n (S j) f x)).
      { apply list_ext_Z; [rewrite set_nth_length, !rmod_length, !place_length; reflexivity|]. rewrite set_nth_length, rmod_length, place_length. intros k' Hk'.
        rewrite nth_set_nth by (rewrite rmod_length, place_length; exact Hin). rewrite !rmod_nth, !nth_place by assumption. rewrite sumn_snoc.
        destruct (Nat.eqb_spec k' i) as [->|Hne].
        - replace (f j mod nz =? Z.of_nat i) with true; [reflexivity|]. symmetry. apply Z.eqb_eq. unfold f, i. rewrite Z2Nat.id; lia.
        - replace (f j mod nz =? Z.of_nat k') with false; [rewrite Z.add_0_r; reflexivity|]. symmetry. apply Z.eqb_neq. unfold f. intros E. apply Hne. unfold i. rewrite E. lia. }
      rewrite Es. apply IH. lia.
  Qed.
  Lemma place_0 f x : rmod p (place n 0 f x) = repeat 0 n.
  Proof.
    assert (E : forall m k, map (fun _ : nat => 0) (seq k m) = repeat 0 m) by (induction m as [|m IH]; intros k; [reflexivity|]; cbn [seq map repeat]; f_equal; apply IH).
    unfold place, rmod. rewrite map_map. rewrite (map_ext _ (fun _ => 0)); [apply E|]. intros k. apply Zmod_0_l.
  Qed.
End Place.

Lemma place_aut n e x : place n n (fun j => Z.of_nat j * e) x = automorphism n e x.
Proof. reflexivity. Qed.
Lemma place_shift n s (x : Rn n) : (0 < n)%nat -> place n n (fun j => Z.of_nat j + Z.of_nat s) (rl x) = rl (rmul (rX n s) x).
Proof.
  intros Hn. apply list_ext_Z; [rewrite place_length, rl_length; reflexivity|]. rewrite place_length. intros k Hk. rewrite nth_place by exact Hk.
  replace (rmul (rX n s) x) with (rmul (rX n s) (aut n 1 (rl x))) by (f_equal; apply (raut_id n Hn)). rewrite nth_aut by exact Hk. rewrite rl_length. apply sumn_ext. intros j Hj. rewrite nth_rX by exact Hk.
  rewrite Nat.mul_1_r, (Nat.add_comm s), <- Nat2Z.inj_add, <- Nat2Z.inj_mod.
  destruct (Nat.eqb_spec ((j + s) mod n) k), (Z.eqb_spec (Z.of_nat ((j + s) mod n)) (Z.of_nat k)); try lia; ring.
Qed.

Section Mono.
  Variables (c : ctx) (Hc : ctx_ok c).
  Notation N := (c_degree c).
  Theorem inverse_power_eq v (x : Rn N) k : 0 <= k <= 2 * Z.of_nat N -> Z.of_nat N < 2 ^ 63 ->
    multiply_inverse_power_of_x (poly_of PowerBasis c v (rl x)) k =
    Val (poly_of PowerBasis c v (rl (rmul (rX N (Z.to_nat ((2 * Z.of_nat N - k) mod (2 * Z.of_nat N)))) x))).
  Proof.
    intros Hk HN. unfold multiply_inverse_power_of_x. cbn [p_ctx p_coeffs poly_of]. assert (W64 = 2 * 2 ^ 63) by reflexivity. pose proof (N_ge8 c Hc).
    unfold chk64. rewrite bind_chk by lia. rewrite bind_guard by (apply negb_true_iff, Z.eqb_neq; lia).
    pose proof (Z.mod_pos_bound (2 * Z.of_nat N - k) (2 * Z.of_nat N) ltac:(lia)) as Hs. set (s := (2 * Z.of_nat N - k) mod (2 * Z.of_nat N)) in *.
    rewrite (q_ops c Hc). rewrite map2M_map with (r := fun op => row PowerBasis op (rl (rmul (rX N (Z.to_nat s)) x))); [reflexivity|].
    intros op Hop. destruct (op_ok c Hc op Hop) as (K & w & Hok & Hsz). cbn [row]. rewrite <- place_shift by lia. rewrite Z2Nat.id by lia.
    assert (En : N = (2 ^ K)%nat) by (rewrite <- Hsz; apply (ok_size _ _ _ Hok)).
    pose proof (shift_row_spec op K w Hok N En s (rl x) (rl_length x) ltac:(lia) O ltac:(lia)) as E. cbn [skipn] in E. rewrite place_0 in E. exact E.
  Qed.
End Mono.

(** ** Substitution *)
Record subst_ok (n : nat) (e : Z) (i : subst_exp) : Prop := {
  so_exp : se_exponent i = e;
  so_range : 0 <= e < 2 * Z.of_nat n;
  so_odd : Z.odd e = true;
  so_len : exists K, n = (2 ^ K)%nat /\ (K < 63)%nat /\
    se_power_bitrev i = map (fun j => Z.to_nat (bitrev K (((e - 1) / 2 + Z.of_nat j * e) mod Z.of_nat n))) (seq 0 n)
}.
Lemma power_bitrevs_spec K e k : (K < 63)%nat -> forall power, 0 <= e -> 0 <= power -> power + Z.of_nat k * e < W64 ->
  power_bitrevs (2 ^ Z.of_nat K) e k power = Val (map (fun j => Z.to_nat (bitrev K ((power + Z.of_nat j * e) mod 2 ^ Z.of_nat K))) (seq 0 k)).
Proof.
  intros HK. induction k as [|k IH]; intros power He Hp Hlt; [reflexivity|]. cbn [power_bitrevs seq map]. unfold chk64.
  rewrite Nat2Z.inj_succ in Hlt. rewrite bind_chk by nia. rewrite IH by nia. cbn [bind].
  rewrite land_mask by lia. rewrite bitrev_index_spec by (try lia; apply Z.mod_pos_bound, Z.pow_pos_nonneg; lia).
  do 2 f_equal; [repeat f_equal; cbn [Z.of_nat]; ring|]. rewrite <- seq_shift, map_map. apply map_ext. intros j. do 3 f_equal. lia.
Qed.
Theorem subst_new_ok c e : ctx_ok c -> Z.of_nat (c_degree c) <= 2 ^ 31 -> 0 <= e -> Z.odd e = true ->
  exists i, subst_new c e = Val i /\ se_ctx i = c /\ subst_ok (c_degree c) (e mod (2 * Z.of_nat (c_degree c))) i.
Proof.
  intros Hc HN He Ho. destruct (N_pow2 c Hc) as (K & HK & EN). pose proof (N_ge8 c Hc). set (n := Z.of_nat (c_degree c)) in *. assert (Hn8 : 8 <= n) by lia.
  assert (W64 = 2 ^ 64) by reflexivity. unfold subst_new. fold n. unfold chk64. rewrite bind_chk by lia. rewrite bind_guard by (apply negb_true_iff, Z.eqb_neq; lia).
  pose proof (Z.mod_pos_bound e (2 * n) ltac:(lia)) as Hb. set (e' := e mod (2 * n)) in *.
  assert (Ho' : Z.odd e' = true).
  { unfold e'. rewrite Z.mod_eq by lia. rewrite Z.odd_sub, Ho. rewrite <- Z.mul_assoc, Z.odd_mul. reflexivity. }
  replace (Z.land e' 1 =? 0) with false.
  2:{ symmetry. apply Z.eqb_neq. change 1 with (Z.ones 1). rewrite Z.land_ones by lia. change (2 ^ 1) with 2. rewrite Zmod_odd, Ho'. discriminate. }
  assert (E2 : n = 2 ^ Z.of_nat K) by (unfold n; rewrite EN; apply nat_pow2_Z).
  assert (e' <> 0) by (intros E; rewrite E in Ho'; discriminate).
  assert (0 <= (e' - 1) / 2 < n) by (split; [apply Z.div_pos; lia|apply Z.div_lt_upper_bound; lia]).
  rewrite E2. rewrite power_bitrevs_spec; [|lia|lia|lia|fold n; nia].
  cbn [bind]. eexists. split; [reflexivity|]. split; [reflexivity|]. constructor; cbn [se_exponent se_power_bitrev]; [reflexivity|lia|exact Ho'|].
  exists K. split; [exact EN|]. split; [lia|]. fold n. rewrite E2. reflexivity.
Qed.
Theorem subst_new_even c e : ctx_ok c -> 0 <= e -> Z.odd e = false ->
  subst_new c e = Err (InvalidSubstitutionExponent (e mod (2 * Z.of_nat (c_degree c))) (Z.of_nat (c_degree c))).
Proof.
  intros Hc He Ho. destruct (N_pow2 c Hc) as (K & HK & EN). pose proof (N_ge8 c Hc). set (n := Z.of_nat (c_degree c)) in *. assert (Hn8 : 8 <= n) by lia.
  assert (E2 : n = 2 ^ Z.of_nat K) by (unfold n; rewrite EN; apply nat_pow2_Z).
  assert (n <= 2 ^ 62) by (rewrite E2; apply Z.pow_le_mono_r; lia). assert (W64 = 4 * 2 ^ 62) by reflexivity.
  unfold subst_new. fold n. unfold chk64. rewrite bind_chk by lia. rewrite bind_guard by (apply negb_true_iff, Z.eqb_neq; lia).
  replace (Z.land (e mod (2 * n)) 1 =? 0) with true; [reflexivity|]. symmetry. apply Z.eqb_eq. change 1 with (Z.ones 1). rewrite Z.land_ones by lia.
  change (2 ^ 1) with 2. rewrite Zmod_odd. rewrite Z.mod_eq by lia. rewrite Z.odd_sub, Ho. rewrite <- Z.mul_assoc, Z.odd_mul. reflexivity.
Qed.

Lemma bitrev_surj K i : 0 <= i < 2 ^ Z.of_nat K -> exists j, 0 <= j < 2 ^ Z.of_nat K /\ bitrev K j = i.
Proof.
  revert i. induction K as [|K IH]; intros i Hi; [exists 0; split; [cbn; lia|cbn; cbn in Hi; lia]|].
  rewrite pow2_succ in *. set (P := 2 ^ Z.of_nat K) in *. assert (0 < P) by (apply Z.pow_pos_nonneg; lia).
  destruct (IH (i mod P) ltac:(apply Z.mod_pos_bound; lia)) as (j & Hj & Ej). exists (i / P + 2 * j).
  assert (0 <= i / P < 2) by (split; [apply Z.div_pos; lia|apply Z.div_lt_upper_bound; lia]). split; [lia|]. cbn [bitrev].
  replace ((i / P + 2 * j) mod 2) with (i / P) by (rewrite (Z.mul_comm 2), Z_mod_plus_full, Z.mod_small; lia).
  replace ((i / P + 2 * j) / 2) with j by (rewrite (Z.mul_comm 2), Z_div_plus_full, Z.div_small by lia; lia).
  rewrite Ej. fold P. pose proof (Z.div_mod i P ltac:(lia)). lia.
Qed.

Lemma bitrev_invol K x : 0 <= x < 2 ^ Z.of_nat K -> bitrev K (bitrev K x) = x.
Proof.
  revert x. induction K as [|K IH]; intros x Hx; [cbn in *; lia|]. rewrite pow2_succ in Hx.
  assert (Hh : 0 <= x / 2 < 2 ^ Z.of_nat K) by (split; [apply Z.div_pos; lia|apply Z.div_lt_upper_bound; lia]).
  cbn [bitrev]. fold (bitrev (S K)). 
  replace (x mod 2 * 2 ^ Z.of_nat K + bitrev K (x / 2)) with (bitrev K (x / 2) + 2 ^ Z.of_nat K * (x mod 2)) by ring.
  change (bitrev (S K) (bitrev K (x / 2) + 2 ^ Z.of_nat K * (x mod 2)) = x).
  replace (S K) with (K + 1)%nat by lia. rewrite bitrev_split by apply bitrev_bounds. rewrite IH by exact Hh.
  cbn [bitrev]. change (2 ^ Z.of_nat 0) with 1. change (Z.of_nat 1) with 1. rewrite Zmod_mod. pose proof (Z.div_mod x 2 ltac:(lia)). lia.
Qed.

Lemma perm_row_spec T src n : length T = n -> forall js ks dst, length dst = n ->
  Forall2 (fun j k => (j < n)%nat /\ (k < length src)%nat /\ nth j T 0 = nth k src 0) js ks ->
  (forall i, (i < n)%nat -> In i js \/ nth i dst 0 = nth i T 0) ->
  perm_row js ks src dst = Val T.
Proof.
  intros HT js. induction js as [|j js IH]; intros ks dst Hd H Hall; inversion H as [|? k ? ks' (H1 & H2 & H3) H4]; subst.
  - cbn [perm_row]. f_equal. apply list_ext_Z; [congruence|]. intros i Hi. destruct (Hall i ltac:(congruence)) as [[]|E]; exact E.
  - cbn [perm_row]. rewrite get_nth by exact H2. cbn [bind]. rewrite bind_guard by (apply Nat.ltb_lt; lia). apply IH; [rewrite set_nth_length; lia|exact H4|].
    intros i Hi. rewrite nth_set_nth by lia. destruct (Nat.eqb_spec i j) as [->|Hne]; [right; congruence|]. destruct (Hall i Hi) as [[->|Hin]|E]; [congruence|auto|auto].
Qed.

Section Subst.
  Variables (op : ntt_op) (K : nat) (w : Z) (Hok : ntt_ok op K w).
  Notation p := (mod_p (nt_p op)).
  Notation n := (nt_size op).
  Let Hn : (0 < n)%nat.
  Proof. pose proof (n_ge8 op K w Hok). lia. Qed.
  Lemma eval_rX z k : cong p (z ^ Z.of_nat n) (-1) -> cong p (eval (rl (rX n k)) z) (z ^ Z.of_nat k).
  Proof.
    intros Hz. induction k as [|k IH].
    - change (rl (rX n 0)) with (lone n). destruct n as [|m]; [lia|]. cbn [lone eval]. change (repeat 0 m) with (lzero m). rewrite eval_lzero. rewrite Z.mul_0_r. reflexivity.
    - change (rl (rX n (S k))) with (lX n (rl (rX n k))). rewrite eval_lX by (try apply rl_length; exact Hn). rewrite Nat2Z.inj_succ, Z.pow_succ_r by lia.
      rewrite Hz, IH. unfold cong. f_equal. ring.
  Qed.
  Lemma eval_aut e l z : cong p (z ^ Z.of_nat n) (-1) -> cong p (eval (rl (aut n e l)) z) (eval l (z ^ Z.of_nat e)).
  Proof.
    intros Hz. induction l as [|c l IH]; cbn [aut].
    - change (rl (r0 n)) with (lzero n). rewrite eval_lzero. reflexivity.
    - unfold radd. rewrite rl_mkR. rewrite eval_ladd by (rewrite !rl_length; reflexivity). cbn [eval].
      unfold rmul. rewrite rl_mkR. rewrite (eval_nmul op K w Hok) by (try apply rl_length; exact Hz). rewrite IH, (eval_rX z e Hz).
      unfold rZ, rscale. rewrite rl_mkR, eval_lscale. change (rl (r1 n)) with (rl (rX n 0)). rewrite (eval_rX z 0 Hz). change (z ^ Z.of_nat 0) with 1. unfold cong. f_equal. ring.
  Qed.
  Lemma eval_cong l y z : cong p y z -> cong p (eval l y) (eval l z).
  Proof. intros H. induction l as [|a l IH]; [reflexivity|]. cbn [eval]. apply cong_add; [reflexivity|apply cong_mul; assumption]. Qed.
  Lemma w_pow_mod a : 0 <= a -> cong p (w ^ (a mod (2 * Z.of_nat n))) (w ^ a).
  Proof.
    intros Ha. rewrite (Z.div_mod a (2 * Z.of_nat n)) at 2 by lia.
    pose proof (Z.mod_pos_bound a (2 * Z.of_nat n) ltac:(lia)). assert (0 <= a / (2 * Z.of_nat n)) by (apply Z.div_pos; lia).
    rewrite Z.pow_add_r by nia. rewrite (Z.pow_mul_r _ (2 * Z.of_nat n)) by nia.
    assert (E : cong p (w ^ (2 * Z.of_nat n)) 1).
    { replace (2 * Z.of_nat n) with (Z.of_nat n + Z.of_nat n) by ring. rewrite Z.pow_add_r by lia.
      assert (E : cong p (w ^ Z.of_nat n) (-1)) by (rewrite (ok_size _ _ _ Hok), nat_pow2_Z; apply (ok_n _ _ _ Hok)). rewrite E. reflexivity. }
    assert (E2 : cong p ((w ^ (2 * Z.of_nat n)) ^ (a / (2 * Z.of_nat n))) 1).
    { rewrite (cong_pow p _ _ (a / (2 * Z.of_nat n)) ltac:(assumption) E). rewrite Z.pow_1_l by assumption. reflexivity. }
    rewrite E2. rewrite Z.mul_1_l. reflexivity.
  Qed.

  (** Evaluation points of X -> X^e. *)
  Lemma row_aut e j (x : Rn n) : (j < n)%nat -> Nat.odd e = true ->
    nth (Z.to_nat (bitrev K (Z.of_nat j))) (row Ntt op (rl (raut e x))) 0 =
    nth (Z.to_nat (bitrev K (((Z.of_nat e - 1) / 2 + Z.of_nat j * Z.of_nat e) mod Z.of_nat n))) (row Ntt op (rl x)) 0.
  Proof.
    intros Hj He. pose proof (ok_size _ _ _ Hok) as Hs. assert (Hnz : Z.of_nat n = 2 ^ Z.of_nat K) by (rewrite Hs; apply nat_pow2_Z).
    apply Nat.odd_spec in He. destruct He as (h & Eh).
    assert (Eh2 : (Z.of_nat e - 1) / 2 = Z.of_nat h) by (subst e; symmetry; apply Z.div_unique with (r := 0); lia). rewrite Eh2.
    set (m := (Z.of_nat h + Z.of_nat j * Z.of_nat e) mod Z.of_nat n). assert (Hm : 0 <= m < Z.of_nat n) by (apply Z.mod_pos_bound; lia).
    assert (G : forall i, 0 <= i < Z.of_nat n -> exists k, Z.to_nat (bitrev K i) = k /\ (k < n)%nat /\ forall y : Rn n, nth k (row Ntt op (rl y)) 0 = eval (rl y) (w ^ (2 * i + 1)) mod p).
    { intros i Hi. exists (Z.to_nat (bitrev K i)). pose proof (bitrev_bounds K i) as Hb. split; [reflexivity|]. split; [lia|]. intros y. cbn [row].
      rewrite (evaluations_NTT op K w Hok) by apply rl_length. rewrite (NTT_eval op K w Hok) by (try apply rl_length; lia).
      f_equal. f_equal. unfold point. rewrite Z2Nat.id by lia. rewrite bitrev_invol by lia. reflexivity. }
    destruct (G (Z.of_nat j) ltac:(lia)) as (k1 & E1 & H1 & F1). destruct (G m Hm) as (k2 & E2 & H2 & F2). rewrite E1, E2, F1, F2.
    assert (Hz : cong p ((w ^ (2 * Z.of_nat j + 1)) ^ Z.of_nat n) (-1)).
    { destruct (G (Z.of_nat j) ltac:(lia)) as (k & Ek & Hk & _). pose proof (point_root op K w Hok k Hk) as P. unfold point in P. rewrite <- Ek in P.
      pose proof (bitrev_bounds K (Z.of_nat j)). rewrite Z2Nat.id, bitrev_invol in P by lia. exact P. }
    transitivity (eval (rl x) ((w ^ (2 * Z.of_nat j + 1)) ^ Z.of_nat e) mod p); [apply eval_aut, Hz|]. apply eval_cong.
    rewrite <- Z.pow_mul_r by lia. rewrite <- (w_pow_mod ((2 * Z.of_nat j + 1) * Z.of_nat e)) by lia. rewrite <- (w_pow_mod (2 * m + 1)) by lia.
    unfold cong. f_equal. f_equal.
    set (nz := Z.of_nat n) in *. replace ((2 * Z.of_nat j + 1) * Z.of_nat e) with (2 * (Z.of_nat h + Z.of_nat j * Z.of_nat e) + 1) by lia.
    unfold m. set (u := Z.of_nat h + Z.of_nat j * Z.of_nat e). rewrite <- (Zplus_mod_idemp_l (2 * u)), <- (Zplus_mod_idemp_l (2 * (u mod nz))).
    rewrite !Zmult_mod_distr_l. rewrite Zmod_mod. reflexivity.
  Qed.
End Subst.

Section SubstPoly.
  Variables (c : ctx) (Hc : ctx_ok c).
  Notation N := (c_degree c).
  Lemma nth_shoup op l k : 0 < mod_p (nt_p op) -> nth k (shoup_row op l) 0 = nth k l 0 * 2 ^ 64 / mod_p (nt_p op).
  Proof. intros Hp. unfold shoup_row. pose proof (map_nth (fun v => v * 2 ^ 64 / mod_p (nt_p op)) l 0 k) as E. cbv beta in E. rewrite Z.mul_0_l, Zdiv_0_l in E. exact E. Qed.
  Lemma perm_eq e i op (T S : list Z) (x : Rn N) : In op (c_ops c) -> subst_ok N e i -> length T = N -> length S = N ->
    (forall j, (j < N)%nat -> forall K, N = (2 ^ K)%nat ->
       nth (Z.to_nat (bitrev K (Z.of_nat j))) T 0 = nth (Z.to_nat (bitrev K (((e - 1) / 2 + Z.of_nat j * e) mod Z.of_nat N))) S 0) ->
    perm_row (c_bitrev c) (se_power_bitrev i) S (repeat 0 N) = Val T.
  Proof.
    intros Hop Hi HT HS H. destruct (co_deg _ Hc) as (K & HK & EN & EB). destruct (so_len _ _ _ Hi) as (K' & EN' & HK' & EP).
    assert (K' = K) by (apply (Nat.pow_inj_r 2); [lia|congruence]). subst K'.
    assert (Hnz : Z.of_nat N = 2 ^ Z.of_nat K) by (rewrite EN; apply nat_pow2_Z). pose proof (N_ge8 c Hc).
    apply (perm_row_spec T S N HT); [apply repeat_length| |].
    - rewrite EB, EP. assert (G : forall l : list nat, (forall j, In j l -> (j < N)%nat) -> Forall2 (fun j k => (j < N)%nat /\ (k < length S)%nat /\ nth j T 0 = nth k S 0)
        (map (fun j => Z.to_nat (bitrev K (Z.of_nat j))) l) (map (fun j => Z.to_nat (bitrev K (((e - 1) / 2 + Z.of_nat j * e) mod Z.of_nat N))) l)).
      { induction l as [|j l IH]; intros Hl; cbn [map]; constructor; [|apply IH; intros; apply Hl; right; assumption].
        pose proof (bitrev_bounds K (Z.of_nat j)). pose proof (bitrev_bounds K (((e - 1) / 2 + Z.of_nat j * e) mod Z.of_nat N)).
        split; [lia|]. split; [lia|]. apply H; [apply Hl; left; reflexivity|exact EN]. }
      apply G. intros j Hj. apply in_seq in Hj. lia.
    - intros k Hk. left. rewrite EB. destruct (bitrev_surj K (Z.of_nat k) ltac:(lia)) as (j & Hj & Ej). apply in_map_iff. exists (Z.to_nat j).
      rewrite Z2Nat.id by lia. rewrite Ej. split; [lia|]. apply in_seq. lia.
  Qed.
  Theorem substitute_eq R v e i (x : Rn N) : subst_ok N e i -> Z.of_nat N <= 2 ^ 31 ->
    substitute (poly_of R c v (rl x)) i = Val (poly_of R c v (rl (raut (Z.to_nat e) x))).
  Proof.
    intros Hi HN. pose proof (N_ge8 c Hc) as H8. pose proof (so_exp _ _ _ Hi) as Ei. pose proof (so_range _ _ _ Hi) as Hr. pose proof (so_odd _ _ _ Hi) as Ho.
    assert (Hon : Nat.odd (Z.to_nat e) = true).
    { rewrite <- (Z2Nat.id e) in Ho by lia. apply Z.odd_spec in Ho. destruct Ho as (h & Hh). apply Nat.odd_spec. exists (Z.to_nat h). lia. }
    pose proof (rl_length (raut (Z.to_nat e) x)) as La. pose proof (rl_length x) as Lx.
    assert (Hperm : forall op, In op (c_ops c) -> perm_row (c_bitrev c) (se_power_bitrev i) (row Ntt op (rl x)) (repeat 0 N) = Val (row Ntt op (rl (raut (Z.to_nat e) x)))).
    { intros op Hop. destruct (op_ok c Hc op Hop) as (K & w & Hok & Hs). apply (perm_eq e i op _ _ x Hop Hi); [rewrite (row_length op K w Hok); congruence..|].
      intros j Hj K' EK'. assert (K' = K) by (apply (Nat.pow_inj_r 2); [lia|rewrite <- EK', <- Hs; apply (ok_size _ _ _ Hok)]). subst K'.
      revert Hj La Lx. revert x. rewrite <- Hs. intros x Hj La Lx. pose proof (row_aut op K w Hok (Z.to_nat e) j x Hj Hon) as E. rewrite Z2Nat.id in E by lia. exact E. }
    unfold substitute. cbn [p_ctx p_vt p_coeffs p_shoup poly_of]. destruct R.
    - rewrite (q_ops c Hc). rewrite map2M_map with (r := fun op => row PowerBasis op (rl (raut (Z.to_nat e) x))); [reflexivity|].
      intros op Hop. destruct (op_ok c Hc op Hop) as (K & w & Hok & Hs). rewrite raut_spec by lia. rewrite Z2Nat.id by lia. cbn [row].
      assert (En : N = (2 ^ K)%nat) by (rewrite <- Hs; apply (ok_size _ _ _ Hok)). assert (W64 = 4 * 2 ^ 31 * 2 ^ 31) by reflexivity.
      pose proof (subst_row_spec op K w Hok N En e (rl x) Lx ltac:(lia) ltac:(nia) O ltac:(lia)) as E. cbn [skipn] in E. rewrite (place_0 op) in E. rewrite Ei. exact E.
    - rewrite mapM_map with (r := fun op => row Ntt op (rl (raut (Z.to_nat e) x))); [reflexivity|]. exact Hperm.
    - rewrite mapM_map with (r := fun op => row NttShoup op (rl (raut (Z.to_nat e) x))) by exact Hperm. cbn [bind unwrap].
      rewrite mapM_map with (r := fun op => shoup_row op (row NttShoup op (rl (raut (Z.to_nat e) x)))); [reflexivity|].
      intros op Hop. destruct (op_ok c Hc op Hop) as (K & w & Hok & Hs).
      pose proof (p_pos op K w Hok) as Hpp.
      apply (perm_eq e i op _ _ x Hop Hi); [unfold shoup_row; rewrite map_length, (row_length op K w Hok); congruence..|].
      intros j Hj K' EK'. rewrite !nth_shoup by exact Hpp.
      assert (K' = K) by (apply (Nat.pow_inj_r 2); [lia|rewrite <- EK', <- Hs; apply (ok_size _ _ _ Hok)]). subst K'.
      f_equal. f_equal. change (row NttShoup) with (row Ntt). revert Hj La Lx. clear Hperm. revert x. rewrite <- Hs. intros x Hj La Lx. pose proof (row_aut op K w Hok (Z.to_nat e) j x Hj Hon) as E. rewrite Z2Nat.id in E by lia. exact E.
  Qed.
End SubstPoly.

(** ** Dot product *)
Section Dot.
  Variables (c : ctx) (Hc : ctx_ok c).
  Notation N := (c_degree c).
  Definition lmul (a b : list Z) : list Z := zipWith Z.mul a b.
  Lemma lmul_length a b n : length a = n -> length b = n -> length (lmul a b) = n.
  Proof. intros. unfold lmul. rewrite zipWith_length. lia. Qed.
  Lemma rmod_lmul p a : forall b, rmod p (lmul a b) = zipWith (fun x y => (x * y) mod p) a b.
  Proof. induction a as [|x a IH]; intros [|y b]; try reflexivity. cbn [lmul zipWith rmod map]. f_equal. apply IH. Qed.
  Definition bounded (b : Z) (l : list Z) : Prop := Forall (fun x => 0 <= x <= b) l.
  Lemma lmul_bounded p a b : canonical p a -> canonical p b -> length a = length b -> bounded ((p - 1) * (p - 1)) (lmul a b).
  Proof.
    intros Ha. revert b. induction Ha as [|x a Hx Ha IH]; intros [|y b] Hb Hl; try discriminate; [constructor|]. inversion Hb; subst. constructor; [nia|]. apply IH; [assumption|]. cbn in Hl. lia.
  Qed.
  Lemma ladd_bounded u v a b : bounded u a -> bounded v b -> length a = length b -> bounded (u + v) (ladd a b).
  Proof.
    intros Ha. revert b. induction Ha as [|x a Hx Ha IH]; intros [|y b] Hb Hl; try discriminate; [constructor|]. inversion Hb; subst. constructor; [lia|]. apply IH; [assumption|]. cbn in Hl. lia.
  Qed.
  Lemma fma_spec B p out a b : canonical p a -> canonical p b -> length a = length out -> length b = length out -> bounded B out ->
    B + (p - 1) * (p - 1) < W128 -> 1 <= p -> fma out a b = Val (ladd out (lmul a b)).
  Proof.
    intros Ha Hb La Lb Ho HB Hp. unfold fma. rewrite bind_guard by (unfold same_length; apply Nat.eqb_eq; exact La). rewrite bind_guard by (unfold same_length; apply Nat.eqb_eq; exact Lb).
    revert a b Ha Hb La Lb. induction Ho as [|o out Ho1 Ho IH]; intros [|x a] [|y b] Ha Hb La Lb; try discriminate; [reflexivity|].
    inversion Ha; subst. inversion Hb; subst. cbn [zip_upd3]. unfold chk128.
    assert (0 <= x * y <= (p - 1) * (p - 1)) by nia. rewrite !bind_chk by lia.
    rewrite IH by (assumption || (cbn in *; lia)). reflexivity.
  Qed.

  Lemma nbits_spec p : 0 < p -> 2 ^ (nbits p - 1) <= p < 2 ^ nbits p.
  Proof. intros Hp. unfold nbits. destruct (p <=? 0) eqn:E; [lia|]. pose proof (Z.log2_spec p Hp). replace (Z.log2 p + 1 - 1) with (Z.log2 p) by ring. exact H. Qed.
  Lemma nbits_nonneg p : 0 <= nbits p.
  Proof. unfold nbits. destruct (p <=? 0) eqn:E; [lia|]. pose proof (Z.log2_nonneg p). lia. Qed.
  Notation mx op := (Z.shiftl 1 (2 * leading_zeros64 (mod_p (nt_p op)))).
  Lemma mx_bound op K w : ntt_ok op K w -> 16 <= mx op /\ mx op * (mod_p (nt_p op) * mod_p (nt_p op)) <= W128.
  Proof.
    intros Hok. destruct (valid_fields _ (ok_m _ _ _ Hok)) as (Hp & _). set (p := mod_p (nt_p op)) in *. unfold leading_zeros64.
    pose proof (nbits_spec p ltac:(lia)) as Hb. assert (Hk : 0 <= nbits p <= 62).
    { split; [apply nbits_nonneg|]. destruct (Z.le_gt_cases (nbits p) 62); [assumption|]. assert (2 ^ 62 <= 2 ^ (nbits p - 1)) by (apply Z.pow_le_mono_r; lia). change W62 with (2 ^ 62) in Hp. lia. }
    rewrite Z.shiftl_1_l. set (k := nbits p) in *. split; [change 16 with (2 ^ 4); apply Z.pow_le_mono_r; lia|].
    assert (p * p <= 2 ^ k * 2 ^ k) by nia. assert (E : 2 ^ (2 * (64 - k)) * (2 ^ k * 2 ^ k) = W128) by (rewrite <- !Z.pow_add_r by lia; replace (2 * (64 - k) + (k + k)) with 128 by ring; reflexivity).
    rewrite <- E. apply Z.mul_le_mono_nonneg_l; [apply Z.pow_nonneg; lia|assumption].
  Qed.
  Variable vt : bool.
  Definition red (q : modulus) : Z -> M Z := if vt then reduce_u128_vt q else reduce_u128 q.
  Lemma red_rows op K w B r : ntt_ok op K w -> bounded B r -> B < W128 -> mapM (red (nt_p op)) r = Val (rmod (mod_p (nt_p op)) r).
  Proof.
    intros Hok Hr HB. induction Hr as [|x r Hx Hr IH]; [reflexivity|]. cbn [mapM rmod map]. unfold red at 1.
    assert (is_u128 x) by (unfold is_u128; lia). pose proof (ok_m _ _ _ Hok) as Hm.
    destruct vt; rewrite ?(reduce_u128_vt_spec _ _ Hm), ?(reduce_u128_spec _ _ Hm) by assumption; cbn [bind]; rewrite IH; reflexivity.
  Qed.
  (** What the accumulator of one row satisfies before a step, when the row is reduced every [mx] products. *)
  Record dp_inv (op : ntt_op) (acc : list Z) (num : Z) (S : Rn N) : Prop := {
    di_num : 1 <= num < mx op;
    di_len : length acc = N;
    di_bound : bounded ((mod_p (nt_p op) - 1) + (num - 1) * ((mod_p (nt_p op) - 1) * (mod_p (nt_p op) - 1))) acc;
    di_val : rmod (mod_p (nt_p op)) acc = row Ntt op (rl S)
  }.
  Lemma rmod_zipadd p a b : rmod p (ladd (rmod p a) b) = rmod p (ladd a b).
  Proof. rewrite !rmod_ladd, rmod_rmod. reflexivity. Qed.
  Lemma acc_val op K w acc (S x y : Rn N) : ntt_ok op K w -> nt_size op = N -> rmod (mod_p (nt_p op)) acc = row Ntt op (rl S) ->
    rmod (mod_p (nt_p op)) (ladd acc (lmul (row Ntt op (rl x)) (row Ntt op (rl y)))) = row Ntt op (rl (radd S (rmul x y))).
  Proof.
    intros Hok Hs Hv. pose proof (rl_length x) as Lx. pose proof (rl_length y) as Ly. pose proof (rl_length S) as LS.
    rewrite rmod_ladd, Hv, rmod_lmul. cbn [rl radd rmul proj1_sig mkR]. 
    change (rl (radd S (rmul x y))) with (ladd (rl S) (nmul N (rl x) (rl y))).
    rewrite (row_ladd op K w Hok) by (rewrite ?Hs; try apply nmul_length; assumption). f_equal.
    pose proof (row_nmul op K w Hok (rl x) (rl y) ltac:(congruence) ltac:(congruence)) as E. rewrite Hs in E. symmetry. exact E.
  Qed.
  Lemma dp_row op acc num S x y : In op (c_ops c) -> dp_inv op acc num S ->
    let acc1 := ladd acc (lmul (row Ntt op (rl x)) (row Ntt op (rl y))) in
    fma acc (row Ntt op (rl x)) (row Ntt op (rl y)) = Val acc1 /\
    mapM (red (nt_p op)) acc1 = Val (rmod (mod_p (nt_p op)) acc1) /\
    (num + 1 = mx op -> dp_inv op (rmod (mod_p (nt_p op)) acc1) 1 (radd S (rmul x y))) /\
    (num + 1 <> mx op -> dp_inv op acc1 (num + 1) (radd S (rmul x y))).
  Proof.
    intros Hop [Hn Hl Hb Hv] acc1. destruct (op_ok c Hc op Hop) as (K & w & Hok & Hs).
    pose proof (rl_length x) as Lx. pose proof (rl_length y) as Ly. pose proof (mx_bound op K w Hok) as (M1 & M2). pose proof (p_pos op K w Hok) as Hpp.
    pose proof (row_length op K w Hok Ntt (rl x) ltac:(congruence)) as Rx. pose proof (row_length op K w Hok Ntt (rl y) ltac:(congruence)) as Ry.
    pose proof (row_canonical op K w Hok Ntt (rl x) ltac:(congruence)) as Cx. pose proof (row_canonical op K w Hok Ntt (rl y) ltac:(congruence)) as Cy.
    set (M := mx op) in *. assert (EM : mx op = M) by reflexivity. clearbody M. set (p := mod_p (nt_p op)) in *.
    assert (Hp2 : 2 <= p) by (destruct (valid_fields _ (ok_m _ _ _ Hok)) as (Hp & _); unfold p; lia).
    assert (HB : (p - 1) + num * ((p - 1) * (p - 1)) < W128).
    { assert (num * ((p - 1) * (p - 1)) <= (M - 1) * ((p - 1) * (p - 1))) by (apply Z.mul_le_mono_nonneg_r; [apply Z.mul_nonneg_nonneg|]; lia).
      assert ((p - 1) + (M - 1) * ((p - 1) * (p - 1)) < M * (p * p)) by (clear - Hp2 M1; nia). lia. }
    assert (Hb1 : bounded ((p - 1) + num * ((p - 1) * (p - 1))) acc1).
    { replace ((p - 1) + num * ((p - 1) * (p - 1))) with (((p - 1) + (num - 1) * ((p - 1) * (p - 1))) + (p - 1) * (p - 1)) by ring.
      apply ladd_bounded; [exact Hb|apply lmul_bounded; [assumption..|congruence]|]. rewrite (lmul_length _ _ N) by congruence. exact Hl. }
    assert (Hv1 : rmod p acc1 = row Ntt op (rl (radd S (rmul x y)))) by (apply (acc_val op K w); assumption).
    assert (Hl1 : length acc1 = N) by (apply ladd_length; [exact Hl|apply lmul_length; congruence]).
    split; [|split; [|split]].
    - apply fma_spec with (B := (p - 1) + (num - 1) * ((p - 1) * (p - 1))) (p := p); try assumption; try congruence; [|lia].
      replace ((p - 1) + (num - 1) * ((p - 1) * (p - 1)) + (p - 1) * (p - 1)) with ((p - 1) + num * ((p - 1) * (p - 1))) by ring. exact HB.
    - apply (red_rows op K w ((p - 1) + num * ((p - 1) * (p - 1)))); assumption.
    - intros _. constructor; [unfold p in *; rewrite EM; lia|unfold rmod; rewrite map_length; exact Hl1| |rewrite rmod_rmod; exact Hv1].
      fold p. unfold bounded. apply Forall_forall. intros a Ha. apply in_map_iff in Ha. destruct Ha as (b & <- & _). pose proof (Z.mod_pos_bound b p). lia.
    - intros Hne. constructor; [unfold p in *; rewrite EM; lia|exact Hl1| |exact Hv1]. fold p. replace (num + 1 - 1) with num by ring. exact Hb1.
  Qed.
  Lemma dp_flush_spec (x y : Rn N) S : forall ops accs nums, (forall op, In op ops -> In op (c_ops c)) ->
    Forall2 (fun op an => dp_inv op (fst an) (snd an) S) ops (combine accs nums) -> length accs = length ops -> length nums = length ops ->
    exists accs' nums', bind (zip_upd3 fma accs (map (fun op => row Ntt op (rl x)) ops) (map (fun op => row Ntt op (rl y)) ops))
       (fun acc => dp_flush vt acc nums (map (fun q => Z.shiftl 1 (2 * leading_zeros64 (mod_p q))) (map nt_p ops)) (map nt_p ops)) = Val (accs', nums') /\
      Forall2 (fun op an => dp_inv op (fst an) (snd an) (radd S (rmul x y))) ops (combine accs' nums') /\ length accs' = length ops /\ length nums' = length ops.
  Proof.
    induction ops as [|op ops IH]; intros [|a accs] [|n nums] Hin HF L1 L2; try discriminate.
    - exists [], []. repeat split; constructor.
    - cbn [combine] in HF. inversion HF as [|? ? ? ? J1 J2]. subst. cbn [fst snd] in J1.
      destruct (dp_row op a n S x y (Hin op (or_introl eq_refl)) J1) as (E1 & E2 & E3 & E4).
      destruct (IH accs nums ltac:(intros; apply Hin; right; assumption) J2 ltac:(cbn in L1; lia) ltac:(cbn in L2; lia)) as (accs' & nums' & F1 & F2 & F3 & F4).
      cbn [map zip_upd3]. rewrite E1. cbn [bind].
      destruct (zip_upd3 fma accs (map (fun op => row Ntt op (rl x)) ops) (map (fun op => row Ntt op (rl y)) ops)) as [r|e|] eqn:EZ; try discriminate. cbn [bind] in F1 |- *.
      cbn [dp_flush]. pose proof (di_num _ _ _ _ J1) as Hn.
      assert (mx op < W128).
      { destruct (op_ok c Hc op (Hin op (or_introl eq_refl))) as (K & w & Hok & _). pose proof (mx_bound op K w Hok). destruct (valid_fields _ (ok_m _ _ _ Hok)) as (Hp & _). nia. }
      rewrite bind_val with (a := n + 1) by (apply chk_val; lia).
      destruct (n + 1 =? mx op) eqn:Em.
      + apply Z.eqb_eq in Em. change (if vt then reduce_u128_vt (nt_p op) else reduce_u128 (nt_p op)) with (red (nt_p op)). rewrite E2. cbn [bind]. rewrite F1. cbn [bind].
        eexists _, _. split; [reflexivity|]. split; [constructor; [apply E3, Em|exact F2]|]. cbn [length]. lia.
      + apply Z.eqb_neq in Em. cbn [bind]. rewrite F1. cbn [bind].
        eexists _, _. split; [reflexivity|]. split; [constructor; [apply E4, Em|exact F2]|]. cbn [length]. lia.
  Qed.

  Definition term : Type := (bool * Rn N) * (bool * Rn N).
  Definition lhs (t : term) : poly Ntt := poly_of Ntt c (fst (fst t)) (rl (snd (fst t))).
  Definition rhs (t : term) : poly Ntt := poly_of Ntt c (fst (snd t)) (rl (snd (snd t))).
  Definition tval (t : term) : Rn N := rmul (snd (fst t)) (snd (snd t)).
  Definition tsum (S : Rn N) (ts : list term) : Rn N := fold_left (fun a t => radd a (tval t)) ts S.
  Notation maxs := (map (fun q => Z.shiftl 1 (2 * leading_zeros64 (mod_p q))) (map nt_p (c_ops c))).
  Lemma dp_loop ts : forall S accs nums, 
    Forall2 (fun op an => dp_inv op (fst an) (snd an) S) (c_ops c) (combine accs nums) -> length accs = length (c_ops c) -> length nums = length (c_ops c) ->
    exists accs' nums', foldM (dp_step vt maxs (map nt_p (c_ops c))) (map (fun t => (lhs t, rhs t)) ts) (accs, nums) = Val (accs', nums') /\
      Forall2 (fun op an => dp_inv op (fst an) (snd an) (tsum S ts)) (c_ops c) (combine accs' nums') /\ length accs' = length (c_ops c) /\ length nums' = length (c_ops c).
  Proof.
    induction ts as [|t ts IH]; intros S accs nums HF L1 L2.
    - exists accs, nums. repeat split; assumption.
    - destruct (dp_flush_spec (snd (fst t)) (snd (snd t)) S (c_ops c) accs nums ltac:(tauto) HF L1 L2) as (a1 & n1 & E & HF1 & L3 & L4).
      destruct (IH _ a1 n1 HF1 L3 L4) as (a2 & n2 & E2 & HF2 & L5 & L6).
      exists a2, n2. split; [|split; [exact HF2|split; assumption]]. cbn [map foldM]. unfold dp_step at 1. cbn [fst snd lhs rhs poly_of p_coeffs]. rewrite E. cbn [bind]. exact E2.
  Qed.
  (** The same when nothing is reduced on the way. *)
  Record dq_inv (op : ntt_op) (k : Z) (S : Rn N) (acc : list Z) : Prop := {
    dq_len : length acc = N;
    dq_bound : bounded (k * ((mod_p (nt_p op) - 1) * (mod_p (nt_p op) - 1))) acc;
    dq_val : rmod (mod_p (nt_p op)) acc = row Ntt op (rl S)
  }.
  Lemma dq_row op acc k S x y : In op (c_ops c) -> dq_inv op k S acc -> 0 <= k < mx op ->
    fma acc (row Ntt op (rl x)) (row Ntt op (rl y)) = Val (ladd acc (lmul (row Ntt op (rl x)) (row Ntt op (rl y)))) /\
    dq_inv op (k + 1) (radd S (rmul x y)) (ladd acc (lmul (row Ntt op (rl x)) (row Ntt op (rl y)))).
  Proof.
    intros Hop [Hl Hb Hv] Hk. destruct (op_ok c Hc op Hop) as (K & w & Hok & Hs).
    pose proof (rl_length x) as Lx. pose proof (rl_length y) as Ly. pose proof (mx_bound op K w Hok) as (M1 & M2). pose proof (p_pos op K w Hok) as Hpp.
    pose proof (row_length op K w Hok Ntt (rl x) ltac:(congruence)) as Rx. pose proof (row_length op K w Hok Ntt (rl y) ltac:(congruence)) as Ry.
    pose proof (row_canonical op K w Hok Ntt (rl x) ltac:(congruence)) as Cx. pose proof (row_canonical op K w Hok Ntt (rl y) ltac:(congruence)) as Cy.
    set (M := mx op) in *. clearbody M. set (p := mod_p (nt_p op)) in *.
    assert (Hp2 : 2 <= p) by (destruct (valid_fields _ (ok_m _ _ _ Hok)) as (Hp & _); unfold p; lia).
    assert (HB : k * ((p - 1) * (p - 1)) + (p - 1) * (p - 1) < W128).
    { assert ((k + 1) * ((p - 1) * (p - 1)) <= M * ((p - 1) * (p - 1))) by (apply Z.mul_le_mono_nonneg_r; [apply Z.mul_nonneg_nonneg|]; lia).
      assert (M * ((p - 1) * (p - 1)) < M * (p * p)) by (clear - Hp2 M1; nia). lia. }
    split.
    - apply fma_spec with (B := k * ((p - 1) * (p - 1))) (p := p); try assumption; try congruence; lia.
    - constructor; [apply ladd_length; [exact Hl|apply lmul_length; congruence]| |apply (acc_val op K w); assumption]. fold p.
      replace ((k + 1) * ((p - 1) * (p - 1))) with (k * ((p - 1) * (p - 1)) + (p - 1) * (p - 1)) by ring.
      apply ladd_bounded; [exact Hb|apply lmul_bounded; [assumption..|congruence]|]. rewrite (lmul_length _ _ N) by congruence. exact Hl.
  Qed.
  Lemma dq_rows (x y : Rn N) k S : 0 <= k -> forall ops accs, (forall op, In op ops -> In op (c_ops c) /\ k < mx op) ->
    Forall2 (fun op a => dq_inv op k S a) ops accs ->
    exists accs', zip_upd3 fma accs (map (fun op => row Ntt op (rl x)) ops) (map (fun op => row Ntt op (rl y)) ops) = Val accs' /\
      Forall2 (fun op a => dq_inv op (k + 1) (radd S (rmul x y)) a) ops accs'.
  Proof.
    intros Hk. induction ops as [|op ops IH]; intros accs Hin HF; inversion HF as [|? a ? accs1 J1 J2]; subst; [exists []; split; [reflexivity|constructor]|].
    destruct (Hin op (or_introl eq_refl)) as (Hop & Hmx). destruct (dq_row op a k S x y Hop J1 ltac:(lia)) as (E1 & E2).
    destruct (IH accs1 ltac:(intros; apply Hin; right; assumption) J2) as (accs' & F1 & F2).
    cbn [map zip_upd3]. rewrite E1. cbn [bind]. rewrite F1. cbn [bind]. eexists. split; [reflexivity|]. constructor; assumption.
  Qed.
  Lemma dq_loop ts : forall k S accs, 0 <= k -> (forall op, In op (c_ops c) -> k + Z.of_nat (length ts) <= mx op) ->
    Forall2 (fun op a => dq_inv op k S a) (c_ops c) accs ->
    exists accs', foldM dp_step_plain (map (fun t => (lhs t, rhs t)) ts) accs = Val accs' /\ Forall2 (fun op a => dq_inv op (k + Z.of_nat (length ts)) (tsum S ts) a) (c_ops c) accs'.
  Proof.
    induction ts as [|t ts IH]; intros k S accs Hk Hmx HF.
    - exists accs. split; [reflexivity|]. cbn [length]. rewrite Z.add_0_r. exact HF.
    - cbn [length] in *. destruct (dq_rows (snd (fst t)) (snd (snd t)) k S Hk (c_ops c) accs ltac:(intros op Hop; split; [exact Hop|specialize (Hmx op Hop); lia]) HF) as (a1 & E1 & HF1).
      destruct (IH (k + 1) _ a1 ltac:(lia) ltac:(intros op Hop; specialize (Hmx op Hop); lia) HF1) as (a2 & E2 & HF2).
      exists a2. split; [|replace (k + Z.of_nat (Datatypes.S (length ts))) with (k + 1 + Z.of_nat (length ts)) by lia; exact HF2].
      cbn [map foldM]. unfold dp_step_plain at 1. cbn [fst snd lhs rhs poly_of p_coeffs]. rewrite E1. cbn [bind]. exact E2.
  Qed.
  Lemma final_rows (S : Rn N) : forall ops accs, (forall op, In op ops -> In op (c_ops c)) ->
    Forall2 (fun op a => exists B, bounded B a /\ B < W128 /\ rmod (mod_p (nt_p op)) a = row Ntt op (rl S)) ops accs ->
    map2M (fun r q => mapM (if vt then reduce_u128_vt q else reduce_u128 q) r) accs (map nt_p ops) = Val (map (fun op => row Ntt op (rl S)) ops).
  Proof.
    intros ops accs Hin HF. induction HF as [|op a ops accs (B & HB1 & HB2 & HB3) HF IH]; [reflexivity|].
    destruct (op_ok c Hc op (Hin op (or_introl eq_refl))) as (K & w & Hok & Hs). cbn [map map2M].
    change (if vt then reduce_u128_vt (nt_p op) else reduce_u128 (nt_p op)) with (red (nt_p op)). rewrite (red_rows op K w B a Hok HB1 HB2). cbn [bind].
    rewrite IH by (intros; apply Hin; right; assumption). cbn [bind]. rewrite HB3. reflexivity.
  Qed.
End Dot.
Lemma fold_min_le l : forall m x, fold_left Z.min l m <= m /\ (In x l -> fold_left Z.min l m <= x).
Proof.
  induction l as [|a l IH]; intros m x; cbn [fold_left]; [split; [lia|contradiction]|].
  destruct (IH (Z.min m a) x) as (H1 & H2). split; [lia|]. intros [->|H]; [lia|apply H2, H].
Qed.
Section DotTop.
  Variables (c : ctx) (Hc : ctx_ok c).
  Notation N := (c_degree c).
  Definition tvt (ts : list (term c)) : bool := forallb (fun t => fst (fst t) && fst (snd t)) ts.
  Lemma row_r0 op K w : ntt_ok op K w -> nt_size op = N -> row Ntt op (rl (r0 N)) = repeat 0 N.
  Proof.
    intros Hok Hs. pose proof (zero_eq c Hc Ntt) as E. apply (f_equal p_coeffs) in E. cbn [poly_zero p_coeffs poly_of] in E.
    replace (rl (r0 N)) with (lscale 0 (rl (r0 N))).
    - rewrite (row_lscale op K w Hok) by (rewrite rl_length; congruence).       pose proof (row_length op K w Hok Ntt (rl (r0 N)) ltac:(rewrite rl_length; congruence)) as L. rewrite Hs in L. revert L.
      generalize (row Ntt op (rl (r0 N))). intros l L. rewrite <- L. clear L. induction l as [|a l IH]; [reflexivity|]. cbn [map repeat length]. f_equal; exact IH.
    - cbn [rl r0 mkR proj1_sig]. unfold lscale, lzero. rewrite map_repeat. f_equal.
  Qed.
  Theorem dot_product_eq t ts : dot_product (map (lhs c) (t :: ts)) (map (rhs c) (t :: ts)) = Val (poly_of Ntt c (tvt (t :: ts)) (rl (tsum c (r0 N) (t :: ts)))).
  Proof.
    unfold dot_product. set (ts1 := t :: ts). change (map (lhs c) ts1) with (lhs c t :: map (lhs c) ts) at 1. change (map (rhs c) ts1) with (rhs c t :: map (rhs c) ts) at 1. cbn iota beta.
    rewrite !map_length, Nat.eqb_refl. cbn [negb].
    assert (E1 : existsb (fun p : poly Ntt => negb (ctx_eqb (p_ctx p) (p_ctx (lhs c t)))) (map (lhs c) ts1) = false).
    { clearbody ts1. induction ts1 as [|u l IH]; [reflexivity|]. cbn [map existsb lhs poly_of p_ctx]. rewrite ctx_eqb_refl. exact IH. }
    assert (E2 : existsb (fun p : poly Ntt => negb (ctx_eqb (p_ctx p) (p_ctx (lhs c t)))) (map (rhs c) ts1) = false).
    { clearbody ts1. clear E1. induction ts1 as [|u l IH]; [reflexivity|]. cbn [map existsb lhs rhs poly_of p_ctx]. rewrite ctx_eqb_refl. exact IH. }
    rewrite E1, E2. cbn [orb]. rewrite combine_map. change (p_ctx (lhs c t)) with c.
    assert (E3 : forallb (fun pq : poly Ntt * poly Ntt => p_vt (fst pq) && p_vt (snd pq)) (map (fun a => (lhs c a, rhs c a)) ts1) = tvt ts1).
    { clearbody ts1. clear E1 E2. induction ts1 as [|u l IH]; [reflexivity|]. cbn [map forallb tvt fst snd lhs rhs poly_of p_vt]. rewrite IH. reflexivity. }
    rewrite E3. set (vt := tvt ts1). rewrite (q_ops c Hc).
    set (maxs := map (fun q => Z.shiftl 1 (2 * leading_zeros64 (mod_p q))) (map nt_p (c_ops c))).
    assert (exists min, match maxs with [] => None | m :: t0 => Some (fold_left Z.min t0 m) end = Some min /\ (forall op, In op (c_ops c) -> min <= Z.shiftl 1 (2 * leading_zeros64 (mod_p (nt_p op))))) as (mn & Emn & Hmn).
    { assert (Hne : maxs <> []). { unfold maxs. intros E. apply map_eq_nil, map_eq_nil in E. pose proof (co_ne _ Hc). contradiction. }
      destruct maxs as [|m l] eqn:E; [contradiction|]. eexists. split; [reflexivity|]. intros op Hop.
      assert (In (Z.shiftl 1 (2 * leading_zeros64 (mod_p (nt_p op)))) (m :: l)) by (rewrite <- E; unfold maxs; rewrite map_map; apply (in_map (fun x => Z.shiftl 1 (2 * leading_zeros64 (mod_p (nt_p x))))), Hop).
      destruct H as [<-|H]; [apply (proj1 (fold_min_le l m 0))|apply (proj2 (fold_min_le l m _)), H]. }
    rewrite Emn. cbn [unwrap bind].
    assert (Hz : zero_rows c = map (fun _ => repeat 0 N) (c_ops c)).
    { unfold zero_rows. rewrite (q_length c Hc). clear. induction (c_ops c) as [|a l IH]; [reflexivity|]. cbn [length repeat map]. f_equal. exact IH. }
    assert (Hrows : exists accs, (if mn <? Z.of_nat (length ts1) then
        '(acc, _) <- foldM (dp_step vt maxs (map nt_p (c_ops c))) (map (fun a => (lhs c a, rhs c a)) ts1) (zero_rows c, map (fun _ => 1) (map nt_p (c_ops c))) ;; Val acc
        else foldM dp_step_plain (map (fun a => (lhs c a, rhs c a)) ts1) (zero_rows c)) = Val accs /\
      Forall2 (fun op a => exists B, bounded B a /\ B < W128 /\ rmod (mod_p (nt_p op)) a = row Ntt op (rl (tsum c (r0 N) ts1))) (c_ops c) accs).
    { assert (Hz0 : forall op, In op (c_ops c) -> rmod (mod_p (nt_p op)) (repeat 0 N) = row Ntt op (rl (r0 N))).
      { intros op Hop. destruct (op_ok c Hc op Hop) as (K & w & Hok & Hs). rewrite (row_r0 op K w Hok Hs). unfold rmod. rewrite map_repeat. reflexivity. }
      destruct (mn <? Z.of_nat (length ts1)) eqn:El.
      - destruct (dp_loop c Hc vt ts1 (r0 N) (zero_rows c) (map (fun _ => 1) (map nt_p (c_ops c)))) as (a & n & E & HF & L1 & L2).
        + rewrite Hz, map_map, combine_map. assert (G : forall l, (forall op, In op l -> In op (c_ops c)) -> Forall2 (fun op an => dp_inv c op (fst an) (snd an) (r0 N)) l (map (fun a => (repeat 0 N, 1)) l)).
          { induction l as [|op l IH]; intros Hl; constructor; [|apply IH; intros; apply Hl; right; assumption]. pose proof (Hl op (or_introl eq_refl)) as Hop. destruct (op_ok c Hc op Hop) as (K & w & Hok & Hs).
            pose proof (mx_bound op K w Hok). pose proof (p_pos op K w Hok). cbn [fst snd]. constructor; [lia|apply repeat_length| |apply Hz0, Hop].
            apply Forall_forall. intros z Hin. apply repeat_spec in Hin. subst z. lia. }
          apply G. auto.
        + rewrite Hz. apply map_length.
        + rewrite !map_length. reflexivity.
        + fold maxs in E. rewrite E. cbn [bind]. exists a. split; [reflexivity|]. clear - HF L1 L2 Hc.
          assert (Hin : forall op, In op (c_ops c) -> In op (c_ops c)) by auto. revert Hin HF L1 L2. generalize (c_ops c) at 1 3 4 5 6. intros ops. revert a n.
          induction ops as [|op ops IH]; intros [|a1 a] [|n1 n] Hin HF L1 L2; try discriminate; constructor.
          * inversion HF as [|? ? ? ? [J1 J2 J3 J4] J5]; subst. cbn [fst snd] in *. destruct (op_ok c Hc op (Hin op (or_introl eq_refl))) as (K & w & Hok & Hs).
            pose proof (mx_bound op K w Hok) as (M1 & M2). eexists. split; [exact J3|]. split; [|exact J4].
            destruct (valid_fields _ (ok_m _ _ _ Hok)) as (Hp & _). revert J1 M1 M2. generalize (Z.shiftl 1 (2 * leading_zeros64 (mod_p (nt_p op)))). intros M J1 M1 M2. set (p := mod_p (nt_p op)) in *.
            assert ((n1 - 1) * ((p - 1) * (p - 1)) <= M * ((p - 1) * (p - 1))) by (apply Z.mul_le_mono_nonneg_r; [apply Z.mul_nonneg_nonneg|]; lia).
            assert ((p - 1) + M * ((p - 1) * (p - 1)) < M * (p * p)) by (clear - Hp M1; nia). lia.
          * inversion HF; subst. apply (IH a n); [intros; apply Hin; right; assumption|assumption|cbn in L1; lia|cbn in L2; lia].
      - apply Z.ltb_ge in El. destruct (dq_loop c Hc ts1 0 (r0 N) (zero_rows c)) as (a & E & HF).
        + lia.
        + intros op Hop. specialize (Hmn op Hop). lia.
        + rewrite Hz. assert (G : forall l, (forall op, In op l -> In op (c_ops c)) -> Forall2 (fun op a => dq_inv c op 0 (r0 N) a) l (map (fun _ => repeat 0 N) l)).
          { induction l as [|op l IH]; intros Hl; constructor; [|apply IH; intros; apply Hl; right; assumption]. pose proof (Hl op (or_introl eq_refl)) as Hop.
            constructor; [apply repeat_length| |apply Hz0, Hop]. apply Forall_forall. intros z Hin. apply repeat_spec in Hin. subst z. lia. }
          apply G. auto.
        + rewrite E. exists a. split; [reflexivity|]. clear - HF Hmn El Hc.
          assert (Hin : forall op, In op (c_ops c) -> In op (c_ops c)) by auto. revert Hin HF. generalize (c_ops c) at 1 3 4. intros ops. revert a.
          induction ops as [|op ops IH]; intros a Hin HF; inversion HF as [|? a1 ? a2 [J1 J2 J3] J4]; subst; constructor; [|apply IH; [intros; apply Hin; right; assumption|assumption]].
          destruct (op_ok c Hc op (Hin op (or_introl eq_refl))) as (K & w & Hok & Hs). eexists. split; [exact J2|]. split; [|exact J3].
          pose proof (mx_bound op K w Hok) as (M1 & M2). specialize (Hmn op (Hin op (or_introl eq_refl))). destruct (valid_fields _ (ok_m _ _ _ Hok)) as (Hp & _).
          revert Hmn M1 M2. generalize (Z.shiftl 1 (2 * leading_zeros64 (mod_p (nt_p op)))). intros M Hmn M1 M2. set (p := mod_p (nt_p op)) in *. rewrite Z.add_0_l.
          assert (Z.of_nat (length ts1) * ((p - 1) * (p - 1)) <= M * ((p - 1) * (p - 1))) by (apply Z.mul_le_mono_nonneg_r; [apply Z.mul_nonneg_nonneg|]; lia).
          assert (M * ((p - 1) * (p - 1)) < M * (p * p)) by (clear - Hp M1; nia). lia. }
    destruct Hrows as (accs & Ea & HF). cbv zeta. rewrite Ea. cbn [bind].
    rewrite (final_rows c Hc vt (tsum c (r0 N) ts1) (c_ops c) accs (fun _ h => h) HF). reflexivity.
  Qed.
End DotTop.
