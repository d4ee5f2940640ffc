(** The transforms panic on values outside their range: the assertions of the first round of butterflies see every value. *)
From Verif Require Import Outcome BasicSpec OutcomeLemmas ZqModel ZqProofs NumTheory NttModel PolySpec PolyRing NttPure NttStages NttProofs RqOps.

(** [m] is a value or a panic. *)
Definition noerr {A} (m : M A) : Prop := forall e, m <> Err e.
Lemma noerr_val {A} (a : A) : noerr (Val a). Proof. intros e. discriminate. Qed.
Lemma noerr_panic {A} : noerr (@Panic A). Proof. intros e. discriminate. Qed.
Lemma noerr_bind {A B} (m : M A) (f : A -> M B) : noerr m -> (forall a, noerr (f a)) -> noerr (bind m f).
Proof. intros H Hf e. destruct m as [a|e'|]; cbn [bind]; [apply Hf| |discriminate]. exfalso. exact (H e' eq_refl). Qed.
Lemma noerr_guard b : noerr (guard b). Proof. destruct b; [apply noerr_val|apply noerr_panic]. Qed.
Lemma noerr_chk lo hi x : noerr (chk lo hi x). Proof. unfold chk. destruct ((lo <=? x) && (x <? hi)); [apply noerr_val|apply noerr_panic]. Qed.
Lemma noerr_unwrap {A} (o : option A) : noerr (unwrap o). Proof. destruct o; [apply noerr_val|apply noerr_panic]. Qed.
Lemma noerr_get {A} (l : list A) i : noerr (get l i). Proof. apply noerr_unwrap. Qed.
Lemma noerr_mapM {A B} (f : A -> M B) l : (forall a, noerr (f a)) -> noerr (mapM f l).
Proof. intros H. induction l as [|a l IH]; cbn [mapM]; [apply noerr_val|]. apply noerr_bind; [apply H|]. intros b. apply noerr_bind; [exact IH|]. intros. apply noerr_val. Qed.
Lemma noerr_map2M {A B C} (f : A -> B -> M C) l : (forall a b, noerr (f a b)) -> forall l', noerr (map2M f l l').
Proof. intros H. induction l as [|a l IH]; intros [|b l']; cbn [map2M]; try apply noerr_val. apply noerr_bind; [apply H|]. intros c. apply noerr_bind; [apply IH|]. intros. apply noerr_val. Qed.
Lemma noerr_foldM {A B} (f : A -> B -> M A) l : (forall a b, noerr (f a b)) -> forall a, noerr (foldM f l a).
Proof. intros H. induction l as [|b l IH]; intros a; cbn [foldM]; [apply noerr_val|]. apply noerr_bind; [apply H|]. intros. apply IH. Qed.
Lemma noerr_cases {A} (m : M A) : noerr m -> (m = Panic <-> ~ exists a, m = Val a).
Proof. intros H. destruct m as [a|e|]; split; intros E; try discriminate; try reflexivity. - exfalso. apply E. eauto. - exfalso. exact (H e eq_refl). - intros (a & Ea). discriminate. Qed.

Ltac ne := repeat lazymatch goal with
  | |- noerr (Val _) => apply noerr_val
  | |- noerr Panic => apply noerr_panic
  | |- noerr (guard _) => apply noerr_guard
  | |- noerr (chk _ _ _) => apply noerr_chk
  | |- noerr (get _ _) => apply noerr_get
  | |- noerr (bind _ _) => apply noerr_bind; [|intros]
  | |- noerr (mapM _ _) => apply noerr_mapM; intros
  | |- noerr (map2M _ _ _) => apply noerr_map2M; intros
  | |- noerr (foldM _ _ _) => apply noerr_foldM; intros
  | |- noerr (let (_, _) := ?x in _) => destruct x
  end.
Lemma noerr_reduce1 x p : noerr (reduce1 x p). Proof. unfold reduce1, chk64. ne. Qed.
Lemma noerr_reduce1_vt x p : noerr (reduce1_vt x p). Proof. unfold reduce1_vt, chk64. ne. destruct (p <=? x); ne. Qed.
Lemma noerr_shoup m a : noerr (shoup m a). Proof. unfold shoup. ne. Qed.
Lemma noerr_lazy m a b s : noerr (lazy_mul_shoup m a b s). Proof. unfold lazy_mul_shoup, chk128, chk64. ne; try apply noerr_shoup; ne. Qed.
Lemma noerr_reduce3 op a : noerr (reduce3 op a). Proof. unfold reduce3, chk64. ne; apply noerr_reduce1. Qed.
Lemma noerr_reduce3_vt op a : noerr (reduce3_vt op a). Proof. unfold reduce3_vt, chk64. ne; apply noerr_reduce1_vt. Qed.
Lemma noerr_butterfly r1 op x y w ws : (forall a b, noerr (r1 a b)) -> noerr (butterfly_gen r1 op x y w ws).
Proof. intros H. unfold butterfly_gen, chk64. ne; try apply noerr_shoup; try apply H; apply noerr_lazy. Qed.
Lemma noerr_inv_butterfly r1 op x y w ws : (forall a b, noerr (r1 a b)) -> noerr (inv_butterfly_gen r1 op x y w ws).
Proof. intros H. unfold inv_butterfly_gen, chk64. ne; try apply noerr_shoup; try apply H; apply noerr_lazy. Qed.
Lemma noerr_mul_shoup m a b s : noerr (mul_shoup m a b s). Proof. unfold mul_shoup. ne; [apply noerr_lazy|apply noerr_reduce1]. Qed.

Lemma noerr_fwd_chunks op l cs : forall k, noerr (fwd_chunks op l k cs).
Proof.
  induction cs as [|c cs IH]; intros k; cbn [fwd_chunks]; ne. - unfold fwd_chunk. ne. destruct (Nat.eqb l 1).
    + destruct (firstn l c); [ne|]. destruct (skipn l c); [ne|]. ne; [apply noerr_butterfly, noerr_reduce1|apply noerr_reduce3..].
    + ne. apply noerr_butterfly, noerr_reduce1.
  - apply IH.
Qed.
Lemma noerr_fwd_loop fuel op : forall l k a, noerr (fwd_loop fuel op l k a).
Proof.
  induction fuel as [|fuel IH]; intros l k a; cbn [fwd_loop]; destruct (Nat.eqb l 0); ne; [apply noerr_fwd_chunks|apply IH].
Qed.
Lemma noerr_forward op a : noerr (ntt_forward op a). Proof. unfold ntt_forward. ne. apply noerr_fwd_loop. Qed.
Lemma noerr_bwd_chunks op l cs : forall k, noerr (bwd_chunks op l k cs).
Proof.
  induction cs as [|c cs IH]; intros k; cbn [bwd_chunks]; ne. - unfold bwd_chunk. ne. destruct (Nat.eqb l 1).
    + destruct (firstn l c); [ne|]. destruct (skipn l c); [ne|]. ne. apply noerr_inv_butterfly, noerr_reduce1.
    + ne. apply noerr_inv_butterfly, noerr_reduce1.
  - apply IH.
Qed.
Lemma noerr_bwd_loop fuel op : forall l k a, noerr (bwd_loop fuel op l k a).
Proof.
  induction fuel as [|fuel IH]; intros l k a; cbn [bwd_loop]; destruct (negb (Nat.ltb l (nt_size op))); ne; [apply noerr_bwd_chunks|apply IH].
Qed.
Lemma noerr_backward op a : noerr (ntt_backward op a). Proof. unfold ntt_backward. ne; [apply noerr_bwd_loop|apply noerr_mul_shoup]. Qed.
Lemma noerr_pair f a j l : (forall x y, noerr (f x y)) -> noerr (at_pair f a j l).
Proof. intros H. unfold at_pair. ne. apply H. Qed.
Lemma noerr_fwd_vt_loop fuel op : forall l m k a, noerr (fwd_vt_loop fuel op l m k a).
Proof.
  induction fuel as [|fuel IH]; intros l m k a; cbn [fwd_vt_loop]; destruct (Nat.eqb l 0); ne.
  - unfold fwd_vt_stage. ne. unfold fwd_vt_block. ne. apply noerr_pair. intros. apply noerr_butterfly, noerr_reduce1_vt.
  - apply IH.
Qed.
Lemma noerr_forward_vt op a : noerr (ntt_forward_vt op a). Proof. unfold ntt_forward_vt, ntt_forward_vt_lazy. ne; [apply noerr_fwd_vt_loop|apply noerr_reduce3_vt]. Qed.
Lemma noerr_bwd_vt_loop fuel op : forall l m k a, noerr (bwd_vt_loop fuel op l m k a).
Proof.
  induction fuel as [|fuel IH]; intros l m k a; cbn [bwd_vt_loop]; destruct (Nat.eqb m 0); ne.
  - unfold bwd_vt_stage. ne. unfold bwd_vt_block. ne. apply noerr_pair. intros. apply noerr_inv_butterfly, noerr_reduce1_vt.
  - apply IH.
Qed.
Lemma noerr_backward_vt op a : noerr (ntt_backward_vt op a). Proof. unfold ntt_backward_vt. ne; [apply noerr_bwd_vt_loop|apply noerr_mul_shoup]. Qed.

(** What the assertions of a butterfly tell. *)
Lemma butterfly_in r1 op x y w ws r : butterfly_gen r1 op x y w ws = Val r -> x < 4 * mod_p (nt_p op) /\ y < 4 * mod_p (nt_p op).
Proof.
  unfold butterfly_gen. intros H. apply bind_inv in H. destruct H as (p4 & E & H). apply chk_inv in E. destruct E as (-> & _). apply bind_inv in H. destruct H as (u & E1 & H). apply guard_inv in E1.
  apply bind_inv in H. destruct H as (u' & E2 & _). apply guard_inv in E2. lia.
Qed.
Lemma inv_butterfly_in r1 op x y w ws r : inv_butterfly_gen r1 op x y w ws = Val r -> x < nt_p_twice op /\ y < nt_p_twice op.
Proof.
  unfold inv_butterfly_gen. intros H. apply bind_inv in H. destruct H as (u & E1 & H). apply guard_inv in E1.
  apply bind_inv in H. destruct H as (u' & E2 & _). apply guard_inv in E2. lia.
Qed.
Lemma map2M_in {A B C} (P : A -> Prop) (Q : B -> Prop) (f : A -> B -> M C) : (forall a b c, f a b = Val c -> P a /\ Q b) ->
  forall l l' r, length l = length l' -> map2M f l l' = Val r -> Forall P l /\ Forall Q l'.
Proof.
  intros H. induction l as [|a l IH]; intros [|b l'] r Hl E; try discriminate; [split; constructor|]. cbn [map2M] in E. apply bind_inv in E. destruct E as (c & E1 & E). apply bind_inv in E. destruct E as (r' & E2 & _).
  destruct (H _ _ _ E1). destruct (IH l' r' ltac:(cbn in Hl; lia) E2). split; constructor; assumption.
Qed.

Section Op.
  Context (op : ntt_op) (K : nat) (w : Z) (Hok : ntt_ok op K w).
  Notation p := (mod_p (nt_p op)).
  Notation n := (nt_size op).
  Set Default Proof Using "Hok".
  Lemma size_pos : (8 <= n)%nat /\ (n = 2 * (n / 2))%nat /\ Nat.div2 n = (n / 2)%nat.
  Proof.
    rewrite (ok_size _ _ _ Hok). pose proof (ok_K _ _ _ Hok) as HK. replace K with (S (S (S (K - 3)))) by lia. cbn [Nat.pow]. pose proof (Nat.pow_nonzero 2 (K - 3) ltac:(lia)). set (x := (2 ^ (K - 3))%nat) in *. rewrite Nat.div2_div.
    replace (2 * (2 * (2 * x)))%nat with ((2 * (2 * x)) * 2)%nat by lia. rewrite Nat.div_mul by lia. lia.
  Qed.
  (** The forward transforms. *)
  Lemma forward_in a r : ntt_forward op a = Val r -> Forall (fun x => x < 4 * p) a.
  Proof.
    intros H. destruct size_pos as (H8 & He & Ed). unfold ntt_forward in H. apply bind_inv in H. destruct H as (u & E & H). apply guard_inv, Nat.eqb_eq in E. rewrite Ed in H. set (h := (n / 2)%nat) in *.
    destruct n as [|f] eqn:En; [lia|]. cbn [fwd_loop] in H. destruct (Nat.eqb_spec h 0); [lia|]. replace (2 * h)%nat with (length a) in H by lia.
    unfold as_chunks in H.  rewrite Nat.div_same in H by lia. cbn [chunks_n] in H. rewrite skipn_all, firstn_all in H. cbn [fwd_chunks] in H.
    apply bind_inv in H. destruct H as ((cs & k') & H & _). apply bind_inv in H. destruct H as (om & _ & H). apply bind_inv in H. destruct H as (oms & _ & H). apply bind_inv in H. destruct H as (c' & H & _).
    unfold fwd_chunk in H. destruct (Nat.leb_spec h (length a)); [|lia]. cbn [guard bind] in H. destruct (Nat.eqb_spec h 1); [lia|]. apply bind_inv in H. destruct H as (xy & H & _).
    apply (map2M_in (fun x => x < 4 * p) (fun x => x < 4 * p)) in H; [|intros x y c Hb; apply butterfly_in in Hb; exact Hb|rewrite firstn_length, skipn_length; lia].
    rewrite <- (firstn_skipn h a). apply Forall_app. exact H.
  Qed.
  Lemma pairs_in (P : Z -> Prop) f l : (0 < l)%nat -> (forall x y r, f x y = Val r -> P x /\ P y) -> forall m s a r, (s + m <= l)%nat -> length a = (2 * l)%nat ->
    foldM (fun a j => at_pair f a j l) (seq s m) a = Val r -> forall j, (s <= j < s + m)%nat -> P (nth j a 0) /\ P (nth (j + l) a 0).
  Proof.
    intros Hl Hf. induction m as [|m IH]; intros s a r Hm La H j Hj; [lia|]. cbn [seq foldM] in H. apply bind_inv in H. destruct H as (a' & E & H).
    unfold at_pair in E. destruct (Nat.eqb_spec l 0); [lia|]. cbn [negb guard bind] in E. rewrite !get_nth in E by lia. cbn [bind] in E. apply bind_inv in E. destruct E as ((x' & y') & Ef & E). injection E as <-. apply Hf in Ef.
    destruct (Nat.eq_dec j s) as [->|Hne]; [exact Ef|]. assert (La' : length (set_nth (set_nth a s x') (s + l) y') = (2 * l)%nat) by (rewrite !set_nth_length; exact La). specialize (IH (S s) _ r ltac:(lia) La' H j ltac:(lia)).
    rewrite !nth_set_nth in IH by (rewrite ?set_nth_length; lia). destruct (Nat.eqb_spec j (s + l)); [lia|]. destruct (Nat.eqb_spec j s); [lia|]. destruct (Nat.eqb_spec (j + l) (s + l)); [lia|]. destruct (Nat.eqb_spec (j + l) s); [lia|]. exact IH.
  Qed.
  Lemma forward_vt_in a r : ntt_forward_vt op a = Val r -> Forall (fun x => x < 4 * p) a.
  Proof.
    intros H. destruct size_pos as (H8 & He & Ed). unfold ntt_forward_vt, ntt_forward_vt_lazy in H. apply bind_inv in H. destruct H as (z & H & _). apply bind_inv in H. destruct H as (u & E & H). apply guard_inv, Nat.eqb_eq in E. rewrite Ed in H. set (h := (n / 2)%nat) in *.
    destruct n as [|f] eqn:En; [lia|]. cbn [fwd_vt_loop] in H. destruct (Nat.eqb_spec h 0); [lia|]. apply bind_inv in H. destruct H as ((k' & a') & H & _). unfold fwd_vt_stage in H. cbn [seq foldM] in H. apply bind_inv in H. destruct H as (ka & H & _).
    unfold fwd_vt_block in H. apply bind_inv in H. destruct H as (om & _ & H). apply bind_inv in H. destruct H as (oms & _ & H). apply bind_inv in H. destruct H as (b & H & _). rewrite Nat.mul_0_r in H. cbn [Nat.mul] in H.
    pose proof (pairs_in (fun x => x < 4 * p) _ h ltac:(lia) (fun x y c Hb => butterfly_in _ _ _ _ _ _ _ Hb) h 0 a b ltac:(lia) ltac:(lia) H) as HP.
    apply Forall_forall. intros x Hx. apply (In_nth _ _ 0) in Hx. destruct Hx as (j & Hj & <-). destruct (Nat.lt_ge_cases j h) as [Hlt|Hge]; [apply (HP j ltac:(lia))|].
    replace j with (j - h + h)%nat by lia. apply (HP (j - h)%nat ltac:(lia)).
  Qed.
  (** The backward transforms. *)
  Lemma bwd_chunks_in cs : Forall (fun c => length c = 2%nat) cs -> forall k r, bwd_chunks op 1 k cs = Val r -> Forall (Forall (fun x => x < 2 * p)) cs.
  Proof.
    induction cs as [|c cs IH]; intros Hc k r H; [constructor|]. inversion Hc as [|? ? Lc Hc']; subst. cbn [bwd_chunks] in H. apply bind_inv in H. destruct H as (z & _ & H). apply bind_inv in H. destruct H as (zs & _ & H).
    apply bind_inv in H. destruct H as (c' & E & H). apply bind_inv in H. destruct H as (r' & H & _). constructor; [|exact (IH Hc' _ _ H)]. destruct c as [|x [|y [|? ?]]]; try discriminate Lc.
    unfold bwd_chunk in E. cbn [length Nat.leb guard bind Nat.eqb firstn skipn] in E. apply bind_inv in E. destruct E as (xy & E & _). apply inv_butterfly_in in E. rewrite (ok_p2 _ _ _ Hok) in E. repeat constructor; apply E.
  Qed.
  Lemma chunks_pairs {A} m : forall (a : list A) cs r, chunks_n m 2 a = (cs, r) -> length a = (2 * m)%nat -> Forall (fun c => length c = 2%nat) cs /\ concat cs = a.
  Proof.
    induction m as [|m IH]; intros a cs r E La; cbn [chunks_n] in E.
    - injection E as <- <-. split; [constructor|]. destruct a; [reflexivity|discriminate].
    - destruct (chunks_n m 2 (skipn 2 a)) as (cs' & r') eqn:E'. injection E as <- <-. destruct (IH _ _ _ E') as (H1 & H2); [rewrite skipn_length; lia|]. assert (Hf : length (firstn 2 a) = 2%nat) by (rewrite firstn_length; lia). split; [constructor; [exact Hf|exact H1]|]. cbn [concat]. rewrite H2. exact (firstn_skipn 2 a).
  Qed.
  Lemma backward_in a r : ntt_backward op a = Val r -> Forall (fun x => x < 2 * p) a.
  Proof.
    intros H. destruct size_pos as (H8 & He & _). unfold ntt_backward in H. apply bind_inv in H. destruct H as (u & E & H). apply guard_inv, Nat.eqb_eq in E. apply bind_inv in H. destruct H as (b & H & _).
    destruct n as [|f] eqn:En; [lia|]. cbn [bwd_loop] in H. rewrite En in H. destruct (Nat.ltb_spec 1 (S f)); [|lia]. cbn [negb] in H. change (2 * 1)%nat with 2%nat in H. unfold as_chunks in H.
    destruct (chunks_n (length a / 2) 2 a) as (cs & r') eqn:Ec. apply bind_inv in H. destruct H as ((cs' & k') & H & _). destruct (chunks_pairs _ _ _ _ Ec) as (H1 & H2); [rewrite E; exact He|].
    pose proof (bwd_chunks_in cs H1 _ _ H) as HP. rewrite <- H2. clear -HP. induction HP; cbn [concat]; [constructor|]. apply Forall_app. auto.
  Qed.
  Lemma block_in m : forall i k a r, length a = n -> (2 * (i + m) <= n)%nat -> foldM (bwd_vt_block op 1) (seq i m) (k, a) = Val r -> forall j, (2 * i <= j < 2 * (i + m))%nat -> nth j a 0 < 2 * p.
  Proof.
    induction m as [|m IH]; intros i k a r La Hm H j Hj; [lia|]. cbn [seq foldM] in H. apply bind_inv in H. destruct H as ((k' & a') & E & H). unfold bwd_vt_block in E. replace (2 * i * 1)%nat with (2 * i)%nat in E by lia.
    apply bind_inv in E. destruct E as (z & _ & E). apply bind_inv in E. destruct E as (zs & _ & E). apply bind_inv in E. destruct E as (b & E & Eb). injection Eb as <- <-. cbn [seq foldM] in E. apply bind_inv in E. destruct E as (b' & E & Eb). injection Eb as <-.
    unfold at_pair in E. cbn [Nat.eqb negb guard bind] in E. rewrite !get_nth in E by lia. cbn [bind] in E. apply bind_inv in E. destruct E as ((x' & y') & Ef & E). injection E as <-. apply inv_butterfly_in in Ef. rewrite (ok_p2 _ _ _ Hok) in Ef.
    destruct (Nat.eq_dec j (2 * i)) as [->|H1]; [apply Ef|]. destruct (Nat.eq_dec j (2 * i + 1)) as [->|H2]; [apply Ef|].
    assert (La' : length (set_nth (set_nth a (2 * i) x') (2 * i + 1) y') = n) by (rewrite !set_nth_length; exact La). specialize (IH (S i) _ _ r La' ltac:(lia) H j ltac:(lia)). rewrite !nth_set_nth in IH by (rewrite ?set_nth_length; lia).
    destruct (Nat.eqb_spec j (2 * i + 1)); [lia|]. destruct (Nat.eqb_spec j (2 * i)); [lia|]. exact IH.
  Qed.
  Lemma backward_vt_in a r : ntt_backward_vt op a = Val r -> Forall (fun x => x < 2 * p) a.
  Proof.
    intros H. destruct size_pos as (H8 & He & Ed). unfold ntt_backward_vt in H. apply bind_inv in H. destruct H as (u & E & H). apply guard_inv, Nat.eqb_eq in E. apply bind_inv in H. destruct H as (b & H & _). rewrite Ed in H.
    destruct n as [|f] eqn:En; [lia|]. cbn [bwd_vt_loop] in H. destruct (Nat.eqb_spec (S f / 2) 0); [lia|]. apply bind_inv in H. destruct H as ((k' & a') & H & _). unfold bwd_vt_stage in H.
    apply Forall_forall. intros x Hx. apply (In_nth _ _ 0) in Hx. destruct Hx as (j & Hj & <-). apply (block_in (S f / 2) 0 0 a _ ltac:(lia) ltac:(lia) H). lia.
  Qed.
  (** The two kinds of outcomes. *)
  Definition fwd (vt : bool) a := if vt then ntt_forward_vt op a else ntt_forward op a.
  Definition bwd (vt : bool) a := if vt then ntt_backward_vt op a else ntt_backward op a.
  Lemma not_below b (a : list Z) : Forall (fun x => 0 <= x) a -> ~ Forall (fun x => x < b) a <-> Exists (fun x => b <= x) a.
  Proof.
    intros H0. split.
    - intros H. induction H0 as [|x a Hx Ha IH]; [exfalso; apply H; constructor|]. destruct (Z.lt_ge_cases x b) as [Hlt|Hge]; [|left; exact Hge]. right. apply IH. intros HF. apply H. constructor; assumption.
    - intros H HF. rewrite Forall_forall in HF. apply Exists_exists in H. destruct H as (x & Hx & Hb). specialize (HF x Hx). lia.
  Qed.
  Theorem fwd_cases vt a : length a = n -> Forall (fun x => 0 <= x) a -> (Exists (fun x => 4 * p <= x) a -> fwd vt a = Panic) /\ (Forall (fun x => x < 4 * p) a -> fwd vt a = Val (NTT op a)).
  Proof.
    intros La H0. split; intros H.
    - apply noerr_cases; [destruct vt; [apply noerr_forward_vt|apply noerr_forward]|]. intros (r & E). apply (not_below (4 * p) a H0) in H. apply H. destruct vt; [exact (forward_vt_in _ _ E)|exact (forward_in _ _ E)].
    - assert (Hb : below (4 * p) a) by (unfold below; rewrite Forall_forall in *; auto). destruct vt; [apply (forward_vt_NTT _ _ _ Hok)|apply (forward_NTT _ _ _ Hok)]; assumption.
  Qed.
  Theorem bwd_cases vt a : length a = n -> Forall (fun x => 0 <= x) a -> (Exists (fun x => 2 * p <= x) a -> bwd vt a = Panic) /\ (Forall (fun x => x < 2 * p) a -> bwd vt a = Val (INTT op a)).
  Proof.
    intros La H0. split; intros H.
    - apply noerr_cases; [destruct vt; [apply noerr_backward_vt|apply noerr_backward]|]. intros (r & E). apply (not_below (2 * p) a H0) in H. apply H. destruct vt; [exact (backward_vt_in _ _ E)|exact (backward_in _ _ E)].
    - assert (Hb : below (2 * p) a) by (unfold below; rewrite Forall_forall in *; auto). destruct vt; [apply (backward_vt_INTT _ _ _ Hok)|apply (backward_INTT _ _ _ Hok)]; assumption.
  Qed.
End Op.
