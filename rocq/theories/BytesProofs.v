(** The wire format: what is written is read back, and what is read has values of the types of the fields. *)
From Verif Require Import Outcome BasicSpec OutcomeLemmas RqModel ParamsModel CipherModel KeysModel WireSpec BytesModel BytesSpec.

(** ** Varints *)
Lemma put_varint_loop_ok n v r : 0 <= v < 2 * 128 ^ Z.of_nat n -> get_varint_loop (S n) (put_varint_loop (S n) v ++ r) = Some (v, r).
Proof.
  revert v. induction n as [|n IH]; intros v Hv.
  - cbn [put_varint_loop]. change (2 * 128 ^ Z.of_nat 0) with 2 in Hv. rewrite (proj2 (Z.ltb_lt v 128)) by lia. cbn [app get_varint_loop Nat.eqb andb]. rewrite (proj2 (Z.ltb_lt v 128)) by lia. rewrite (proj2 (Z.ltb_ge 1 v)) by lia. reflexivity.
  - rewrite Nat2Z.inj_succ, Z.pow_succ_r in Hv by lia. set (m := S n) in *. cbn [put_varint_loop]. destruct (v <? 128) eqn:E.
    + cbn [app get_varint_loop]. rewrite E. reflexivity.
    + apply Z.ltb_ge in E. cbn [app get_varint_loop]. pose proof (Z.mod_pos_bound v 128 ltac:(lia)). rewrite (proj2 (Z.ltb_ge (v mod 128 + 128) 128)) by lia.
      rewrite IH; [|split; [apply Z.div_pos; lia|apply Z.div_lt_upper_bound; lia]]. f_equal. f_equal. pose proof (Z.div_mod v 128 ltac:(lia)). lia.
Qed.
Lemma put_varint_ok v r : is_u64 v -> get_varint (put_varint v ++ r) = Some (v, r).
Proof. intros Hv. apply (put_varint_loop_ok 9). change (2 * 128 ^ Z.of_nat 9) with (2 ^ 64). exact Hv. Qed.
Lemma put_varint_length v : (1 <= length (put_varint v))%nat.
Proof. unfold put_varint. cbn [put_varint_loop]. destruct (v <? 128); cbn [length]; lia. Qed.
Lemma put_varint_loop_bytes n v : 0 <= v -> byte_string (put_varint_loop n v).
Proof.
  revert v. induction n as [|n IH]; intros v Hv; [constructor|]. cbn [put_varint_loop]. destruct (v <? 128) eqn:E.
  - apply Z.ltb_lt in E. constructor; [lia|constructor].
  - pose proof (Z.mod_pos_bound v 128 ltac:(lia)). constructor; [lia|]. apply IH. apply Z.div_pos; lia.
Qed.
Lemma put_varint_bytes v : 0 <= v -> byte_string (put_varint v).
Proof. apply put_varint_loop_bytes. Qed.
Lemma get_varint_loop_ok n l v r : byte_string l -> get_varint_loop n l = Some (v, r) -> 0 <= v < (if Nat.eqb n 0 then 0 else 2 * 128 ^ (Z.of_nat n - 1)) /\ byte_string r /\ (length r < length l)%nat.
Proof.
  revert l v r. induction n as [|n IH]; intros l v r Hl E; [discriminate|]. destruct l as [|b l]; [discriminate|]. inversion Hl as [|? ? Hb Hl']; subst. cbn beta in Hb. change (2 ^ 8) with 256 in Hb. cbn [get_varint_loop] in E. cbn [Nat.eqb].
  replace (Z.of_nat (S n) - 1) with (Z.of_nat n) by lia. destruct (b <? 128) eqn:Eb.
  - apply Z.ltb_lt in Eb. destruct n as [|n].
    + cbn [Nat.eqb andb] in E. destruct (1 <? b) eqn:E1; [discriminate|]. apply Z.ltb_ge in E1. injection E as <- <-. split; [|split; [exact Hl'|cbn [length]; lia]]. change (2 * 128 ^ Z.of_nat 0) with 2. lia.
    + cbn [Nat.eqb andb] in E. injection E as <- <-. split; [|split; [exact Hl'|cbn [length]; lia]]. rewrite Nat2Z.inj_succ, Z.pow_succ_r by lia. assert (0 < 128 ^ Z.of_nat n) by (apply Z.pow_pos_nonneg; lia). lia.
  - apply Z.ltb_ge in Eb. destruct (get_varint_loop n l) as [[w r']|] eqn:Ew; [|discriminate]. assert (v = b - 128 + 128 * w /\ r = r') as (-> & ->) by (split; congruence). destruct (IH l w r' Hl' Ew) as (Hw & Hr & Lr). split; [|split; [exact Hr|cbn [length]; lia]].
    destruct n as [|n]; [cbn [Nat.eqb] in Hw; lia|]. cbn [Nat.eqb] in Hw. replace (Z.of_nat (S n) - 1) with (Z.of_nat n) in Hw by lia. rewrite Nat2Z.inj_succ, Z.pow_succ_r by lia. lia.
Qed.
Lemma get_varint_w64 l v r : byte_string l -> get_varint l = Some (v, r) -> is_u64 v /\ byte_string r /\ (length r < length l)%nat.
Proof. intros Hl E. destruct (get_varint_loop_ok 10 l v r Hl E) as (Hv & H). split; [|exact H]. cbn [Nat.eqb] in Hv. change (2 * 128 ^ (Z.of_nat 10 - 1)) with (2 ^ 64) in Hv. exact Hv. Qed.

(** ** Fields *)
Definition field_ok (f : Z * payload) : Prop :=
  1 <= fst f < 2 ^ 29 /\ match snd f with Varint v => is_u64 v | Bytes b => fits b | Other => False end.
Lemma put_key_ok tag wt r : 1 <= tag < 2 ^ 29 -> 0 <= wt < 8 -> get_key (put_varint (tag * 8 + wt) ++ r) = Some (tag, wt, r).
Proof.
  intros Ht Hw. unfold get_key. rewrite put_varint_ok by (unfold is_u64; lia). cbn [obind]. rewrite (proj2 (Z.leb_gt (2 ^ 32) (tag * 8 + wt))) by lia.
  replace ((tag * 8 + wt) / 8) with tag by (rewrite Z.div_add_l, Z.div_small by lia; lia). rewrite (proj2 (Z.eqb_neq tag 0)) by lia. replace ((tag * 8 + wt) mod 8) with wt by (rewrite Z.add_comm, Z.mod_add, Z.mod_small by lia; lia). reflexivity.
Qed.
Lemma take_app b r : take (Z.of_nat (length b)) (b ++ r) = Some (b, r).
Proof. unfold take. rewrite app_length, (proj2 (Z.ltb_ge _ _)) by lia. rewrite Nat2Z.id, firstn_app, Nat.sub_diag, firstn_all, skipn_app, skipn_all, Nat.sub_diag. cbn [firstn skipn]. rewrite app_nil_r. reflexivity. Qed.
Lemma put_field_ok d f r : field_ok f -> get_field d (put_field f ++ r) = Some (f, r).
Proof.
  destruct f as [tag p]. intros (Ht & Hp). cbn [fst snd] in *. unfold put_field, get_field. cbn [fst snd]. destruct p as [v|b|]; [| |contradiction].
  - replace (tag * 8) with (tag * 8 + 0) by lia. rewrite <- app_assoc, put_key_ok by lia. cbn [obind]. change (0 =? 0) with true. cbn iota. rewrite put_varint_ok by exact Hp. reflexivity.
  - rewrite <- !app_assoc, put_key_ok by lia. cbn [obind]. change (2 =? 0) with false. change (2 =? 1) with false. change (2 =? 2) with true. cbn iota. unfold get_bytes. rewrite put_varint_ok by (unfold fits in Hp; unfold is_u64; lia). cbn [obind]. rewrite take_app. reflexivity.
Qed.
Lemma put_field_length f : field_ok f -> (1 <= length (put_field f))%nat.
Proof. destruct f as [tag [v|b|]]; intros (_ & Hp); cbn [snd] in Hp; [| |contradiction]; unfold put_field; cbn [fst snd]; rewrite app_length; pose proof (put_varint_length (tag * 8)); pose proof (put_varint_length (tag * 8 + 2)); lia. Qed.
Lemma put_fields_loop d fs fuel : Forall field_ok fs -> (length (put_fields fs) <= fuel)%nat -> get_fields_loop fuel d (put_fields fs) = Some fs.
Proof.
  revert fuel. induction fs as [|f fs IH]; intros fuel H Hl; [destruct fuel; reflexivity|]. inversion H as [|? ? Hf Hfs]; subst. unfold put_fields in *. cbn [flat_map] in *. rewrite app_length in Hl. pose proof (put_field_length f Hf) as Lf.
  destruct fuel as [|fuel]; [lia|]. destruct (put_field f ++ flat_map put_field fs) as [|b0 l0] eqn:E; [apply (f_equal (@length Z)) in E; rewrite app_length in E; cbn [length] in E; lia|]. cbn [get_fields_loop]. rewrite <- E, put_field_ok by exact Hf. destruct f as [tag p]. cbn [obind]. rewrite IH; [reflexivity|exact Hfs|lia].
Qed.
Lemma put_fields_ok d fs : Forall field_ok fs -> get_fields d (put_fields fs) = Some fs.
Proof. intros H. apply put_fields_loop; [exact H|lia]. Qed.
Lemma put_fields_app a b : put_fields (a ++ b) = put_fields a ++ put_fields b.
Proof. apply flat_map_app. Qed.
(** Fields of a string that fits. *)
Definition field_typed (f : Z * payload) : Prop := 1 <= fst f < 2 ^ 29 /\ match snd f with Varint v => is_u64 v | Bytes b => True | Other => False end.
Lemma put_fields_part fs tag b : In (tag, Bytes b) fs -> (length b <= length (put_fields fs))%nat.
Proof.
  induction fs as [|f fs IH]; intros H; [contradiction|]. unfold put_fields in *. cbn [flat_map]. rewrite app_length. destruct H as [->|H]; [|apply IH in H; lia]. unfold put_field. cbn [snd fst]. rewrite !app_length. lia.
Qed.
Lemma fits_fields fs : fits (put_fields fs) -> Forall field_typed fs -> Forall field_ok fs.
Proof.
  intros Hl H. apply Forall_forall. intros [tag p] Hi. destruct (proj1 (Forall_forall _ _) H _ Hi) as (Ht & Hp). split; [exact Ht|]. cbn [snd] in *. destruct p as [v|b|]; [exact Hp| |exact Hp]. pose proof (put_fields_part fs tag b Hi). unfold fits in *. lia.
Qed.
Lemma fits_app a b : fits (a ++ b) -> fits a /\ fits b.
Proof. unfold fits. rewrite app_length. lia. Qed.

(** ** Reading fields *)
Lemma take_ok n l b r : byte_string l -> take n l = Some (b, r) -> byte_string b /\ byte_string r /\ (length r <= length l)%nat.
Proof.
  intros Hl E. unfold take in E. destruct (Z.of_nat (length l) <? n); [discriminate|]. injection E as <- <-. rewrite <- (firstn_skipn (Z.to_nat n) l) in Hl at 1. apply Forall_app in Hl. destruct Hl as (H1 & H2). split; [exact H1|]. split; [exact H2|rewrite skipn_length; lia].
Qed.
Lemma get_bytes_ok l b r : byte_string l -> get_bytes l = Some (b, r) -> byte_string b /\ byte_string r /\ (length r < length l)%nat.
Proof.
  intros Hl E. unfold get_bytes in E. destruct (get_varint l) as [[n r']|] eqn:En; [|discriminate]. cbn [obind] in E. destruct (get_varint_w64 l n r' Hl En) as (_ & Hr & Lr). destruct (take_ok n r' b r Hr E) as (H1 & H2 & H3). split; [exact H1|]. split; [exact H2|lia].
Qed.
Lemma get_key_ok l tag wt r : byte_string l -> get_key l = Some (tag, wt, r) -> byte_string r /\ (length r < length l)%nat.
Proof.
  intros Hl E. unfold get_key in E. destruct (get_varint l) as [[k r']|] eqn:Ek; [|discriminate]. cbn [obind] in E. destruct (get_varint_w64 l k r' Hl Ek) as (_ & Hr & Lr). destruct (2 ^ 32 <=? k); [discriminate|]. destruct (k / 8 =? 0); [discriminate|]. injection E as <- <- <-. split; assumption.
Qed.
Lemma skip_group_ok fuel d open l r : byte_string l -> skip_group fuel d open l = Some r -> byte_string r /\ (length r < length l)%nat.
Proof.
  revert open l r. induction fuel as [|fuel IH]; intros open l r Hl E; [discriminate|]. cbn [skip_group] in E. destruct (get_key l) as [[[tag wt] r0]|] eqn:Ek; [|discriminate]. cbn [obind] in E. destruct (get_key_ok l tag wt r0 Hl Ek) as (H0 & L0).
  assert (Hrec : forall open' l' , byte_string l' -> (length l' <= length r0)%nat -> skip_group fuel d open' l' = Some r -> byte_string r /\ (length r < length l)%nat) by (intros o' l' Hl' Ll' E'; destruct (IH o' l' r Hl' E') as (A & B); split; [exact A|lia]).
  destruct (wt =? 4).
  { destruct open as [|t up]; [discriminate|]. destruct (tag =? t); [|discriminate]. destruct up as [|t' up]; [injection E as <-; split; assumption|]. exact (Hrec _ _ H0 (Nat.le_refl _) E). }
  destruct (Nat.eqb (length open) d); [discriminate|].
  destruct (wt =? 0). { destruct (get_varint r0) as [[v r1]|] eqn:E1; [|discriminate]. destruct (get_varint_w64 r0 v r1 H0 E1) as (_ & H1 & L1). apply (Hrec open r1 H1); [lia|exact E]. }
  destruct (wt =? 1). { destruct (take 8 r0) as [[v r1]|] eqn:E1; [|discriminate]. destruct (take_ok 8 r0 v r1 H0 E1) as (_ & H1 & L1). apply (Hrec open r1 H1); [lia|exact E]. }
  destruct (wt =? 2). { destruct (get_bytes r0) as [[v r1]|] eqn:E1; [|discriminate]. destruct (get_bytes_ok r0 v r1 H0 E1) as (_ & H1 & L1). apply (Hrec open r1 H1); [lia|exact E]. }
  destruct (wt =? 3). { exact (Hrec _ _ H0 (Nat.le_refl _) E). }
  destruct (wt =? 5); [|discriminate]. destruct (take 4 r0) as [[v r1]|] eqn:E1; [|discriminate]. destruct (take_ok 4 r0 v r1 H0 E1) as (_ & H1 & L1). apply (Hrec open r1 H1); [lia|exact E].
Qed.
(** What is read has the type of its kind. *)
Definition payload_ok (p : payload) : Prop := match p with Varint v => is_u64 v | Bytes b => byte_string b | Other => True end.
Lemma get_field_ok d l tag p r : byte_string l -> get_field d l = Some (tag, p, r) -> payload_ok p /\ byte_string r /\ (length r < length l)%nat.
Proof.
  intros Hl E. unfold get_field in E. destruct (get_key l) as [[[tag' wt] r0]|] eqn:Ek; [|discriminate]. cbn [obind] in E. destruct (get_key_ok l tag' wt r0 Hl Ek) as (H0 & L0).
  destruct (wt =? 0). { destruct (get_varint r0) as [[v r1]|] eqn:E1; [|discriminate]. destruct (get_varint_w64 r0 v r1 H0 E1) as (Hv & H1 & L1). cbn [obind] in E. injection E as <- <- <-. split; [exact Hv|]. split; [exact H1|lia]. }
  destruct (wt =? 1). { destruct (take 8 r0) as [[v r1]|] eqn:E1; [|discriminate]. destruct (take_ok 8 r0 v r1 H0 E1) as (_ & H1 & L1). cbn [obind] in E. injection E as <- <- <-. split; [exact I|]. split; [exact H1|lia]. }
  destruct (wt =? 2). { destruct (get_bytes r0) as [[v r1]|] eqn:E1; [|discriminate]. destruct (get_bytes_ok r0 v r1 H0 E1) as (Hv & H1 & L1). cbn [obind] in E. injection E as <- <- <-. split; [exact Hv|]. split; [exact H1|lia]. }
  destruct (wt =? 3). { destruct (skip_group (length r0) d [tag'] r0) as [r1|] eqn:E1; [|discriminate]. destruct (skip_group_ok _ _ _ _ _ H0 E1) as (H1 & L1). cbn [obind] in E. injection E as <- <- <-. split; [exact I|]. split; [exact H1|lia]. }
  destruct (wt =? 5); [|discriminate]. destruct (take 4 r0) as [[v r1]|] eqn:E1; [|discriminate]. destruct (take_ok 4 r0 v r1 H0 E1) as (_ & H1 & L1). cbn [obind] in E. injection E as <- <- <-. split; [exact I|]. split; [exact H1|lia].
Qed.
Lemma get_fields_loop_typed fuel d l fs : byte_string l -> get_fields_loop fuel d l = Some fs -> Forall (fun f => payload_ok (snd f)) fs.
Proof.
  revert l fs. induction fuel as [|fuel IH]; intros l fs Hl E; (destruct l as [|b l]; [injection E as <-; constructor|]); [discriminate|]. cbn [get_fields_loop] in E. destruct (get_field d (b :: l)) as [[[tag p] r]|] eqn:Ef; [|discriminate]. cbn [obind] in E. destruct (get_field_ok d _ tag p r Hl Ef) as (Hp & Hr & _).
  destruct (get_fields_loop fuel d r) as [fs'|] eqn:E'; [|discriminate]. cbn [obind] in E. injection E as <-. constructor; [exact Hp|exact (IH r fs' Hr E')].
Qed.
Lemma get_fields_typed d l fs : byte_string l -> get_fields d l = Some fs -> Forall (fun f => payload_ok (snd f)) fs.
Proof. apply get_fields_loop_typed. Qed.
(** The fuel is enough: more of it gives the same result. *)
Lemma get_fields_fuel fuel d l : byte_string l -> (length l <= fuel)%nat -> get_fields_loop fuel d l = get_fields d l.
Proof.
  unfold get_fields. assert (Hgen : forall n m l, byte_string l -> (length l <= n)%nat -> (length l <= m)%nat -> get_fields_loop n d l = get_fields_loop m d l); [|intros Hl Hf; apply Hgen; [exact Hl|exact Hf|lia]].
  clear. intros n. induction n as [|n IH]; intros m l Hl Hn Hm; (destruct l as [|b l]; [destruct m; reflexivity|]); [cbn [length] in Hn; lia|]. destruct m as [|m]; [cbn [length] in Hm; lia|]. cbn [get_fields_loop]. destruct (get_field d (b :: l)) as [[[tag p] r]|] eqn:Ef; [|reflexivity]. cbn [obind]. destruct (get_field_ok d _ tag p r Hl Ef) as (_ & Hr & Lr). rewrite (IH m r Hr); [reflexivity|cbn [length] in *; lia|cbn [length] in *; lia].
Qed.
Lemma skip_group_fuel n m d open l : byte_string l -> (length l <= n)%nat -> (length l <= m)%nat -> skip_group n d open l = skip_group m d open l.
Proof.
  revert m open l. induction n as [|n IH]; intros m open l Hl Hn Hm.
  - destruct l; [|cbn [length] in Hn; lia]. destruct m; reflexivity.
  - destruct m as [|m]; [destruct l; [reflexivity|cbn [length] in Hm; lia]|]. cbn [skip_group]. destruct (get_key l) as [[[tag wt] r0]|] eqn:Ek; [|reflexivity]. cbn [obind]. destruct (get_key_ok l tag wt r0 Hl Ek) as (H0 & L0).
    assert (Hrec : forall o l', byte_string l' -> (length l' <= length r0)%nat -> skip_group n d o l' = skip_group m d o l') by (intros o l' Hl' Ll'; apply IH; [exact Hl'|lia|lia]).
    destruct (wt =? 4). { destruct open as [|t [|t' up]]; [reflexivity|reflexivity|]. destruct (tag =? t); [|reflexivity]. apply Hrec; [exact H0|lia]. }
    destruct (Nat.eqb (length open) d); [reflexivity|].
    destruct (wt =? 0). { destruct (get_varint r0) as [[v r1]|] eqn:E1; [|reflexivity]. destruct (get_varint_w64 r0 v r1 H0 E1) as (_ & H1 & L1). cbn [obind]. apply Hrec; [exact H1|lia]. }
    destruct (wt =? 1). { destruct (take 8 r0) as [[v r1]|] eqn:E1; [|reflexivity]. destruct (take_ok 8 r0 v r1 H0 E1) as (_ & H1 & L1). cbn [obind]. apply Hrec; [exact H1|lia]. }
    destruct (wt =? 2). { destruct (get_bytes r0) as [[v r1]|] eqn:E1; [|reflexivity]. destruct (get_bytes_ok r0 v r1 H0 E1) as (_ & H1 & L1). cbn [obind]. apply Hrec; [exact H1|lia]. }
    destruct (wt =? 3). { apply Hrec; [exact H0|lia]. }
    destruct (wt =? 5); [|reflexivity]. destruct (take 4 r0) as [[v r1]|] eqn:E1; [|reflexivity]. destruct (take_ok 4 r0 v r1 H0 E1) as (_ & H1 & L1). cbn [obind]. apply Hrec; [exact H1|lia].
Qed.
