From Coq Require Import ZArith Lia List Bool String.
From Verif Require Import Base BaseFacts ModelXmd SpecXmd.
Import ListNotations.
Open Scope Z_scope.

Lemma xor_strxor a b : xor_bytes a b = strxor a b.
Proof.
  unfold strxor. revert b; induction a as [|x a IH]; intros [|y b]; simpl; auto. now rewrite IH.
Qed.

Lemma I2OSP_1 z : I2OSP z 1 = [u8 z].
Proof. unfold I2OSP, be_bytes, u8. simpl. reflexivity. Qed.
Lemma I2OSP_2 z : I2OSP z 2 = [u8 (z / 256); u8 (z mod 256)].
Proof.
  unfold I2OSP, be_bytes, u8. simpl. change (2 ^ 8) with 256. now rewrite Z.mod_mod by lia.
Qed.

Section S.
Context {X : Oracles} (HX : oracles_ok X).

Lemma concat_b_length msg dst len n :
  List.length (List.concat (map (b_succ sha256 msg dst len) (seq 0 n))) = (32 * n)%nat.
Proof.
  induction n as [|n IH]; [reflexivity|].
  rewrite seq_S, map_app, concat_app, app_length, IH. simpl.
  rewrite app_nil_r.
  assert (List.length (b_succ sha256 msg dst len n) = 32%nat) by (destruct n; simpl; apply HX). lia.
Qed.

Lemma b_succ_length msg dst len n : List.length (b_succ sha256 msg dst len n) = 32%nat.
Proof. destruct n; simpl; apply HX. Qed.

Lemma xmd_loop_spec msg dst len n : forall k,
  (0 < k)%nat ->
  xmd_loop n (Z.of_nat k + 1) (b_zero sha256 msg dst len) dst
    (List.concat (map (b_succ sha256 msg dst len) (seq 0 k))) =
  List.concat (map (b_succ sha256 msg dst len) (seq 0 (k + n))).
Proof.
  induction n as [|n IH]; intros k Hk; simpl xmd_loop; [now rewrite Nat.add_0_r|].
  rewrite concat_b_length.
  destruct k as [|k]; [lia|].
  replace (32 * S k - 32)%nat with (32 * k)%nat by lia.
  assert (Sk : skipn (32 * k) (List.concat (map (b_succ sha256 msg dst len) (seq 0 (S k)))) = b_succ sha256 msg dst len k).
  { rewrite seq_S, map_app, concat_app, skipn_app, concat_b_length, Nat.sub_diag.
    rewrite skipn_all2 by (rewrite concat_b_length; lia).
    change (skipn 0 ?l) with l. simpl. now rewrite app_nil_r. }
  rewrite Sk.
  rewrite xor_strxor.
  replace (Z.of_nat (S k) + 1 + 1) with (Z.of_nat (S (S k)) + 1) by lia.
  replace (S k + S n)%nat with (S (S k) + n)%nat by lia.
  rewrite <- IH by lia. f_equal.
  rewrite (seq_S (S k)), map_app, concat_app. f_equal.
  simpl List.concat. rewrite app_nil_r. change (0 + S k)%nat with (S k). 
  cbn [b_succ]. unfold DST_prime. rewrite !I2OSP_1. reflexivity.
Qed.

Lemma xmd_spec msg dst len ell : 1 <= ell ->
  xmd msg len ell dst =
  List.concat (map (b_succ sha256 msg dst len) (seq 0 (Z.to_nat ell))).
Proof.
  intro He. unfold xmd.
  assert (E0 : sha256 (repeat 0 64 ++ msg ++ [u8 (len / 256); u8 (len mod 256); 0] ++ dst ++ [u8 (blen dst)])
               = b_zero sha256 msg dst len).
  { unfold b_zero, msg_prime, DST_prime. rewrite I2OSP_2, !I2OSP_1. reflexivity. }
  rewrite E0. pose proof (xmd_loop_spec msg dst len (Z.to_nat (ell - 1)) 1 ltac:(lia)) as L.
  replace (1 + Z.to_nat (ell - 1))%nat with (Z.to_nat ell) in L by lia.
  rewrite <- L. change (Z.of_nat 1 + 1) with 2. f_equal.
  simpl. rewrite app_nil_r. unfold DST_prime. rewrite !I2OSP_1. reflexivity.
Qed.

Lemma quot_ell len : 1 <= len -> Z.quot (len - 1) 32 + 1 = ell_of len.
Proof.
  intro H. unfold ell_of. rewrite Z.quot_div_nonneg by lia.
  replace (len + 31) with (len - 1 + 1 * 32) by lia. rewrite Z.div_add by lia. lia.
Qed.

Theorem expand_is_rfc msg dst len : 0 <= len ->
  expand_message_xmd msg dst len =
    match rfc_expand sha256 msg dst len with Some o => Ok o | None => Err end.
Proof.
  intro Hlen. unfold expand_message_xmd, rfc_expand.
  destruct (Z.ltb_spec len 0); [lia|].
  destruct (Z.ltb_spec (255 * 32) len) as [Hb|Hb].
  - destruct (Z.ltb_spec 255 (ell_of len)) as [He|He]; [reflexivity|].
    unfold ell_of in He. assert (256 <= (len + 31) / 32) by (apply Z.div_le_lower_bound; lia). lia.
  - destruct (Z.ltb_spec 255 (ell_of len)) as [He|He].
    { unfold ell_of in He. assert ((len + 31) / 32 < 256) by (apply Z.div_lt_upper_bound; lia). lia. }
    f_equal.
    assert (Ed : (if 256 <=? blen dst then xmd msg len (Z.quot (len - 1) 32 + 1) (sha256 (str "H2C-OVERSIZE-DST-" ++ dst))
                  else xmd msg len (Z.quot (len - 1) 32 + 1) dst)
                 = xmd msg len (Z.quot (len - 1) 32 + 1) (effective_dst sha256 dst)).
    { unfold effective_dst. destruct (Z.leb_spec 256 (blen dst)), (Z.leb_spec (blen dst) 255); try lia; reflexivity. }
    rewrite Ed. clear Ed. set (d := effective_dst sha256 dst).
    destruct (Z.eq_dec len 0) as [->|Hnz].
    + change (Z.quot (0 - 1) 32 + 1) with 1. rewrite xmd_spec by lia.
      unfold blen. rewrite concat_b_length. change (Z.to_nat 1) with 1%nat.
      change (0 <? Z.of_nat (32 * 1)) with true. cbv iota. reflexivity.
    + rewrite quot_ell by lia.
      assert (1 <= ell_of len) by (unfold ell_of; apply Z.div_le_lower_bound; lia).
      rewrite xmd_spec by lia.
      set (o := List.concat _). assert (Lo : List.length o = (32 * Z.to_nat (ell_of len))%nat) by apply concat_b_length.
      destruct (Z.ltb_spec len (blen o)) as [Hl|Hl]; [reflexivity|].
      rewrite firstn_all2; [reflexivity|]. unfold blen in Hl. lia.
Qed.

Lemma rfc_expand_length msg dst len o : 0 <= len -> rfc_expand sha256 msg dst len = Some o ->
  List.length o = Z.to_nat len.
Proof.
  intros Hl. unfold rfc_expand. destruct (Z.ltb_spec 255 (ell_of len)); [discriminate|].
  intro E; inversion E; subst. rewrite firstn_length, concat_b_length.
  assert (len <= 32 * ell_of len).
  { unfold ell_of. pose proof (Z.div_mod (len + 31) 32). pose proof (Z.mod_pos_bound (len + 31) 32). lia. }
  lia.
Qed.

Lemma rfc_expand_none msg dst len : 0 <= len -> (rfc_expand sha256 msg dst len = None <-> 8160 < len).
Proof.
  intro H. unfold rfc_expand, ell_of. destruct (Z.ltb_spec 255 ((len + 31) / 32)) as [He|He]; split; intro; try reflexivity; try discriminate.
  - assert (~ (len + 31 < 256 * 32)); [|lia]. intro A.
    assert ((len + 31) / 32 < 256) by (apply Z.div_lt_upper_bound; lia). lia.
  - assert (256 <= (len + 31) / 32) by (apply Z.div_le_lower_bound; lia). lia.
Qed.

Lemma expand_length msg dst len o : expand_message_xmd msg dst len = Ok o -> List.length o = Z.to_nat len.
Proof.
  intro H. destruct (Z_lt_le_dec len 0) as [L|L].
  - unfold expand_message_xmd in H. destruct (Z.ltb_spec (255 * 32) len); [discriminate|].
    destruct (Z.ltb_spec len 0); [discriminate|lia].
  - rewrite expand_is_rfc in H by exact L.
    destruct (rfc_expand sha256 msg dst len) eqn:E; [|discriminate]. inversion H; subst.
    eapply rfc_expand_length; eauto.
Qed.

Lemma b_succ_ok msg dst len n : bytes_ok (b_succ sha256 msg dst len n).
Proof. destruct n; simpl; apply HX. Qed.

Lemma expand_bytes_ok msg dst len o : expand_message_xmd msg dst len = Ok o -> bytes_ok o.
Proof.
  intro H. destruct (Z_lt_le_dec len 0) as [L|L].
  - unfold expand_message_xmd in H. destruct (Z.ltb_spec (255 * 32) len); [discriminate|].
    destruct (Z.ltb_spec len 0); [discriminate|lia].
  - rewrite expand_is_rfc in H by exact L. unfold rfc_expand in H.
    destruct (255 <? ell_of len); [discriminate|]. inversion H; subst.
    unfold bytes_ok. apply Forall_forall. intros x Hx.
    assert (Hx' : In x (List.concat (map (b_succ sha256 msg (effective_dst sha256 dst) len) (seq 0 (Z.to_nat (ell_of len)))))).
    { rewrite <- (firstn_skipn (Z.to_nat len)). apply in_or_app. now left. }
    apply in_concat in Hx' as [l [Hl Hxl]]. apply in_map_iff in Hl as [i [<- _]].
    pose proof (b_succ_ok msg (effective_dst sha256 dst) len i) as B. unfold bytes_ok in B.
    rewrite Forall_forall in B. auto.
Qed.

Lemma expand_ok msg dst len : 0 <= len <= 8160 -> exists o, expand_message_xmd msg dst len = Ok o.
Proof.
  intro H. rewrite expand_is_rfc by lia.
  destruct (rfc_expand sha256 msg dst len) eqn:E; [eauto|].
  apply rfc_expand_none in E; lia.
Qed.

Lemma expand_panic msg dst len : len < 0 -> expand_message_xmd msg dst len = Panic.
Proof.
  intro H. unfold expand_message_xmd. destruct (Z.ltb_spec (255 * 32) len); [lia|].
  destruct (Z.ltb_spec len 0); [reflexivity|lia].
Qed.
End S.
