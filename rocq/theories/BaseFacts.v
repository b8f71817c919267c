(** Facts about byte strings. *)
From Coq Require Import ZArith Lia List Bool String Ascii.
From Verif Require Import Base.
Import ListNotations.
Open Scope Z_scope.

Lemma be_val_acc l : forall acc, fold_left (fun acc b => acc * 256 + b) l acc = acc * 256 ^ blen l + be_val l.
Proof.
  unfold be_val, blen. induction l as [|b l IH]; intro acc; simpl fold_left; simpl List.length.
  - simpl. lia.
  - rewrite IH, (IH (0 * 256 + b)). rewrite Nat2Z.inj_succ, Z.pow_succ_r by lia. lia.
Qed.

Lemma be_val_nil : be_val [] = 0. Proof. reflexivity. Qed.
Lemma be_val_cons b l : be_val (b :: l) = b * 256 ^ blen l + be_val l.
Proof. unfold be_val at 1. simpl fold_left. rewrite be_val_acc. lia. Qed.
Lemma be_val_app a b : be_val (a ++ b) = be_val a * 256 ^ blen b + be_val b.
Proof. unfold be_val at 1. rewrite fold_left_app. apply be_val_acc. Qed.
Lemma be_val_snoc a b : be_val (a ++ [b]) = be_val a * 256 + b.
Proof. rewrite be_val_app. unfold blen; simpl. rewrite be_val_cons. unfold blen; simpl. rewrite be_val_nil. lia. Qed.

Lemma blen_nonneg l : 0 <= blen l. Proof. unfold blen; lia. Qed.
Lemma blen_cons b l : blen (b :: l) = 1 + blen l. Proof. unfold blen; simpl List.length; lia. Qed.
Lemma blen_app a b : blen (a ++ b) = blen a + blen b. Proof. unfold blen. rewrite app_length; lia. Qed.

Lemma le_val_rev l : le_val (rev l) = be_val l.
Proof.
  induction l as [|b l IH] using rev_ind; [reflexivity|].
  rewrite rev_unit, be_val_snoc. simpl. rewrite IH. lia.
Qed.
Lemma be_val_rev l : be_val (rev l) = le_val l.
Proof. rewrite <- le_val_rev, rev_involutive. reflexivity. Qed.

Lemma le_val_app a b : le_val (a ++ b) = le_val a + 256 ^ blen a * le_val b.
Proof.
  induction a as [|x a IH]; [simpl; unfold blen; simpl List.length; lia|].
  simpl app. simpl le_val. rewrite IH, blen_cons, Z.pow_add_r by (pose proof (blen_nonneg a); lia). lia.
Qed.
Lemma le_val_repeat0 n : le_val (repeat 0 n) = 0.
Proof. induction n; simpl; lia. Qed.

Lemma le_val_range l : bytes_ok l -> 0 <= le_val l < 256 ^ blen l.
Proof.
  induction 1 as [|b l Hb Hl IH]; simpl le_val; [unfold blen; simpl; lia|].
  rewrite blen_cons, Z.pow_add_r by (pose proof (blen_nonneg l); lia).
  unfold byte_ok in Hb. lia.
Qed.
Lemma bytes_ok_rev l : bytes_ok l -> bytes_ok (rev l).
Proof. unfold bytes_ok. intro H. now apply Forall_rev. Qed.
Lemma blen_rev l : blen (rev l) = blen l. Proof. unfold blen. now rewrite rev_length. Qed.
Lemma be_val_range l : bytes_ok l -> 0 <= be_val l < 256 ^ blen l.
Proof. intro H. rewrite <- le_val_rev, <- blen_rev. now apply le_val_range, bytes_ok_rev. Qed.

Lemma le_bytes_length n z : List.length (le_bytes n z) = n.
Proof. revert z; induction n; intro z; simpl; auto. Qed.
Lemma be_bytes_length n z : List.length (be_bytes n z) = n.
Proof. unfold be_bytes. now rewrite rev_length, le_bytes_length. Qed.
Lemma le_bytes_ok n z : bytes_ok (le_bytes n z).
Proof.
  revert z; induction n; intro z; simpl; constructor; auto.
  - unfold byte_ok. apply Z.mod_pos_bound. lia.
  - apply IHn.
Qed.
Lemma be_bytes_ok n z : bytes_ok (be_bytes n z).
Proof. apply bytes_ok_rev, le_bytes_ok. Qed.

Lemma le_val_le_bytes n z : le_val (le_bytes n z) = z mod 256 ^ Z.of_nat n.
Proof.
  revert z; induction n; intro z; simpl le_bytes; simpl le_val.
  - simpl. now rewrite Z.mod_1_r.
  - rewrite IHn, Nat2Z.inj_succ, Z.pow_succ_r by lia.
    rewrite Z.rem_mul_r by lia. lia.
Qed.
Lemma be_val_be_bytes n z : be_val (be_bytes n z) = z mod 256 ^ Z.of_nat n.
Proof. unfold be_bytes. now rewrite be_val_rev, le_val_le_bytes. Qed.

Lemma le_bytes_le_val l : bytes_ok l -> le_bytes (List.length l) (le_val l) = l.
Proof.
  induction 1 as [|b l Hb Hl IH]; [reflexivity|]. simpl List.length. simpl le_bytes.
  unfold byte_ok in Hb. simpl le_val. f_equal.
  - rewrite Z.mul_comm, Z_mod_plus_full. apply Z.mod_small; lia.
  - rewrite Z.mul_comm, Z_div_plus_full, Z.div_small by lia. exact IH.
Qed.
Lemma be_bytes_be_val l : bytes_ok l -> be_bytes (List.length l) (be_val l) = l.
Proof.
  intro H. unfold be_bytes. rewrite <- (rev_length l), <- le_val_rev, le_bytes_le_val by now apply bytes_ok_rev.
  apply rev_involutive.
Qed.

Lemma be_val_inj a b : bytes_ok a -> bytes_ok b -> List.length a = List.length b -> be_val a = be_val b -> a = b.
Proof.
  intros Ha Hb L E. rewrite <- (be_bytes_be_val a Ha), <- (be_bytes_be_val b Hb). congruence.
Qed.
Lemma be_bytes_inj n x y : 0 <= x < 256 ^ Z.of_nat n -> 0 <= y < 256 ^ Z.of_nat n -> be_bytes n x = be_bytes n y -> x = y.
Proof.
  intros Hx Hy E. apply (f_equal be_val) in E. rewrite !be_val_be_bytes in E.
  now rewrite !Z.mod_small in E.
Qed.

Lemma bytes_eqb_eq a b : bytes_eqb a b = true <-> a = b.
Proof.
  revert b; induction a as [|x a IH]; intros [|y b]; simpl; split; intro H; try discriminate; auto.
  - apply andb_true_iff in H as [H1 H2]. apply Z.eqb_eq in H1. apply IH in H2. congruence.
  - inversion H; subst. rewrite Z.eqb_refl. simpl. now apply IH.
Qed.
Lemma bytes_eqb_refl a : bytes_eqb a a = true. Proof. now apply bytes_eqb_eq. Qed.
Lemma bytes_eqb_neq a b : bytes_eqb a b = false <-> a <> b.
Proof.
  split; intro H.
  - intros ->. now rewrite bytes_eqb_refl in H.
  - destruct (bytes_eqb a b) eqn:E; auto. apply bytes_eqb_eq in E. contradiction.
Qed.
Lemma bytes_dec (a b : bytes) : {a = b} + {a <> b}.
Proof. destruct (bytes_eqb a b) eqn:E; [left; now apply bytes_eqb_eq|right; now apply bytes_eqb_neq]. Qed.

Lemma bytes_ltb_irrefl a : bytes_ltb a a = false.
Proof. induction a as [|x a IH]; simpl; auto. rewrite Z.ltb_irrefl, Z.eqb_refl. simpl. exact IH. Qed.

Lemma bytes_ltb_trans a b c : bytes_ltb a b = true -> bytes_ltb b c = true -> bytes_ltb a c = true.
Proof.
  revert b c; induction a as [|x a IH]; intros [|y b] [|z c]; simpl; intros H1 H2; try discriminate; auto.
  apply orb_true_iff in H1, H2. apply orb_true_iff.
  rewrite !andb_true_iff, !Z.ltb_lt, !Z.eqb_eq in *.
  destruct H1 as [H1|[H1 H1']], H2 as [H2|[H2 H2']]; try (left; lia). right. split; [lia|]. eapply IH; eauto.
Qed.

Lemma bytes_ltb_total a b : bytes_ltb a b = true \/ a = b \/ bytes_ltb b a = true.
Proof.
  revert b; induction a as [|x a IH]; intros [|y b]; simpl; auto.
  destruct (Z.lt_total x y) as [H|[H|H]].
  - left. apply orb_true_iff. left. now apply Z.ltb_lt.
  - subst. destruct (IH b) as [H|[H|H]].
    + left. apply orb_true_iff. right. now rewrite Z.eqb_refl.
    + right. left. congruence.
    + right. right. apply orb_true_iff. right. now rewrite Z.eqb_refl.
  - right. right. apply orb_true_iff. left. now apply Z.ltb_lt.
Qed.

Lemma bytes_ltb_asym a b : bytes_ltb a b = true -> bytes_ltb b a = false.
Proof.
  intro H. destruct (bytes_ltb b a) eqn:E; auto.
  pose proof (bytes_ltb_trans _ _ _ H E) as T. now rewrite bytes_ltb_irrefl in T.
Qed.

Lemma str_ok s : bytes_ok (str s).
Proof.
  unfold str. apply Forall_forall. intros x H. apply in_map_iff in H as [a [<- _]].
  unfold byte_ok. pose proof (N_ascii_bounded a). lia.
Qed.

Lemma xor_byte_ok a b : byte_ok a -> byte_ok b -> byte_ok (Z.lxor a b).
Proof.
  unfold byte_ok. intros Ha Hb. split; [apply Z.lxor_nonneg; lia|].
  assert (L : Z.lxor a b = 0 \/ 0 < Z.lxor a b).
  { assert (0 <= Z.lxor a b) by (apply Z.lxor_nonneg; lia). lia. }
  destruct L as [L|L]; [lia|].
  assert (Z.log2 (Z.lxor a b) < 8); [|].
  { eapply Z.le_lt_trans; [apply Z.log2_lxor; lia|].
    assert (forall x, 0 <= x < 256 -> Z.log2 x < 8).
    { intros x Hx. destruct (Z.eq_dec x 0) as [->|]; [simpl; lia|]. apply Z.log2_lt_pow2; simpl; lia. }
    apply Z.max_lub_lt; auto. }
  change 256 with (2 ^ 8). apply Z.log2_lt_pow2; lia.
Qed.
Lemma xor_bytes_ok a b : bytes_ok a -> bytes_ok b -> bytes_ok (xor_bytes a b).
Proof.
  intro H; revert b; induction H; intros b' Hb; simpl; [constructor|].
  destruct b'; [constructor|]. inversion Hb; subst. constructor; [now apply xor_byte_ok|]. now apply IHForall.
Qed.
Lemma xor_bytes_length a b : List.length (xor_bytes a b) = Nat.min (List.length a) (List.length b).
Proof. revert b; induction a; intros [|y b]; simpl; auto. Qed.

Lemma bytes_ok_app a b : bytes_ok (a ++ b) <-> bytes_ok a /\ bytes_ok b.
Proof. apply Forall_app. Qed.

Lemma mapM_ok {A B} (f : A -> res B) l bs :
  mapM f l = Ok bs -> List.length bs = List.length l /\
  forall i a, nth_error l i = Some a -> exists b, nth_error bs i = Some b /\ f a = Ok b.
Proof.
  revert bs; induction l as [|a l IH]; simpl; intros bs H.
  - inversion H; subst. split; auto. intros [|i] a; discriminate.
  - destruct (f a) as [b| | |] eqn:E; simpl in H; try discriminate.
    destruct (mapM f l) as [bs'| | |]; simpl in H; try discriminate. inversion H; subst.
    destruct (IH bs' eq_refl) as [L N]. split; [simpl; congruence|].
    intros [|i] a' Ha; simpl in *; [inversion Ha; subst; eauto|]. now apply N.
Qed.

Lemma mapM_total {A B} (f : A -> res B) (g : A -> B) l :
  (forall a, In a l -> f a = Ok (g a)) -> mapM f l = Ok (map g l).
Proof.
  induction l as [|a l IH]; intro H; simpl; auto.
  rewrite (H a) by (simpl; auto). simpl. rewrite IH by (intros; apply H; simpl; auto). reflexivity.
Qed.
