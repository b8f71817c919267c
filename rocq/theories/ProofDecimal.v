(** fmt.Sprintf("%d"): distinct integers print differently, and 64-bit integers
    print short. *)
From Coq Require Import ZArith Lia Bool List String Ascii Decimal DecimalString DecimalFacts DecimalZ DecimalPos.
From Verif Require Import Base BaseFacts ModelXmd ModelRo ModelGroup ModelComplaint.
Import ListNotations.
Open Scope Z_scope.

Lemma str_inj s t : str s = str t -> s = t.
Proof.
  unfold str. intro H. rewrite <- (string_of_list_ascii_of_string s), <- (string_of_list_ascii_of_string t). f_equal.
  generalize dependent (list_ascii_of_string t). generalize (list_ascii_of_string s). clear s t.
  induction l as [|a l IH]; intros [|b m] H; try discriminate; [reflexivity|]. cbn [map] in H. injection H as H1 H2.
  f_equal; [|auto]. apply N2Z.inj in H1. rewrite <- (ascii_N_embedding a), <- (ascii_N_embedding b). now rewrite H1.
Qed.

Lemma decimal_inj x y : decimal x = decimal y -> x = y.
Proof.
  intro H. apply str_inj in H. apply (f_equal NilEmpty.int_of_string) in H. rewrite !NilEmpty.isi in H.
  injection H as H. rewrite <- (DecimalZ.of_to x), <- (DecimalZ.of_to y). now rewrite H.
Qed.

Lemma double_digits d : (nb_digits (Little.double d) <= S (nb_digits d))%nat /\
  (nb_digits (Little.succ_double d) <= S (nb_digits d))%nat.
Proof. induction d; cbn [Little.double Little.succ_double nb_digits]; destruct IHd || idtac; split; lia. Qed.

Lemma little_digits p : (nb_digits (Pos.to_little_uint p) <= Pos.size_nat p)%nat.
Proof.
  induction p; cbn [Pos.to_little_uint Pos.size_nat nb_digits]; [| |lia].
  - pose proof (proj2 (double_digits (Pos.to_little_uint p))). lia.
  - pose proof (proj1 (double_digits (Pos.to_little_uint p))). lia.
Qed.

Lemma string_of_uint_len u : String.length (NilEmpty.string_of_uint u) = nb_digits u.
Proof. induction u; cbn [NilEmpty.string_of_uint String.length nb_digits]; auto. Qed.

Lemma str_len s : List.length (str s) = String.length s.
Proof. unfold str. rewrite map_length. induction s; cbn [list_ascii_of_string List.length String.length]; auto. Qed.

Lemma size_nat_bound p n : Z.pos p < 2 ^ Z.of_nat n -> (Pos.size_nat p <= n)%nat.
Proof.
  intro H. pose proof (Pos.size_le p) as S. assert (E : Z.pos (Pos.size p) = Z.of_nat (Pos.size_nat p)).
  { clear. induction p; cbn [Pos.size Pos.size_nat]; [| |reflexivity]; lia. }
  assert (2 ^ Z.of_nat (Pos.size_nat p) <= 2 * Z.pos p).
  { rewrite <- E. change (2 ^ Z.pos (Pos.size p)) with (Z.pow 2 (Z.pos (Pos.size p))).
    rewrite <- Pos2Z.inj_pow. rewrite <- Pos2Z.inj_mul. lia. }
  assert (2 ^ Z.of_nat (Pos.size_nat p) < 2 ^ (Z.of_nat n + 1)) by (rewrite Z.pow_add_r by lia; lia).
  apply Z.pow_lt_mono_r_iff in H1; lia.
Qed.

Lemma decimal_len z : - 2 ^ 63 <= z < 2 ^ 64 -> blen (decimal z) <= 65.
Proof.
  intro H. unfold decimal, blen. rewrite str_len. destruct z as [|p|p]; cbn [Z.to_int NilEmpty.string_of_int String.length].
  - cbn; lia.
  - rewrite string_of_uint_len. unfold Pos.to_uint. rewrite nb_digits_rev. pose proof (little_digits p).
    pose proof (size_nat_bound p 64). lia.
  - rewrite string_of_uint_len. unfold Pos.to_uint. rewrite nb_digits_rev. pose proof (little_digits p).
    pose proof (size_nat_bound p 64). lia.
Qed.
