(** Integer multiples in a commutative group. *)
From Coq Require Import ZArith Lia.
Open Scope Z_scope.

Section Ab.
Context {A : Type} (z : A) (add : A -> A -> A) (neg : A -> A).
Context (assoc : forall a b c, add a (add b c) = add (add a b) c) (comm : forall a b, add a b = add b a)
  (zl : forall a, add z a = a) (ng : forall a, add a (neg a) = z).

Lemma ab_zr a : add a z = a. Proof. rewrite comm. apply zl. Qed.
Lemma ab_cancel a b c : add a b = add a c -> b = c.
Proof.
  intros H. rewrite <- (zl b), <- (zl c), <- (ng a), (comm a (neg a)), <- !assoc. now rewrite H.
Qed.
Lemma ab_neg_uniq a b : add a b = z -> b = neg a.
Proof. intros H. apply (ab_cancel a). now rewrite H, ng. Qed.
Lemma ab_neg_z : neg z = z. Proof. symmetry. apply ab_neg_uniq. apply zl. Qed.
Lemma ab_swap a b c d : add (add a b) (add c d) = add (add a c) (add b d).
Proof. rewrite <- !assoc. f_equal. rewrite !assoc. f_equal. apply comm. Qed.
Lemma ab_neg_add a b : neg (add a b) = add (neg a) (neg b).
Proof. symmetry. apply ab_neg_uniq. now rewrite ab_swap, !ng, zl. Qed.
Lemma ab_neg_neg a : neg (neg a) = a.
Proof. symmetry. apply ab_neg_uniq. now rewrite comm, ng. Qed.

Fixpoint nmul (n : nat) (a : A) : A := match n with O => z | S n => add a (nmul n a) end.
Fixpoint pmul (n : positive) (a : A) : A :=
  match n with
  | xH => a
  | xO n => let r := pmul n a in add r r
  | xI n => let r := pmul n a in add a (add r r)
  end.
Definition zmul (n : Z) (a : A) : A :=
  match n with Z0 => z | Zpos n => pmul n a | Zneg n => neg (pmul n a) end.

Lemma nmul_add m n a : nmul (m + n) a = add (nmul m a) (nmul n a).
Proof. induction m as [|m IH]; cbn [nmul Nat.add]; [now rewrite zl|]. now rewrite IH, assoc. Qed.
Lemma pmul_nmul n a : pmul n a = nmul (Pos.to_nat n) a.
Proof.
  induction n as [n IH|n IH|]; cbn [pmul]; cbv zeta.
  - rewrite Pos2Nat.inj_xI. cbn [nmul]. f_equal. replace (2 * Pos.to_nat n)%nat with (Pos.to_nat n + Pos.to_nat n)%nat by lia.
    rewrite nmul_add. now rewrite IH.
  - rewrite Pos2Nat.inj_xO. replace (2 * Pos.to_nat n)%nat with (Pos.to_nat n + Pos.to_nat n)%nat by lia.
    rewrite nmul_add. now rewrite IH.
  - change (Pos.to_nat 1) with 1%nat. cbn [nmul]. now rewrite ab_zr.
Qed.
Lemma zmul_nat n a : zmul (Z.of_nat n) a = nmul n a.
Proof. destruct n; [reflexivity|]. cbn [Z.of_nat zmul]. rewrite pmul_nmul. now rewrite SuccNat2Pos.id_succ. Qed.
Lemma zmul_neg n a : zmul (- n) a = neg (zmul n a).
Proof. destruct n; cbn [zmul Z.opp]; [now rewrite ab_neg_z|reflexivity|now rewrite ab_neg_neg]. Qed.
Lemma nmul_sub m n a : (n <= m)%nat -> add (nmul m a) (neg (nmul n a)) = nmul (m - n) a.
Proof. intros H. replace m with (m - n + n)%nat at 1 by lia. now rewrite nmul_add, <- assoc, ng, ab_zr. Qed.
Lemma zmul_add m n a : zmul (m + n) a = add (zmul m a) (zmul n a).
Proof.
  assert (P : forall m n, 0 <= m -> 0 <= n -> zmul (m + n) a = add (zmul m a) (zmul n a)).
  { clear m n. intros m n Hm Hn. rewrite <- (Z2Nat.id m Hm), <- (Z2Nat.id n Hn), <- Nat2Z.inj_add, !zmul_nat. apply nmul_add. }
  assert (Q : forall m n, 0 <= m -> 0 <= n -> zmul (m - n) a = add (zmul m a) (neg (zmul n a))).
  { clear m n. intros m n Hm Hn. apply (ab_cancel (zmul n a)). rewrite (comm (zmul m a)), assoc, ng, zl.
    destruct (Z.le_ge_cases n m) as [L|L].
    - rewrite <- P by lia. f_equal. lia.
    - replace (m - n) with (- (n - m)) by lia. rewrite zmul_neg. replace n with ((n - m) + m) at 1 by lia.
      rewrite P by lia. rewrite (comm (zmul (n - m) a)), <- assoc, ng. apply ab_zr. }
  destruct (Z.le_ge_cases 0 m) as [Hm|Hm], (Z.le_ge_cases 0 n) as [Hn|Hn].
  - now apply P.
  - replace (m + n) with (m - - n) by lia. rewrite Q by lia. now rewrite zmul_neg, ab_neg_neg.
  - replace (m + n) with (n - - m) by lia. rewrite Q by lia. rewrite zmul_neg, ab_neg_neg. apply comm.
  - replace (m + n) with (- ((- m) + (- n))) by lia. rewrite zmul_neg, P by lia. now rewrite !zmul_neg, ab_neg_add, !ab_neg_neg.
Qed.
Lemma zmul_gadd n a b : zmul n (add a b) = add (zmul n a) (zmul n b).
Proof.
  assert (P : forall k, nmul k (add a b) = add (nmul k a) (nmul k b)).
  { induction k as [|k IH]; cbn [nmul]; [now rewrite zl|]. now rewrite IH, ab_swap. }
  destruct n as [|n|n]; cbn [zmul]; [now rewrite zl| |]; rewrite !pmul_nmul, P; [reflexivity|apply ab_neg_add].
Qed.
Lemma zmul_z n : zmul n z = z.
Proof.
  assert (P : forall k, nmul k z = z) by (induction k as [|k IH]; cbn [nmul]; [reflexivity|now rewrite zl]).
  destruct n as [|n|n]; cbn [zmul]; [reflexivity| |]; rewrite pmul_nmul, P; [reflexivity|apply ab_neg_z].
Qed.
Lemma zmul_1 a : zmul 1 a = a. Proof. reflexivity. Qed.
Lemma zmul_2 a : zmul 2 a = add a a. Proof. reflexivity. Qed.
Lemma zmul_mul m n a : zmul (m * n) a = zmul m (zmul n a).
Proof.
  assert (P : forall k, zmul (Z.of_nat k * n) a = nmul k (zmul n a)).
  { induction k as [|k IH]; [reflexivity|]. rewrite Nat2Z.inj_succ. replace (Z.succ (Z.of_nat k) * n) with (n + Z.of_nat k * n) by lia.
    rewrite zmul_add, IH. reflexivity. }
  destruct (Z.le_ge_cases 0 m) as [H|H].
  - rewrite <- (Z2Nat.id m H), P, zmul_nat. reflexivity.
  - replace m with (- Z.of_nat (Z.to_nat (- m))) by (rewrite Z2Nat.id by lia; lia). rewrite Z.mul_opp_l, !zmul_neg, P, zmul_nat. reflexivity.
Qed.
Lemma zmul_mod q n a : q <> 0 -> zmul q a = z -> zmul (n mod q) a = zmul n a.
Proof.
  intros Hq H. rewrite (Z.div_mod n q Hq) at 2. rewrite zmul_add, Z.mul_comm, zmul_mul, H, zmul_z, zl. reflexivity.
Qed.
(** in a group of prime exponent q a multiple that vanishes has a vanishing
    factor *)
Lemma zmul_zero q n a : Znumtheory.prime q -> zmul q a = z -> zmul n a = z -> n mod q = 0 \/ a = z.
Proof.
  intros Hp Hq Hn. destruct (Z.eq_dec (n mod q) 0) as [E|E]; [left; exact E|right].
  assert (R : Znumtheory.rel_prime n q).
  { apply Znumtheory.rel_prime_sym. apply Znumtheory.prime_rel_prime; [exact Hp|]. intros D. apply E.
    apply Znumtheory.Zdivide_mod. exact D. }
  apply Znumtheory.rel_prime_bezout in R. destruct R as [u v B].
  rewrite <- (zmul_1 a), <- B, zmul_add, !zmul_mul, Hn, Hq, !zmul_z. apply zl.
Qed.
End Ab.
