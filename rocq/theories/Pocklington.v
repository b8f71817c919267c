(** Pocklington's criterion, used to prove that the two secp256k1 moduli are
    prime (no primality is assumed anywhere). *)
From Coq Require Import ZArith Znumtheory Lia List Bool.
From Verif Require Import Zmod.
Import ListNotations.
Open Scope Z_scope.

(** a^n mod m, computed through [fpow] *)
Definition powm (a n m : Z) : Z := fv (fpow (of_Z m a) n).

Lemma exists_prime_divisor n : 1 < n -> exists r, prime r /\ (r | n).
Proof.
  intro H. assert (Hn : 0 <= n) by lia. revert n Hn H.
  apply (Zlt_0_ind (fun n => 1 < n -> exists r, prime r /\ (r | n))).
  intros n IH _ Hn. destruct (prime_dec n) as [P|P]; [exists n; split; [exact P|apply Z.divide_refl]|].
  apply not_prime_divide in P as [d [Hd D]]; [|exact Hn].
  destruct (IH d) as [r [Pr Dr]]; [lia|lia|].
  exists r. split; [exact Pr|]. now apply (Z.divide_trans _ d).
Qed.

Lemma small_prime_divisor n : 1 < n -> ~ prime n -> exists r, prime r /\ (r | n) /\ r * r <= n.
Proof.
  intros Hn P. destruct (exists_prime_divisor n Hn) as [r [Pr [k Hk]]].
  pose proof (prime_ge_2 _ Pr).
  assert (Hk1 : 1 < k).
  { destruct (Z.eq_dec k 1) as [->|]; [rewrite Z.mul_1_l in Hk; subst; contradiction|]. nia. }
  destruct (Z_le_gt_dec (r * r) n) as [L|G]; [exists r; split; [exact Pr|split; [now exists k|exact L]]|].
  destruct (exists_prime_divisor k Hk1) as [s [Ps [j Hj]]].
  exists s. pose proof (prime_ge_2 _ Ps).
  assert (1 <= j) by nia.
  split; [exact Ps|]. split; [exists (j * r); nia|].
  assert (s <= k) by nia. assert (k < r) by nia. nia.
Qed.

Lemma mod_mod_divide z n r : 0 < n -> (r | n) -> (z mod n) mod r = z mod r.
Proof.
  intros Hn [k Hk]. assert (r <> 0) by nia.
  rewrite (Z.mod_eq z n) by lia.
  replace (z - n * (z / n)) with (z + (- k * (z / n)) * r) by (rewrite Hk; ring).
  apply Z_mod_plus_full.
Qed.

Lemma fpow_reduce n r a k : 0 < n -> (r | n) -> 0 <= k ->
  of_Z r (powm a k n) = fpow (of_Z r a) k.
Proof.
  intros Hn Hr Hk. unfold powm. rewrite fv_fpow by exact Hk.
  rewrite fv_of_Z. rewrite <- of_Z_pow by exact Hk. apply of_Z_eq.
  rewrite mod_mod_divide by assumption.
  assert (E : of_Z r ((a mod n) ^ k) = of_Z r (a ^ k)).
  { rewrite !of_Z_pow by exact Hk. f_equal. apply of_Z_eq. now apply mod_mod_divide. }
  now apply of_Z_eq_iff in E.
Qed.

Lemma fpow_gcd {m} (b : fe m) u v :
  0 < u -> 0 < v -> rel_prime u v -> fpow b u = fone -> fpow b v = fone -> b = fone.
Proof.
  intros Hu Hv R Bu Bv. apply rel_prime_bezout in R. destruct R as [x y E].
  (* make both coefficients non-negative *)
  assert (A : forall s t, 0 <= s -> 0 <= t -> s * u = 1 + t * v -> b = fone).
  { intros s t Hs Ht Est.
    assert (E1 : fpow b (s * u) = fone) by (rewrite Z.mul_comm, fpow_mul, Bu by lia; apply fpow_one).
    assert (E2 : fpow b (t * v) = fone) by (rewrite Z.mul_comm, fpow_mul, Bv by lia; apply fpow_one).
    rewrite Est, fpow_add, E2, fpow_1 in E1 by nia.
    rewrite <- E1. apply fe_eq. simpl. rewrite Zmult_mod_idemp_r, Z.mul_1_r. symmetry; apply fv_mod. }
  assert (B : forall s t, 0 <= s -> 0 <= t -> t * v = 1 + s * u -> b = fone).
  { intros s t Hs Ht Est.
    assert (E1 : fpow b (s * u) = fone) by (rewrite Z.mul_comm, fpow_mul, Bu by lia; apply fpow_one).
    assert (E2 : fpow b (t * v) = fone) by (rewrite Z.mul_comm, fpow_mul, Bv by lia; apply fpow_one).
    rewrite Est, fpow_add, E1, fpow_1 in E2 by nia.
    rewrite <- E2. apply fe_eq. simpl. rewrite Zmult_mod_idemp_r, Z.mul_1_r. symmetry; apply fv_mod. }
  destruct (Z_le_gt_dec 0 x) as [X|X].
  - destruct (Z_le_gt_dec y 0) as [Y|Y].
    + apply (A x (- y)); nia.
    + (* x >= 0, y > 0: then x u + y v = 1 forces x = 0 *)
      assert (x = 0) by nia. subst x. apply (B 0 y); nia.
  - apply (B (- x) y); nia.
Qed.

Lemma list_prod_divide (l : list Z) k :
  (forall f, In f l -> prime f /\ (f | k)) -> NoDup l -> (fold_right Z.mul 1 l | k).
Proof.
  induction l as [|f l IH]; intros H N; simpl; [apply Z.divide_1_l|].
  inversion N; subst.
  assert (D : (fold_right Z.mul 1 l | k)) by (apply IH; auto; intros; apply H; simpl; auto).
  destruct (H f (or_introl eq_refl)) as [Pf Df].
  assert (R : rel_prime f (fold_right Z.mul 1 l)).
  { clear D IH. assert (Hl : forall g, In g l -> prime g) by (intros; apply H; simpl; auto).
    clear H N H3. induction l as [|g l IHl]; simpl; [apply rel_prime_sym, rel_prime_1|].
    apply rel_prime_mult.
    - apply prime_rel_prime; [exact Pf|]. intro G.
      assert (f = g). { apply prime_div_prime; auto. apply Hl; simpl; auto. }
      subst; apply H2; simpl; auto.
    - apply IHl; intros; [intro; apply H2; simpl; auto | apply Hl; simpl; auto]. }
  destruct D as [c Hc]. subst k.
  apply Gauss in Df; [|exact R] || (rewrite Z.mul_comm in Df; apply Gauss in Df; [|exact R]).
  destruct Df as [e He]. exists e. subst. ring.
Qed.

(** The certificate: [l] lists pairs (prime factor f of n-1, base a). *)
Definition pock_ok (n : Z) (l : list (Z * Z)) : bool :=
  forallb (fun fa => let '(f, a) := fa in
     ((n - 1) mod f =? 0) && (powm a (n - 1) n =? 1) &&
     (Z.gcd (powm a ((n - 1) / f) n - 1) n =? 1)) l &&
  (n <? (fold_right Z.mul 1 (map fst l)) * (fold_right Z.mul 1 (map fst l))) && (1 <? n).

Theorem pocklington n l :
  pock_ok n l = true -> NoDup (map fst l) -> (forall f, In f (map fst l) -> prime f) -> prime n.
Proof.
  unfold pock_ok. rewrite !andb_true_iff, forallb_forall, Z.ltb_lt, Z.ltb_lt.
  intros [[Hl HF] Hn] N Pl.
  destruct (prime_dec n) as [P|P]; [exact P|exfalso].
  destruct (small_prime_divisor n Hn P) as [r [Pr [Dr Hr]]].
  pose proof (prime_ge_2 _ Pr).
  assert (D : (fold_right Z.mul 1 (map fst l) | r - 1)).
  { apply list_prod_divide; [|exact N]. intros f Hf. split; [now apply Pl|].
    specialize (Pl f Hf). apply in_map_iff in Hf as [[f' a] [E Hin]]. simpl in E. subst f'.
    specialize (Hl _ Hin). simpl in Hl. rewrite !andb_true_iff, !Z.eqb_eq in Hl.
    destruct Hl as [[H1 H2] H3].
    pose proof (prime_ge_2 _ Pl).
    destruct (Zdivide_dec f (r - 1)) as [D|D]; [exact D|exfalso].
    apply Z.mod_divide in H1; [|lia]. destruct H1 as [R HR].
    assert (0 < R) by nia.
    replace ((n - 1) / f) with R in H3 by (rewrite HR, Z.div_mul; lia).
    assert (Ha : of_Z r a <> fzero).
    { intro E. assert (Q : of_Z r (powm a (n - 1) n) = fzero).
      { rewrite fpow_reduce by (auto; lia). replace (n - 1) with (Z.succ (n - 2)) by lia.
        rewrite fpow_succ, E by lia. apply fe_eq. simpl. now rewrite Z.mod_0_l by lia. }
      rewrite H2 in Q. now apply (fone_neq_fzero Pr). }
    assert (E1 : fpow (of_Z r a) R = fone).
    { apply (fpow_gcd _ f (r - 1)); [lia|lia| | |].
      - now apply prime_rel_prime.
      - rewrite <- fpow_mul by lia. rewrite <- HR, <- (fpow_reduce n) by (auto; lia). now rewrite H2.
      - apply fermat; [exact Pr|]. now apply fpow_neq0. }
    rewrite <- (fpow_reduce n) in E1 by (auto; lia).
    apply of_Z_eq_iff in E1.
    assert (Dv : (r | powm a R n - 1)).
    { apply Z.mod_divide; [lia|]. rewrite Zminus_mod, E1. rewrite Z.sub_diag. reflexivity. }
    assert (G : (r | Z.gcd (powm a R n - 1) n)) by (now apply Z.gcd_greatest).
    rewrite H3 in G. apply Z.divide_1_r_nonneg in G; lia. }
  assert (F0 : 0 < fold_right Z.mul 1 (map fst l)).
  { clear - Pl. induction (map fst l) as [|f k IH]; simpl; [lia|].
    pose proof (prime_ge_2 f (Pl f (or_introl eq_refl))).
    assert (0 < fold_right Z.mul 1 k) by (apply IH; intros; apply Pl; simpl; auto). nia. }
  apply Z.divide_pos_le in D; [|lia]. nia.
Qed.

(** Trial division for the small primes at the bottom of the certificates. *)
Fixpoint trial (n d : Z) (fuel : nat) : bool :=
  match fuel with
  | O => false
  | S fuel => if n <? d * d then true else if n mod d =? 0 then false else trial n (d + 1) fuel
  end.

Lemma trial_sound n fuel : forall d, 2 <= d -> trial n d fuel = true ->
  forall r, d <= r -> r * r <= n -> ~ (r | n).
Proof.
  induction fuel as [|fuel IH]; simpl; intros d Hd T r Hr Hrn; [discriminate|].
  destruct (Z.ltb_spec n (d * d)); [nia|].
  destruct (Z.eqb_spec (n mod d) 0) as [E|E]; [discriminate|].
  destruct (Z.eq_dec r d) as [->|Hne].
  - intro D. apply E. apply Z.mod_divide; [lia|exact D].
  - apply (IH (d + 1)); auto; lia.
Qed.

Theorem trial_prime n fuel : 1 < n -> trial n 2 fuel = true -> prime n.
Proof.
  intros Hn T. destruct (prime_dec n) as [P|P]; [exact P|exfalso].
  destruct (small_prime_divisor n Hn P) as [r [Pr [Dr Hr]]].
  apply (trial_sound n fuel 2 ltac:(lia) T r); auto. apply prime_ge_2, Pr.
Qed.
