(** Integers modulo m as a type with Leibniz equality, and the field laws for
    prime m.  This is the mathematical content of [native.Field] of the
    kryptology library (external to /repo), which curve/k256_scalar.go and
    curve/k256_fe.go wrap. *)
From Coq Require Import ZArith Znumtheory Lia List Eqdep_dec Bool Ring Field Permutation.
Import ListNotations.
Open Scope Z_scope.

Record fe (m : Z) : Set := mkfe { fv : Z; fok : (fv mod m =? fv) = true }.
Arguments mkfe {m}. Arguments fv {m}. Arguments fok {m}.

Lemma fe_eq (m : Z) (a b : fe m) : fv a = fv b -> a = b.
Proof.
  destruct a as [a Ha], b as [b Hb]; simpl; intros ->.
  f_equal; apply UIP_dec; decide equality.
Qed.

Lemma mod_ok (m z : Z) : ((z mod m) mod m =? z mod m) = true.
Proof.
  apply Z.eqb_eq. destruct (Z.eq_dec m 0) as [->|Hm].
  - now rewrite !Zmod_0_r.
  - now rewrite Z.mod_mod.
Qed.

Definition of_Z (m z : Z) : fe m := mkfe (z mod m) (mod_ok m z).

Section Ops.
Context {m : Z}.
Notation F := (fe m).
Definition fzero : F := of_Z m 0.
Definition fone : F := of_Z m 1.
Definition fadd (a b : F) : F := of_Z m (fv a + fv b).
Definition fsub (a b : F) : F := of_Z m (fv a - fv b).
Definition fmul (a b : F) : F := of_Z m (fv a * fv b).
Definition fneg (a : F) : F := of_Z m (- fv a).
Definition feqb (a b : F) : bool := fv a =? fv b.

(** a^n by square and multiply, n > 0 *)
Fixpoint fpow_pos (a : F) (n : positive) : F :=
  match n with
  | xH => a
  | xO n => let r := fpow_pos a n in fmul r r
  | xI n => let r := fpow_pos a n in fmul a (fmul r r)
  end.
Definition fpow (a : F) (n : Z) : F :=
  match n with Zpos n => fpow_pos a n | _ => fone end.

(** Inversion, with the convention 1/0 = 0: a^(m-2). *)
Definition finv (a : F) : F := fpow a (m - 2).
Definition fdiv (a b : F) : F := fmul a (finv b).
End Ops.

Lemma fv_of_Z m z : fv (of_Z m z) = z mod m.
Proof. reflexivity. Qed.

Lemma fv_range m (a : fe m) : 0 < m -> 0 <= fv a < m.
Proof.
  intro Hm. destruct a as [a Ha]; simpl. apply Z.eqb_eq in Ha. rewrite <- Ha.
  now apply Z.mod_pos_bound.
Qed.

Lemma fv_mod m (a : fe m) : fv a mod m = fv a.
Proof. destruct a as [a Ha]; simpl. now apply Z.eqb_eq. Qed.

Lemma of_Z_fv m (a : fe m) : of_Z m (fv a) = a.
Proof. apply fe_eq. simpl. apply fv_mod. Qed.

Lemma of_Z_eq m a b : a mod m = b mod m -> of_Z m a = of_Z m b.
Proof. intro H. now apply fe_eq. Qed.

Lemma of_Z_eq_iff m a b : of_Z m a = of_Z m b <-> a mod m = b mod m.
Proof. split; [intro H; now apply (f_equal fv) in H | apply of_Z_eq]. Qed.

Lemma feqb_eq m (a b : fe m) : feqb a b = true <-> a = b.
Proof.
  unfold feqb. rewrite Z.eqb_eq. split; [apply fe_eq | now intros ->].
Qed.

Lemma feqb_refl m (a : fe m) : feqb a a = true.
Proof. now apply feqb_eq. Qed.

Lemma feqb_neq m (a b : fe m) : feqb a b = false <-> a <> b.
Proof.
  split; intro H.
  - intros ->. now rewrite feqb_refl in H.
  - destruct (feqb a b) eqn:E; [|reflexivity]. apply feqb_eq in E. contradiction.
Qed.

Lemma fe_dec m (a b : fe m) : {a = b} + {a <> b}.
Proof.
  destruct (feqb a b) eqn:E; [left; now apply feqb_eq | right; now apply feqb_neq].
Defined.

Ltac fe_ring := intros; apply fe_eq; simpl;
  repeat (rewrite ?Zplus_mod_idemp_l, ?Zplus_mod_idemp_r, ?Zminus_mod_idemp_l, ?Zminus_mod_idemp_r,
          ?Zmult_mod_idemp_l, ?Zmult_mod_idemp_r).

Lemma of_Z_add m a b : of_Z m (a + b) = fadd (of_Z m a) (of_Z m b).
Proof. apply fe_eq; simpl. apply Zplus_mod. Qed.
Lemma of_Z_mul m a b : of_Z m (a * b) = fmul (of_Z m a) (of_Z m b).
Proof. apply fe_eq; simpl. apply Zmult_mod. Qed.
Lemma of_Z_sub m a b : of_Z m (a - b) = fsub (of_Z m a) (of_Z m b).
Proof. apply fe_eq; simpl. apply Zminus_mod. Qed.
Lemma of_Z_opp m a : of_Z m (- a) = fneg (of_Z m a).
Proof.
  apply fe_eq; simpl. rewrite <- !Z.sub_0_l.
  rewrite Zminus_mod, (Zminus_mod 0 (a mod m)), Zmod_mod. reflexivity.
Qed.

Lemma f_ring_theory m : ring_theory (@fzero m) fone fadd fmul fsub fneg eq.
Proof.
  assert (ex : forall x : fe m, exists z, x = of_Z m z) by (intro x; exists (fv x); now rewrite of_Z_fv).
  constructor; intros;
    repeat match goal with x : fe m |- _ => destruct (ex x) as [? ->]; clear x end;
    unfold fzero, fone; repeat rewrite <- ?of_Z_opp, <- ?of_Z_add, <- ?of_Z_mul, <- ?of_Z_sub;
    f_equal; ring.
Qed.

Section Pow.
Context {m : Z}.
Add Ring Fring : (f_ring_theory m).
Notation F := (fe m).

Lemma fpow_pos_succ (a : F) n : fpow_pos a (Pos.succ n) = fmul a (fpow_pos a n).
Proof.
  induction n as [n IH|n IH|]; simpl; auto.
  rewrite IH. ring.
Qed.

Lemma fpow_0 (a : F) : fpow a 0 = fone.
Proof. reflexivity. Qed.
Lemma fpow_1 (a : F) : fpow a 1 = a.
Proof. reflexivity. Qed.

Lemma fpow_succ (a : F) n : 0 <= n -> fpow a (Z.succ n) = fmul a (fpow a n).
Proof.
  intro Hn. destruct n as [|n|n]; [| |lia]; simpl.
  - ring.
  - now rewrite <- fpow_pos_succ, <- Pos.add_1_r.
Qed.

Lemma fpow_add (a : F) n k : 0 <= n -> 0 <= k -> fpow a (n + k) = fmul (fpow a n) (fpow a k).
Proof.
  intros Hn Hk. revert n Hn. apply (natlike_ind (fun n => fpow a (n + k) = fmul (fpow a n) (fpow a k))).
  - simpl. ring.
  - intros n Hn IH. rewrite Z.add_succ_l, !fpow_succ, IH by lia. ring.
Qed.

Lemma fpow_one n : fpow (fone : F) n = fone.
Proof.
  destruct (Z_lt_le_dec n 0) as [H|H]; [destruct n; [lia|lia|reflexivity]|].
  revert n H. apply natlike_ind; [reflexivity|].
  intros n Hn IH. rewrite fpow_succ, IH by lia. ring.
Qed.

Lemma fpow_mul (a : F) n k : 0 <= n -> 0 <= k -> fpow a (n * k) = fpow (fpow a n) k.
Proof.
  intros Hn Hk. revert k Hk. apply natlike_ind.
  - now rewrite Z.mul_0_r.
  - intros k Hk IH. rewrite Z.mul_succ_r, fpow_add, IH, fpow_succ by nia. ring.
Qed.

Lemma fpow_mul_l (a b : F) n : fpow (fmul a b) n = fmul (fpow a n) (fpow b n).
Proof.
  destruct (Z_lt_le_dec n 0) as [H|H]; [destruct n; [lia|lia|simpl; ring]|].
  revert n H. apply natlike_ind; [simpl; ring|].
  intros n Hn IH. rewrite !fpow_succ, IH by lia. ring.
Qed.

Lemma fpow_2 (a : F) : fpow a 2 = fmul a a.
Proof. reflexivity. Qed.

Lemma fv_fpow (a : F) n : 0 <= n -> fv (fpow a n) = (fv a ^ n) mod m.
Proof.
  revert n. apply natlike_ind; [reflexivity|].
  intros n Hn IH. rewrite fpow_succ, Z.pow_succ_r by lia. simpl. rewrite IH.
  now rewrite Zmult_mod_idemp_r.
Qed.

Lemma of_Z_pow a n : 0 <= n -> of_Z m (a ^ n) = fpow (of_Z m a) n.
Proof.
  revert n. apply natlike_ind; [reflexivity|].
  intros n Hn IH. rewrite fpow_succ, Z.pow_succ_r, of_Z_mul, IH by lia. reflexivity.
Qed.
End Pow.

(** ** Prime moduli *)
Section Prime.
Context {m : Z} (Hp : prime m).
Add Ring FringP : (f_ring_theory m).
Notation F := (fe m).

Lemma m_pos : 1 < m. Proof. destruct Hp; lia. Qed.

Lemma fone_neq_fzero : (fone : F) <> fzero.
Proof.
  intro H. apply (f_equal fv) in H. simpl in H. pose proof m_pos.
  rewrite Z.mod_1_l, Z.mod_0_l in H by lia. discriminate.
Qed.

Lemma of_Z_zero_iff z : of_Z m z = fzero <-> (m | z).
Proof.
  unfold fzero. rewrite of_Z_eq_iff. pose proof m_pos. rewrite Z.mod_0_l by lia.
  apply Z.mod_divide. lia.
Qed.

Lemma fmul_integral (a b : F) : fmul a b = fzero -> a = fzero \/ b = fzero.
Proof.
  rewrite <- (of_Z_fv m a), <- (of_Z_fv m b), <- of_Z_mul, !of_Z_zero_iff.
  apply prime_mult, Hp.
Qed.

Lemma fmul_neq0 (a b : F) : a <> fzero -> b <> fzero -> fmul a b <> fzero.
Proof. intros Ha Hb H. destruct (fmul_integral a b H); auto. Qed.

Lemma fmul_cancel_l (a b c : F) : a <> fzero -> fmul a b = fmul a c -> b = c.
Proof.
  intros Ha H. assert (E : fmul a (fsub b c) = fzero).
  { transitivity (fsub (fmul a b) (fmul a c)); [ring|]. rewrite H. ring. }
  destruct (fmul_integral _ _ E) as [?|E2]; [contradiction|].
  transitivity (fadd (fsub b c) c); [ring|]. rewrite E2. ring.
Qed.

Lemma fpow_neq0 (a : F) n : a <> fzero -> fpow a n <> fzero.
Proof.
  intro Ha. destruct (Z_lt_le_dec n 0) as [H|H].
  - destruct n; try lia. apply fone_neq_fzero.
  - revert n H. apply natlike_ind; [apply fone_neq_fzero|].
    intros n Hn IH. rewrite fpow_succ by lia. now apply fmul_neq0.
Qed.

(** all non-zero elements *)
Definition units : list F := map (fun i => of_Z m (Z.of_nat i)) (seq 1 (Z.to_nat (m - 1))).
Definition fprod (l : list F) : F := fold_right fmul fone l.

Lemma units_length : length units = Z.to_nat (m - 1).
Proof. unfold units. now rewrite map_length, seq_length. Qed.

Lemma units_in (a : F) : In a units <-> a <> fzero.
Proof.
  unfold units. rewrite in_map_iff. pose proof m_pos as Hm. split.
  - intros [i [<- Hi]]. rewrite in_seq in Hi. rewrite of_Z_zero_iff.
    intro D. apply Z.divide_pos_le in D; lia.
  - intro Ha. exists (Z.to_nat (fv a)). pose proof (fv_range m a ltac:(lia)) as Hr.
    rewrite Z2Nat.id by lia. split; [apply of_Z_fv|]. rewrite in_seq.
    assert (fv a <> 0). { intro E. apply Ha. apply fe_eq. rewrite E. reflexivity. }
    lia.
Qed.

Lemma NoDup_map_inj {A B} (f : A -> B) l :
  (forall x y, In x l -> In y l -> f x = f y -> x = y) -> NoDup l -> NoDup (map f l).
Proof.
  induction l as [|a l IH]; intros Hf Hn; simpl; constructor; inversion Hn; subst.
  - rewrite in_map_iff. intros [x [E Hx]]. assert (x = a) by (apply Hf; simpl; auto). now subst.
  - apply IH; auto. intros; apply Hf; simpl; auto.
Qed.

Lemma units_NoDup : NoDup units.
Proof.
  apply NoDup_map_inj; [|apply seq_NoDup].
  intros x y Hx Hy E. rewrite in_seq in Hx, Hy. pose proof m_pos.
  apply of_Z_eq_iff in E. rewrite !Z.mod_small in E by lia. lia.
Qed.

Lemma fprod_perm l l' : Permutation l l' -> fprod l = fprod l'.
Proof.
  induction 1; simpl; auto; try congruence. ring.
Qed.

Lemma fprod_map_mul a l : fprod (map (fmul a) l) = fmul (fpow a (Z.of_nat (length l))) (fprod l).
Proof.
  induction l as [|b l IH]; [simpl; ring|].
  simpl map. simpl length. rewrite Nat2Z.inj_succ, fpow_succ by lia.
  simpl fprod. rewrite IH. ring.
Qed.

Lemma fprod_neq0 l : (forall x, In x l -> x <> fzero) -> fprod l <> fzero.
Proof.
  induction l as [|a l IH]; intro H; simpl; [apply fone_neq_fzero|].
  apply fmul_neq0; [apply H; simpl; auto | apply IH; intros; apply H; simpl; auto].
Qed.

Lemma fermat (a : F) : a <> fzero -> fpow a (m - 1) = fone.
Proof.
  intro Ha. pose proof m_pos.
  assert (P : Permutation units (map (fmul a) units)).
  { apply NoDup_Permutation_bis.
    - apply units_NoDup.
    - now rewrite map_length.
    - intros x Hx. apply units_in in Hx.
      (* use the pigeonhole principle: the image is included in units *)
      assert (I : incl (map (fmul a) units) units).
      { intros y Hy. apply in_map_iff in Hy as [z [<- Hz]]. apply units_in.
        apply fmul_neq0; auto. now apply units_in. }
      assert (N : NoDup (map (fmul a) units)).
      { apply NoDup_map_inj; [|apply units_NoDup]. intros u v _ _ E. now apply fmul_cancel_l in E. }
      refine (NoDup_length_incl N _ I _ _); [now rewrite map_length|]. now apply units_in. }
  apply fprod_perm in P. rewrite fprod_map_mul, units_length, Z2Nat.id in P by lia.
  apply (fmul_cancel_l (fprod units)).
  - apply fprod_neq0. intros x Hx. now apply units_in.
  - transitivity (fprod units); [rewrite P at 2; ring|ring].
Qed.

Lemma finv_l (a : F) : a <> fzero -> fmul (finv a) a = fone.
Proof.
  intro Ha. unfold finv. pose proof m_pos.
  transitivity (fpow a (m - 2 + 1)).
  - rewrite fpow_add, fpow_1 by lia. reflexivity.
  - replace (m - 2 + 1) with (m - 1) by lia. now apply fermat.
Qed.

Lemma f_field_theory : field_theory (@fzero m) fone fadd fmul fsub fneg fdiv finv eq.
Proof.
  constructor.
  - apply f_ring_theory.
  - apply fone_neq_fzero.
  - reflexivity.
  - apply finv_l.
Qed.
End Prime.

Lemma finv_zero m : 2 < m -> finv (fzero : fe m) = fzero.
Proof.
  intro H. unfold finv. replace (m - 2) with (Z.succ (m - 3)) by lia.
  rewrite fpow_succ by lia. apply fe_eq. simpl. rewrite !Z.mod_0_l by lia. reflexivity.
Qed.

(** The operations must not be unfolded by [simpl] in later files. *)
Global Arguments fzero : simpl never.
Global Arguments fone : simpl never.
Global Arguments fadd : simpl never.
Global Arguments fsub : simpl never.
Global Arguments fmul : simpl never.
Global Arguments fneg : simpl never.
Global Arguments fpow : simpl never.
Global Arguments finv : simpl never.
Global Arguments fdiv : simpl never.
Global Arguments of_Z : simpl never.
Global Arguments feqb : simpl never.
