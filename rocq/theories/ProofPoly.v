(** Polynomial arithmetic, root counting and interpolation. *)
From Coq Require Import ZArith Lia Bool List Ring Field Permutation.
From Verif Require Import Base BaseFacts Zmod Fields ModelScalar ProofScalar ModelPoly SpecPoly.
Import ListNotations.
Open Scope Z_scope.
Add Field FqF : Fq_field.

(** nested (Horner) evaluation, used as the working notion *)
Fixpoint pev (l : list Fq) (x : Fq) : Fq :=
  match l with [] => fzero | c :: l => fadd c (fmul x (pev l x)) end.

Lemma fsum_map_scale {A} (f : A -> Fq) (x : Fq) l :
  fsum (map (fun a => fmul x (f a)) l) = fmul x (fsum (map f l)).
Proof. induction l as [|a l IH]; simpl; [ring|]. rewrite IH. ring. Qed.

Lemma fsum_map_ext {A} (f g : A -> Fq) l :
  (forall a, In a l -> f a = g a) -> fsum (map f l) = fsum (map g l).
Proof. intros H. rewrite (map_ext_in _ _ _ H). reflexivity. Qed.

Lemma pev_spec l x : spec_eval l x = pev l x.
Proof.
  unfold spec_eval. induction l as [|c l IH]; [reflexivity|].
  cbn [length seq map fsum fold_right pev nth]. rewrite <- seq_shift, map_map.
  change (Z.of_nat 0) with 0. rewrite fpow_0.
  rewrite <- IH, <- fsum_map_scale.
  f_equal; [ring|]. apply (fsum_map_ext _ _ (seq 0 (length l))).
  intros i _. cbn [nth]. rewrite Nat2Z.inj_succ, fpow_succ by lia. ring.
Qed.

Lemma pev_app l1 l2 x : pev (l1 ++ l2) x = fadd (pev l1 x) (fmul (fpow x (Z.of_nat (length l1))) (pev l2 x)).
Proof.
  induction l1 as [|c l IH]; cbn [app pev length].
  - change (Z.of_nat 0) with 0. rewrite fpow_0. ring.
  - rewrite IH, Nat2Z.inj_succ, fpow_succ by lia. ring.
Qed.

Lemma fold_horner l x : forall a, fold_left (fun ans c => fadd (fmul ans x) c) l a
   = fadd (fmul a (fpow x (Z.of_nat (length l)))) (pev (rev l) x).
Proof.
  induction l as [|c l IH]; intros a; cbn [fold_left length rev].
  - change (Z.of_nat 0) with 0. rewrite fpow_0. cbn. ring.
  - rewrite IH, pev_app, rev_length, Nat2Z.inj_succ, fpow_succ by lia. cbn [pev]. ring.
Qed.

Lemma evaluate_at_pev l x : evaluate_at l x = pev l x.
Proof.
  unfold evaluate_at. destruct (rev l) as [|c r] eqn:E.
  - apply (f_equal (@rev Fq)) in E. rewrite rev_involutive in E. subst. reflexivity.
  - apply (f_equal (@rev Fq)) in E. rewrite rev_involutive in E. subst. cbn [rev].
    rewrite fold_horner, pev_app, rev_length. cbn [pev]. ring.
Qed.

Lemma pev_ext : forall l1 l2 x, spec_same l1 l2 -> pev l1 x = pev l2 x.
Proof.
  induction l1 as [|c l IH]; intros l2 x H.
  - cbn [pev]. symmetry. assert (forall i, nth i l2 fzero = fzero) as Hz.
    { intros i. rewrite <- H. destruct i; reflexivity. }
    clear H. induction l2 as [|d l2 IH]; [reflexivity|]. cbn [pev].
    rewrite IH; [|intros i; apply (Hz (S i))]. specialize (Hz O). cbn in Hz. rewrite Hz. ring.
  - destruct l2 as [|d l2].
    + cbn [pev]. pose proof (H O) as H0. cbn in H0. rewrite H0.
      rewrite (IH []); [cbn; ring|]. intros i. specialize (H (S i)). cbn in H. rewrite H. destruct i; reflexivity.
    + cbn [pev]. pose proof (H O) as H0. cbn in H0. rewrite H0. rewrite (IH l2); [reflexivity|].
      intros i. apply (H (S i)).
Qed.

(** ** Add *)
Lemma coeff_overflow l i : (length l <= i)%nat -> coeff l i = fzero.
Proof. apply nth_overflow. Qed.

Lemma nth_map_seq {A} (f : nat -> A) n i d : (i < n)%nat -> nth i (map f (seq 0 n)) d = f i.
Proof.
  intros H. rewrite (nth_indep _ d (f O)) by (rewrite map_length, seq_length; lia).
  rewrite map_nth, seq_nth by lia. reflexivity.
Qed.

Lemma poly_add_coeff l r i : coeff (poly_add l r) i = fadd (coeff l i) (coeff r i).
Proof.
  destruct (Nat.lt_ge_cases i (Nat.max (length l) (length r))).
  - unfold coeff at 1, poly_add. rewrite nth_map_seq by lia. reflexivity.
  - rewrite !coeff_overflow; try lia; [ring|].
    unfold poly_add. rewrite map_length, seq_length. lia.
Qed.
Lemma poly_add_length l r : length (poly_add l r) = Nat.max (length l) (length r).
Proof. unfold poly_add. rewrite map_length, seq_length. reflexivity. Qed.

Fixpoint padd (l r : list Fq) : list Fq :=
  match l, r with [], r => r | l, [] => l | a :: l, b :: r => fadd a b :: padd l r end.
Lemma padd_coeff : forall l r i, coeff (padd l r) i = fadd (coeff l i) (coeff r i).
Proof.
  induction l as [|a l IH]; intros [|b r] [|i]; cbn; try ring.
  apply IH.
Qed.
Lemma padd_pev : forall l r x, pev (padd l r) x = fadd (pev l x) (pev r x).
Proof. induction l as [|a l IH]; intros [|b r] x; cbn [padd pev]; try ring. rewrite IH. ring. Qed.
Lemma poly_add_pev l r x : pev (poly_add l r) x = fadd (pev l x) (pev r x).
Proof.
  rewrite <- padd_pev. apply pev_ext. intros i.
  change (coeff (poly_add l r) i = coeff (padd l r) i).
  rewrite poly_add_coeff, padd_coeff. reflexivity.
Qed.

(** ** Mul *)
Lemma add_at_length : forall l k v, length (add_at l k v) = length l.
Proof. induction l as [|a l IH]; intros [|k] v; cbn; auto. Qed.
Lemma add_at_pev : forall l k v x, (k < length l)%nat ->
  pev (add_at l k v) x = fadd (pev l x) (fmul v (fpow x (Z.of_nat k))).
Proof.
  induction l as [|a l IH]; intros [|k] v x H; cbn [length] in H; try lia; cbn [add_at pev].
  - change (Z.of_nat 0) with 0. rewrite fpow_0. ring.
  - rewrite IH, Nat2Z.inj_succ, fpow_succ by lia. ring.
Qed.
Lemma mul_row_length : forall r acc k ca, length (mul_row acc k ca r) = length acc.
Proof. induction r as [|b r IH]; intros; cbn; [auto|]. rewrite IH, add_at_length. reflexivity. Qed.
Lemma mul_row_pev : forall r acc k ca x, (k + length r <= length acc)%nat ->
  pev (mul_row acc k ca r) x = fadd (pev acc x) (fmul (fmul ca (fpow x (Z.of_nat k))) (pev r x)).
Proof.
  induction r as [|b r IH]; intros acc k ca x H; cbn [mul_row pev length] in *; [ring|].
  rewrite IH, add_at_pev, Nat2Z.inj_succ, fpow_succ by (rewrite ?add_at_length; lia). ring.
Qed.
Lemma mul_rows_length : forall l r acc k, length (mul_rows acc k l r) = length acc.
Proof. induction l as [|b l IH]; intros; cbn; [auto|]. rewrite IH, mul_row_length. reflexivity. Qed.
Lemma mul_rows_pev : forall l r acc k x, (l = [] \/ k + length l + length r <= S (length acc))%nat ->
  pev (mul_rows acc k l r) x = fadd (pev acc x) (fmul (fpow x (Z.of_nat k)) (fmul (pev l x) (pev r x))).
Proof.
  induction l as [|a l IH]; intros r acc k x H; cbn [mul_rows pev length] in *; [ring|].
  destruct H as [H|H]; [discriminate|].
  rewrite IH; [|right; rewrite mul_row_length; lia].
  rewrite mul_row_pev, Nat2Z.inj_succ, fpow_succ by lia. ring.
Qed.
Lemma pev_repeat0 n x : pev (repeat fzero n) x = fzero.
Proof. induction n; cbn [repeat pev]; [reflexivity|]. rewrite IHn. ring. Qed.
Lemma poly_mul_pev l r x : pev (poly_mul l r) x = fmul (pev l x) (pev r x).
Proof.
  unfold poly_mul. rewrite mul_rows_pev, pev_repeat0.
  - change (Z.of_nat 0) with 0. rewrite fpow_0. ring.
  - destruct l as [|a l]; [left; reflexivity|right]. rewrite repeat_length. cbn [length]. lia.
Qed.
Lemma poly_mul_length l r : length (poly_mul l r) = (length l + length r - 1)%nat.
Proof. unfold poly_mul. rewrite mul_rows_length, repeat_length. lia. Qed.

(** ** MulScalar *)
Definition pscale (s : Fq) (l : list Fq) := map (fun c => fmul c s) l.
Lemma pscale_pev s l x : pev (pscale s l) x = fmul s (pev l x).
Proof. induction l as [|c l IH]; cbn [pscale map pev]; [ring|]. unfold pscale in IH. rewrite IH. ring. Qed.
Lemma map_nth_seq {A} (l : list A) d : map (fun i => nth i l d) (seq 0 (length l)) = l.
Proof.
  induction l as [|a l IH]; [reflexivity|].
  cbn [length seq map nth]. rewrite <- seq_shift, map_map. cbn [nth]. rewrite IH. reflexivity.
Qed.
Lemma firstn_nth_seq {A} (l : list A) d n : (n <= length l)%nat ->
  map (fun i => nth i l d) (seq 0 n) = firstn n l.
Proof.
  revert n. induction l as [|a l IH]; intros [|n] H; cbn [length] in H; try lia; try reflexivity.
  cbn [seq map nth firstn]. rewrite <- seq_shift, map_map. cbn [nth]. rewrite IH by lia. reflexivity.
Qed.
Lemma poly_mul_scalar_spec recv lhs s :
  poly_mul_scalar recv lhs s =
  if (length recv <? length lhs)%nat then Panic else Ok (pscale s (firstn (length lhs) recv)).
Proof.
  unfold poly_mul_scalar. destruct (Nat.ltb_spec (length recv) (length lhs)); [reflexivity|].
  f_equal. unfold pscale. rewrite <- (firstn_nth_seq recv fzero) by lia. rewrite map_map. reflexivity.
Qed.
Lemma poly_mul_scalar_self l s : poly_mul_scalar l l s = Ok (pscale s l).
Proof. rewrite poly_mul_scalar_spec, Nat.ltb_irrefl, firstn_all. reflexivity. Qed.

(** ** Equal *)
Lemma poly_equal_iff l r : poly_equal l r = true <-> spec_same l r.
Proof.
  unfold poly_equal, spec_same. rewrite forallb_forall. split.
  - intros H i. destruct (Nat.lt_ge_cases i (Nat.max (length l) (length r))) as [Hi|Hi].
    + specialize (H i). rewrite in_seq in H. apply feqb_eq, H. lia.
    + rewrite !nth_overflow; [reflexivity|lia|lia].
  - intros H i _. apply feqb_eq, H.
Qed.

(** ** Root counting *)
Fixpoint pquot (l : list Fq) (r : Fq) : list Fq :=
  match l with
  | [] => [] | [_] => []
  | _ :: l => pev l r :: pquot l r
  end.
Lemma pquot_length : forall l r, length (pquot l r) = (length l - 1)%nat.
Proof.
  induction l as [|a l IH]; intros r; [reflexivity|].
  destruct l as [|b l]; [reflexivity|]. cbn [pquot length] in *. rewrite IH. cbn. lia.
Qed.
Lemma pquot_spec : forall l r x, pev l x = fadd (pev l r) (fmul (fsub x r) (pev (pquot l r) x)).
Proof.
  induction l as [|a l IH]; intros r x; [cbn; ring|].
  destruct l as [|b l]; [cbn; ring|].
  change (pquot (a :: b :: l) r) with (pev (b :: l) r :: pquot (b :: l) r).
  change (pev (a :: b :: l) x) with (fadd a (fmul x (pev (b :: l) x))).
  change (pev (a :: b :: l) r) with (fadd a (fmul r (pev (b :: l) r))).
  change (pev (pev (b :: l) r :: pquot (b :: l) r) x) with
      (fadd (pev (b :: l) r) (fmul x (pev (pquot (b :: l) r) x))).
  pose proof (IH r x) as E. rewrite E. ring.
Qed.

Lemma fsub_zero (a b : Fq) : fsub a b = fzero -> a = b.
Proof. intros H. assert (a = fadd (fsub a b) b) as E by ring. rewrite E, H. ring. Qed.

(** a polynomial function with as many distinct roots as coefficients is zero *)
Lemma roots_zero : forall xs l, NoDup xs -> (length l <= length xs)%nat ->
  (forall x, In x xs -> pev l x = fzero) -> forall v, pev l v = fzero.
Proof.
  induction xs as [|r xs IH]; intros l Hd Hl H v.
  - destruct l; [reflexivity|cbn in Hl; lia].
  - inversion Hd as [|? ? Hr Hd']; subst.
    rewrite (pquot_spec l r v), (H r) by (left; reflexivity).
    rewrite (IH (pquot l r)); [ring| assumption | rewrite pquot_length; cbn in Hl; lia |].
    intros x Hx. pose proof (pquot_spec l r x) as E.
    rewrite (H r), (H x) in E by (cbn; auto).
    assert (fmul (fsub x r) (pev (pquot l r) x) = fzero) as E' by (rewrite E; ring).
    destruct (fmul_integral q_prime _ _ E') as [E2|E2]; [|exact E2].
    apply fsub_zero in E2. subst. contradiction.
Qed.

Lemma pev_zero_coeffs : forall n l, (length l <= n)%nat -> Z.of_nat n <= q ->
  (forall v, pev l v = fzero) -> forall i, nth i l fzero = fzero.
Proof.
  induction n as [|n IH]; intros l Hn Hq H i.
  - destruct l; [destruct i; reflexivity|cbn in Hn; lia].
  - destruct l as [|c l]; [destruct i; reflexivity|].
    assert (c = fzero) as ->.
    { specialize (H fzero). cbn [pev] in H. rewrite <- H. ring. }
    destruct i as [|i]; [reflexivity|]. cbn [nth].
    apply IH; [cbn in Hn; lia|lia|].
    (* l vanishes at 1..n *)
    set (xs := map (fun i => of_Z q (Z.of_nat i)) (seq 1 n)).
    apply (roots_zero xs).
    + apply NoDup_map_inj; [|apply seq_NoDup].
      intros a b Ha Hb E. apply in_seq in Ha, Hb. apply of_Z_eq_iff in E.
      rewrite !Z.mod_small in E by lia. lia.
    + unfold xs. rewrite map_length, seq_length. cbn in Hn. lia.
    + intros x Hx. unfold xs in Hx. apply in_map_iff in Hx. destruct Hx as [j [<- Hj]].
      apply in_seq in Hj. specialize (H (of_Z q (Z.of_nat j))). cbn [pev] in H.
      assert (E : fmul (of_Z q (Z.of_nat j)) (pev l (of_Z q (Z.of_nat j))) = fzero).
      { rewrite <- H. ring. }
      destruct (fmul_integral q_prime _ _ E) as [E2|E2]; [|exact E2].
      exfalso. apply of_Z_zero_iff in E2; [|exact q_prime]. 
      apply Z.divide_pos_le in E2; lia.
Qed.

Definition psub l r := padd l (pscale (fneg fone) r).
Lemma psub_pev l r x : pev (psub l r) x = fsub (pev l x) (pev r x).
Proof. unfold psub. rewrite padd_pev, pscale_pev. ring. Qed.
Lemma pscale_coeff s l i : coeff (pscale s l) i = fmul (coeff l i) s.
Proof.
  unfold coeff, pscale. destruct (Nat.lt_ge_cases i (length l)).
  - rewrite (nth_indep _ fzero (fmul fzero s)) by (rewrite map_length; lia).
    apply (map_nth (fun c => fmul c s)).
  - rewrite !nth_overflow by (rewrite ?map_length; lia). ring.
Qed.
Lemma padd_length : forall l r, length (padd l r) = Nat.max (length l) (length r).
Proof. induction l as [|a l IH]; intros [|b r]; cbn; auto. Qed.
Lemma psub_length l r : length (psub l r) = Nat.max (length l) (length r).
Proof. unfold psub. rewrite padd_length. unfold pscale. rewrite map_length. reflexivity. Qed.

(** two polynomials with at most n coefficients agreeing at n points agree *)
Lemma agree_everywhere xs l r : NoDup xs ->
  (length l <= length xs)%nat -> (length r <= length xs)%nat ->
  (forall x, In x xs -> pev l x = pev r x) -> forall v, pev l v = pev r v.
Proof.
  intros Hd Hl Hr H v. apply fsub_zero. rewrite <- psub_pev.
  apply (roots_zero xs); [assumption| rewrite psub_length; lia |].
  intros x Hx. rewrite psub_pev, (H x Hx). ring.
Qed.

Lemma nodup_length_q (xs : list Fq) : NoDup xs -> Z.of_nat (length xs) <= q.
Proof.
  intros Hd.
  assert (NoDup (map fv xs)) as Hd'.
  { apply NoDup_map_inj; [|assumption]. intros a b _ _ E. apply fe_eq, E. }
  assert (incl (map fv xs) (map Z.of_nat (seq 0 (Z.to_nat q)))) as Hi.
  { intros z Hz. apply in_map_iff in Hz. destruct Hz as [x [<- _]].
    pose proof (Fq_range x). apply in_map_iff. exists (Z.to_nat (fv x)). split; [lia|].
    apply in_seq. lia. }
  pose proof (NoDup_incl_length Hd' Hi) as H.
  rewrite !map_length, seq_length in H. unfold q in *. lia.
Qed.

Lemma agree_coeffs xs l r : NoDup xs ->
  (length l <= length xs)%nat -> (length r <= length xs)%nat ->
  (forall x, In x xs -> pev l x = pev r x) -> spec_same l r.
Proof.
  intros Hd Hl Hr H i.
  pose proof (nodup_length_q xs Hd) as Hq.
  assert (forall i, nth i (psub l r) fzero = fzero) as Hz.
  { apply (pev_zero_coeffs (length xs)); [rewrite psub_length; lia|assumption|].
    intros v. rewrite psub_pev. rewrite (agree_everywhere xs l r) by assumption. ring. }
  specialize (Hz i). change (coeff (psub l r) i = fzero) in Hz.
  unfold psub in Hz. rewrite padd_coeff, pscale_coeff in Hz.
  change (coeff l i = coeff r i). apply fsub_zero. rewrite <- Hz. ring.
Qed.
