(** C23, continued: counting non-zero coefficients, the zero test and the lengths
    of sums and products. *)
From Coq Require Import ZArith Lia Bool List.
From Verif Require Import Base BaseFacts Zmod Fields ModelScalar ProofScalar SpecPoly ModelPoly ProofPoly.
Import ListNotations.
Open Scope Z_scope.

(** Spec: the positions, below the length, of the coefficients that are not zero *)
Definition support (p : list Fq) (s : list nat) : Prop :=
  NoDup s /\ forall i, In i s <-> nth i p fzero <> fzero.

Lemma support_shift p s : support p s -> forall c, (c = fzero -> support (c :: p) (map S s)) /\ (c <> fzero -> support (c :: p) (0%nat :: map S s)).
Proof.
  intros [N H] c.
  assert (NS : NoDup (map S s)) by (apply FinFun.Injective_map_NoDup; [intros a b E; lia|exact N]).
  assert (HS : forall i, In (S i) (map S s) <-> nth i p fzero <> fzero).
  { intros i. rewrite <- H. rewrite in_map_iff. split; [intros (j & E & I); assert (j = i) by lia; congruence|eauto]. }
  assert (Z0 : ~ In 0%nat (map S s)) by (intros I; apply in_map_iff in I; destruct I as (j & E & _); lia).
  split; intros Hc; split.
  - exact NS.
  - intros [|i]; cbn [nth]; [split; [contradiction|congruence]|apply HS].
  - constructor; assumption.
  - intros [|i]; cbn [nth]; [split; [intros _; exact Hc|intros _; left; reflexivity]|].
    rewrite <- HS. split; [intros [E|I]; [lia|exact I]|intros I; right; exact I].
Qed.
Lemma filter_len {A} (f : A -> bool) l : (length (filter f l) <= length l)%nat.
Proof. induction l as [|a l IH]; cbn [filter length]; [lia|]. destruct (f a); cbn [length]; lia. Qed.
Lemma count_exists p : exists s, support p s /\ length s = non_zero_coefficients p.
Proof.
  induction p as [|c p (s & H & L)].
  - exists []. split; [|reflexivity]. split; [constructor|]. intros i. split; [contradiction|]. intros C. apply C. destruct i; reflexivity.
  - unfold non_zero_coefficients in *. pose proof (filter_len (fun c => feqb c fzero) p) as F. cbn [filter length]. destruct (feqb c fzero) eqn:E.
    + apply feqb_eq in E. exists (map S s). split; [apply (support_shift p s H c), E|]. rewrite map_length, L. cbn [length]. lia.
    + apply feqb_neq in E. exists (0%nat :: map S s). split; [apply (support_shift p s H c), E|]. cbn [length]. rewrite map_length, L. lia.
Qed.
Lemma support_unique p s s' : support p s -> support p s' -> length s = length s'.
Proof.
  intros [N H] [N' H']. apply Nat.le_antisymm; apply NoDup_incl_length; try assumption; intros i I; [apply H', H, I|apply H, H', I].
Qed.

Lemma NoDup_map_below {A} (f : nat -> A) n : (forall i j, (i < n)%nat -> (j < n)%nat -> f i = f j -> i = j) -> NoDup (map f (seq 0 n)).
Proof.
  intros H. apply NoDup_nth_error. intros i j Hi E. rewrite map_length, seq_length in Hi.
  rewrite !nth_error_map in E. rewrite (nth_error_nth' (seq 0 n) 0%nat) in E by (rewrite seq_length; exact Hi). rewrite seq_nth in E by exact Hi.
  destruct (Nat.ltb_spec j n) as [Hj|Hj].
  - rewrite (nth_error_nth' (seq 0 n) 0%nat) in E by (rewrite seq_length; exact Hj). rewrite seq_nth in E by exact Hj.
    cbn [option_map Nat.add] in E. injection E as E. exact (H i j Hi Hj E).
  - rewrite (proj2 (nth_error_None (seq 0 n) j)) in E by (rewrite seq_length; exact Hj). discriminate E.
Qed.

(** NonZeroCoefficients counts exactly the non-zero coefficients; it is not the
    number of coefficients up to the highest non-zero one *)
Theorem C23_count_exact : forall p s, support p s -> non_zero_coefficients p = length s.
Proof. intros p s H. destruct (count_exists p) as (s' & H' & L). rewrite <- L. exact (support_unique _ _ _ H' H). Qed.
Theorem C23_count_bounds_degree_refuted :
  ~ (forall p i, (non_zero_coefficients p <= i)%nat -> nth i p fzero = fzero).
Proof.
  intros H. specialize (H [fzero; fzero; fone] 2%nat). apply (f_equal fv) in H; [vm_compute in H; discriminate H|]. vm_compute. lia.
Qed.
Theorem C23_is_zero_exact : forall p,
  (poly_is_zero p = true <-> spec_same p []) /\
  (Z.of_nat (length p) <= q -> (poly_is_zero p = true <-> forall x, spec_eval p x = fzero)).
Proof.
  intros p.
  assert (E : poly_is_zero p = true <-> spec_same p []).
  { destruct (count_exists p) as (s & [N H] & L). unfold poly_is_zero. rewrite Nat.eqb_eq, <- L, length_zero_iff_nil. split.
    - intros -> i. destruct (feqb (nth i p fzero) fzero) eqn:B; [apply feqb_eq in B; rewrite B; destruct i; reflexivity|].
      apply feqb_neq in B. apply H in B. contradiction.
    - intros S. destruct s as [|i s]; [reflexivity|]. exfalso. apply (H i); [left; reflexivity|]. rewrite S. destruct i; reflexivity. }
  split; [exact E|]. intros Lq. rewrite E. split.
  - intros S x. rewrite !pev_spec. rewrite (pev_ext p [] x S). reflexivity.
  - intros Z0. apply (agree_coeffs (map (fun i => of_Z q (Z.of_nat i)) (seq 0 (length p)))).
    + apply NoDup_map_below. intros i j Hi Hj Eq. apply (f_equal fv) in Eq. rewrite !fv_of_Z, !Z.mod_small in Eq by lia. lia.
    + rewrite map_length, seq_length. lia.
    + cbn [length]. lia.
    + intros x _. rewrite <- pev_spec, Z0. reflexivity.
Qed.
Theorem C23_lengths : forall l r,
  length (poly_add l r) = Nat.max (length l) (length r) /\ length (poly_mul l r) = (length l + length r - 1)%nat.
Proof. intros l r. split; [unfold poly_add; rewrite map_length, seq_length; reflexivity|apply poly_mul_length]. Qed.
Print Assumptions C23_count_exact.
Print Assumptions C23_count_bounds_degree_refuted.
Print Assumptions C23_is_zero_exact.
Print Assumptions C23_lengths.
Example C23_ex_support : support [of_Z q 0; of_Z q 7; of_Z q 0; of_Z q 9] [3%nat; 1%nat].
Proof.
  split; [repeat constructor; cbn; lia|]. intros i. split.
  - intros [<-|[<-|[]]] C; apply (f_equal fv) in C; vm_compute in C; discriminate C.
  - intros N. destruct i as [|[|[|[|i]]]]; cbn [In]; auto; exfalso; apply N; [reflexivity..|]. destruct i; reflexivity.
Qed.
Example C23_ex_zero : poly_is_zero [of_Z q 0; of_Z q 0] = true /\ poly_is_zero [of_Z q 0; of_Z q 5] = false.
Proof. split; vm_compute; reflexivity. Qed.
