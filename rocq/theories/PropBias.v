(** C97: how evenly reducing a byte string spreads over the scalars and field elements. *)
From Coq Require Import ZArith Lia Bool List.
From Verif Require Import Base BaseFacts Zmod Fields ModelScalar ProofScalar ModelSecp PropScalar.
Import ListNotations.
Open Scope Z_scope.

(** [l] lists exactly the byte strings of length [n] with property [P] *)
Definition lists_strings (n : nat) (P : bytes -> Prop) (l : list bytes) : Prop :=
  NoDup l /\ forall b, In b l <-> bytes_ok b /\ length b = n /\ P b.

(** the numbers below [N] that leave rest [s], for [0 <= s < m] *)
Definition rests (m N s : Z) : list Z := map (fun i => Z.of_nat i * m + s) (seq 0 (Z.to_nat (N / m + (if s <? N mod m then 1 else 0)))).
Lemma rests_spec m N s x : 0 < m -> 0 <= N -> 0 <= s < m -> In x (rests m N s) <-> 0 <= x < N /\ x mod m = s.
Proof.
  intros Hm HN Hs. unfold rests. rewrite in_map_iff. pose proof (Z.div_mod N m ltac:(lia)) as D. pose proof (Z.mod_pos_bound N m Hm) as B.
  assert (Q : 0 <= N / m) by (apply Z.div_pos; lia). split.
  - intros (i & <- & Hi). apply in_seq in Hi. split.
    + split; [nia|]. destruct (Z.ltb_spec s (N mod m)); [|nia]. assert (Z.of_nat i <= N / m) by lia. nia.
    + rewrite Z.add_comm, Z.mod_add by lia. apply Z.mod_small. lia.
  - intros [Hx E]. pose proof (Z.div_mod x m ltac:(lia)) as Dx. rewrite E in Dx. assert (Qx : 0 <= x / m) by (apply Z.div_pos; lia).
    exists (Z.to_nat (x / m)). split; [rewrite Z2Nat.id by lia; lia|]. apply in_seq.
    destruct (Z.ltb_spec s (N mod m)); [assert (x / m <= N / m) by nia; lia|assert (x / m < N / m) by nia; lia].
Qed.
Lemma rests_nodup m N s : 0 < m -> NoDup (rests m N s).
Proof.
  intros Hm. unfold rests. generalize (Z.to_nat (N / m + (if s <? N mod m then 1 else 0))) as k. intros k.
  apply FinFun.Injective_map_NoDup; [|apply seq_NoDup]. intros i j E. assert (Z.of_nat i * m = Z.of_nat j * m) by lia. apply Z.mul_reg_r in H; lia.
Qed.
Lemma rests_length m N s : 0 < m -> 0 <= N -> Z.of_nat (length (rests m N s)) = N / m + (if s <? N mod m then 1 else 0).
Proof.
  intros Hm HN. unfold rests. rewrite map_length, seq_length. apply Z2Nat.id. pose proof (Z.div_pos N m HN Hm). destruct (s <? N mod m); lia.
Qed.
Lemma strings_with_rest m n s : 0 < m -> 0 <= s < m ->
  exists l, lists_strings n (fun b => be_val b mod m = s) l /\ Z.of_nat (length l) = 256 ^ Z.of_nat n / m + (if s <? 256 ^ Z.of_nat n mod m then 1 else 0).
Proof.
  intros Hm Hs. pose proof (Z.pow_nonneg 256 (Z.of_nat n) ltac:(lia)) as HN. set (N := 256 ^ Z.of_nat n) in *.
  exists (map (be_bytes n) (rests m N s)). split; [split|].
  - pose proof (rests_nodup m N s Hm) as D. assert (R : forall x, In x (rests m N s) -> 0 <= x < N) by (intros x Hx; apply rests_spec in Hx; tauto).
    revert D R. generalize (rests m N s) as l. induction l as [|x l IH]; intros D R; [constructor|]. inversion D as [|? ? Nx D']. subst. cbn [map]. constructor.
    + intros Hx. apply in_map_iff in Hx. destruct Hx as (y & E & Hy). apply be_bytes_inj in E; [subst y; exact (Nx Hy)| |]; apply R; cbn; auto.
    + apply IH; [exact D'|]. intros y Hy. apply R. right. exact Hy.
  - intros b. rewrite in_map_iff. split.
    + intros (x & <- & Hx). apply rests_spec in Hx; [|lia|lia|lia]. destruct Hx as [Hx E]. split; [apply be_bytes_ok|]. split; [apply be_bytes_length|].
      rewrite be_val_be_bytes. fold N. rewrite (Z.mod_small x) by lia. exact E.
    + intros (Hb & L & E). exists (be_val b). split; [rewrite <- L; apply be_bytes_be_val, Hb|]. apply rests_spec; [lia|lia|lia|].
      pose proof (be_val_range b Hb) as R. unfold blen in R. rewrite L in R. fold N in R. auto.
  - rewrite map_length. apply rests_length; assumption.
Qed.

(** C97: of the byte strings of length [n] at most 64, [256^n/q] reduce to any
    given scalar, rounded down or up *)
Theorem C97_scalar_preimages : forall (n : nat) (s : Fq), Z.of_nat n <= 64 ->
  exists l, lists_strings n (fun b => scalar_from_bytes_wide b = Ok s) l /\
    Z.of_nat (length l) = 256 ^ Z.of_nat n / q + (if fv s <? 256 ^ Z.of_nat n mod q then 1 else 0).
Proof.
  intros n s Hn. destruct (strings_with_rest q n (fv s) q_pos (fv_range q s q_pos)) as (l & [D H] & L). exists l. split; [|exact L]. split; [exact D|].
  intros b. rewrite H. split; intros (Hb & Lb & E); (split; [exact Hb|]; split; [exact Lb|]).
  - rewrite C03_wide_reduction. unfold blen. rewrite Lb. destruct (Z.leb_spec (Z.of_nat n) 64); [|lia]. f_equal. apply fe_eq. rewrite fv_of_Z. exact E.
  - symmetry. apply C03_wide_value, E.
Qed.
Print Assumptions C97_scalar_preimages.

(** the 48 bytes that the random oracle reduces (ro/ro.go OutputScalars): the
    counts of any two scalars differ by at most one of more than [2^127] *)
Theorem C97_oracle_scalars_almost_uniform : forall s s' : Fq,
  exists l l', lists_strings 48 (fun b => scalar_from_bytes_wide b = Ok s) l /\ lists_strings 48 (fun b => scalar_from_bytes_wide b = Ok s') l' /\
    2^127 < Z.of_nat (length l) /\ Z.of_nat (length l') <= Z.of_nat (length l) + 1.
Proof.
  intros s s'. destruct (C97_scalar_preimages 48 s ltac:(lia)) as (l & H & L). destruct (C97_scalar_preimages 48 s' ltac:(lia)) as (l' & H' & L').
  exists l, l'. split; [exact H|]. split; [exact H'|]. change (Z.of_nat 48) with 48 in *.
  assert (Q : 2^127 < 256 ^ 48 / q) by (vm_compute; reflexivity).
  destruct (fv s <? 256 ^ 48 mod q), (fv s' <? 256 ^ 48 mod q); lia.
Qed.
Print Assumptions C97_oracle_scalars_almost_uniform.

(** the 32 bytes that key derivation and hash_to_integer reduce: the scalars
    below [2^256 - q] have two preimages, all others one *)
Theorem C97_short_strings : forall s : Fq,
  exists l, lists_strings 32 (fun b => scalar_from_bytes_wide b = Ok s) l /\ length l = if fv s <? 2^256 - q then 2%nat else 1%nat.
Proof.
  intros s. destruct (C97_scalar_preimages 32 s ltac:(lia)) as (l & H & L). exists l. split; [exact H|]. change (Z.of_nat 32) with 32 in L.
  assert (Q : 256 ^ 32 / q = 1) by (vm_compute; reflexivity). assert (R : 256 ^ 32 mod q = 2^256 - q) by (vm_compute; reflexivity).
  rewrite Q, R in L. destruct (fv s <? 2^256 - q); lia.
Qed.
Print Assumptions C97_short_strings.

(** hashing to the curve: the 48 bytes reduced to a coordinate field element *)
Theorem C97_field_almost_uniform : forall x : Fp,
  exists l, lists_strings 48 (fun b => fe_from_bytes_wide b = x) l /\
    Z.of_nat (length l) = 256 ^ 48 / p + (if fv x <? 256 ^ 48 mod p then 1 else 0).
Proof.
  intros x. destruct (strings_with_rest p 48 (fv x) p_pos (fv_range p x p_pos)) as (l & [D H] & L). change (Z.of_nat 48) with 48 in L. exists l. split; [|exact L]. split; [exact D|].
  assert (V : forall b, length b = 48%nat -> fv (fe_from_bytes_wide b) = be_val b mod p).
  { intros b Lb. unfold fe_from_bytes_wide, set_bytes_wide. rewrite fv_of_Z. f_equal. unfold copy_into, reverse_bytes. rewrite firstn_all2 by (rewrite rev_length, Lb; lia).
    rewrite le_val_app, le_val_repeat0, le_val_rev. lia. }
  intros b. rewrite H. split; intros (Hb & Lb & E); (split; [exact Hb|]; split; [exact Lb|]).
  - apply fe_eq. rewrite (V b Lb). exact E.
  - rewrite <- E, (V b Lb). reflexivity.
Qed.
Print Assumptions C97_field_almost_uniform.

(** test values: zero is the reduction of two 32-byte strings *)
Example C97_ex : scalar_from_bytes_wide (repeat 0 32) = Ok fzero /\ scalar_from_bytes_wide (be_bytes 32 q) = Ok fzero /\ repeat 0 32 <> be_bytes 32 q.
Proof.
  rewrite !C03_wide_reduction. split; [|split].
  - change (blen (repeat 0 32) <=? 64) with true. cbv iota. f_equal.
  - unfold blen. rewrite be_bytes_length. change (Z.of_nat 32 <=? 64) with true. cbv iota. f_equal. apply fe_eq. rewrite fv_of_Z, be_val_be_bytes. vm_compute. reflexivity.
  - intros E. apply (f_equal be_val) in E. rewrite be_val_be_bytes in E. vm_compute in E. discriminate E.
Qed.
