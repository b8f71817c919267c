(** The random number stream and rejection sampling. *)
From Coq Require Import ZArith Lia Bool List.
From Verif Require Import Base BaseFacts Zmod Fields ModelScalar ProofScalar ModelXmd ModelRo.
Import ListNotations.
Open Scope Z_scope.

Section S.
Context {X : Oracles}.

Lemma ks_bytes_length r n : length (ks_bytes r n) = n.
Proof. unfold ks_bytes. rewrite map_length, seq_length. reflexivity. Qed.
Lemma ks_bytes_app r n m : ks_bytes r (n + m) = ks_bytes r n ++ ks_bytes (rng_skip r n) m.
Proof. unfold ks_bytes. rewrite seq_app, map_app. reflexivity. Qed.
Lemma rng_skip_skip r n m : rng_skip (rng_skip r n) m = rng_skip r (n + m).
Proof. unfold rng_skip. cbn. f_equal. lia. Qed.
Lemma xor_bytes_app a1 a2 b1 b2 : length a1 = length b1 -> xor_bytes (a1 ++ a2) (b1 ++ b2) = xor_bytes a1 b1 ++ xor_bytes a2 b2.
Proof.
  revert b1. induction a1 as [|x a1 IH]; intros [|y b1] H; cbn [length] in H; try lia; [reflexivity|].
  cbn [app xor_bytes]. rewrite IH by lia. reflexivity.
Qed.
Lemma xor_bytes_zero n b : length b = n -> xor_bytes (repeat 0 n) b = b.
Proof.
  revert b. induction n as [|n IH]; intros [|y b] H; cbn [length] in H; try lia; [reflexivity|].
  cbn [repeat xor_bytes]. rewrite Z.lxor_0_l, IH by lia. reflexivity.
Qed.

Lemma fill_split r b1 b2 : fill_uint8 r (b1 ++ b2) =
  let '(o1, r1) := fill_uint8 r b1 in let '(o2, r2) := fill_uint8 r1 b2 in (o1 ++ o2, r2).
Proof.
  unfold fill_uint8. rewrite app_length, ks_bytes_app, xor_bytes_app, rng_skip_skip by (rewrite ks_bytes_length; reflexivity).
  reflexivity.
Qed.
Lemma fill_zero r n : fill_uint8 r (repeat 0 n) = (ks_bytes r n, rng_skip r n).
Proof. unfold fill_uint8. rewrite repeat_length, xor_bytes_zero by apply ks_bytes_length. reflexivity. Qed.
Lemma uint32_spec r : rng_uint32 r = (be_val (ks_bytes r 4), rng_skip r 4).
Proof. unfold rng_uint32. rewrite fill_zero. reflexivity. Qed.
Lemma uint64_spec r : rng_uint64 r = (be_val (ks_bytes r 8), rng_skip r 8).
Proof. unfold rng_uint64. rewrite fill_zero. reflexivity. Qed.

(** exclusive or of the next [k] blocks of 32 bytes *)
Definition blocks_xor (r : rng) (k : nat) : bytes :=
  map (fun i => fold_right Z.lxor 0 (map (fun j => keystream (rng_key r) (rng_pos r + 32 * j + i)) (seq 0 k))) (seq 0 32).

Lemma blocks_xor_length r k : length (blocks_xor r k) = 32%nat.
Proof. unfold blocks_xor. rewrite map_length. reflexivity. Qed.

Lemma fold_lxor_snoc l a : fold_right Z.lxor 0 (l ++ [a]) = Z.lxor (fold_right Z.lxor 0 l) a.
Proof.
  induction l as [|x l IH]; cbn [app fold_right]; [rewrite Z.lxor_0_r, Z.lxor_0_l; reflexivity|].
  rewrite IH, Z.lxor_assoc. reflexivity.
Qed.
Lemma xor_bytes_map {A} (f g : A -> Z) l : xor_bytes (map f l) (map g l) = map (fun a => Z.lxor (f a) (g a)) l.
Proof. induction l as [|a l IH]; [reflexivity|]. cbn [map xor_bytes]. rewrite IH. reflexivity. Qed.
Lemma seq_map_add k n : seq k n = map (fun i => (k + i)%nat) (seq 0 n).
Proof.
  induction k as [|k IH]; [symmetry; apply map_id|]. rewrite <- seq_shift, IH, map_map. reflexivity.
Qed.
Lemma blocks_xor_succ r k : xor_bytes (blocks_xor r k) (ks_bytes (rng_skip r (32 * k)) 32) = blocks_xor r (S k).
Proof.
  unfold blocks_xor, ks_bytes. cbn [rng_key rng_pos rng_skip]. rewrite (seq_map_add (rng_pos r + 32 * k) 32), map_map, xor_bytes_map.
  apply map_ext. intros i. rewrite seq_S, map_app. cbn [map Nat.add]. rewrite fold_lxor_snoc. reflexivity.
Qed.
Lemma blocks_xor_0 r : blocks_xor r 0 = repeat 0 32.
Proof. reflexivity. Qed.

Lemma bx_ok (HX : oracles_ok X) r k : bytes_ok (blocks_xor r k).
Proof.
  unfold blocks_xor, bytes_ok. apply Forall_forall. intros x Hx. apply in_map_iff in Hx. destruct Hx as (i & <- & _).
  generalize (seq 0 k). intros l. induction l as [|j l IH]; cbn [map fold_right]; [split; lia|].
  apply xor_byte_ok; [apply HX|exact IH].
Qed.

Lemma random_loop_spec r : forall fuel k,
  (exists n s, (n < fuel)%nat /\ random_loop fuel (rng_skip r (32 * k)) (blocks_xor r k) = Ok (s, rng_skip r (32 * (k + n + 1))) /\
     be_val (blocks_xor r (k + n + 1)) < q /\ s = of_Z q (be_val (blocks_xor r (k + n + 1))) /\
     forall j, (j < n)%nat -> q <= be_val (blocks_xor r (k + j + 1))) \/
  (random_loop fuel (rng_skip r (32 * k)) (blocks_xor r k) = Diverge /\
     forall j, (j < fuel)%nat -> q <= be_val (blocks_xor r (k + j + 1))).
Proof.
  induction fuel as [|fuel IH]; intros k.
  - right. split; [reflexivity|lia].
  - cbn [random_loop]. unfold fill_uint8. rewrite blocks_xor_length, blocks_xor_succ.
    set (b := blocks_xor r (S k)).
    assert (Hb : length b = 32%nat) by apply blocks_xor_length.
    assert (E : scalar_deserialize 1 b = if be_val b <? q then Ok (Some (of_Z q (be_val b))) else Err).
    { unfold scalar_deserialize. destruct b as [|b0 b'] eqn:Eb; [discriminate|]. rewrite <- Eb in *.
      change (1 =? 1) with true. cbv iota. rewrite k256_deserialize_32 by assumption.
      destruct (be_val b <? q); reflexivity. }
    rewrite E. rewrite rng_skip_skip. replace (32 * k + 32)%nat with (32 * S k)%nat by lia.
    destruct (Z.ltb_spec (be_val b) q) as [Hq|Hq].
    + left. exists 0%nat, (of_Z q (be_val b)). split; [lia|].
      replace (k + 0 + 1)%nat with (S k) by lia. fold b.
      split; [reflexivity|]. split; [assumption|]. split; [reflexivity|]. intros j Hj. lia.
    + destruct (IH (S k)) as [(n & s & Hn & H1 & H2 & H3 & H4)|[H1 H2]].
      * left. exists (S n), s. split; [lia|].
        replace (k + S n + 1)%nat with (S k + n + 1)%nat by lia.
        split; [exact H1|]. split; [exact H2|]. split; [exact H3|].
        intros [|j] Hj; [replace (k + 0 + 1)%nat with (S k) by lia; exact Hq|].
        replace (k + S j + 1)%nat with (S k + j + 1)%nat by lia. apply H4. lia.
      * right. split; [exact H1|]. intros [|j] Hj; [replace (k + 0 + 1)%nat with (S k) by lia; exact Hq|].
        replace (k + S j + 1)%nat with (S k + j + 1)%nat by lia. apply H2. lia.
Qed.

Lemma random_scalar_spec (HX : oracles_ok X) r :
  (exists n s, (1 <= n <= rand_fuel)%nat /\ random_scalar r = Ok (s, rng_skip r (32 * n)) /\
     scalar_serialize s = blocks_xor r n /\ be_val (blocks_xor r n) < q /\
     forall j, (1 <= j < n)%nat -> q <= be_val (blocks_xor r j)) \/
  (random_scalar r = Diverge /\ forall j, (1 <= j <= rand_fuel)%nat -> q <= be_val (blocks_xor r j)).
Proof.
  assert (R0 : rng_skip r (32 * 0) = r) by (destruct r; unfold rng_skip; cbn; f_equal; lia).
  destruct (random_loop_spec r rand_fuel 0) as [(n & s & Hn & H1 & H2 & H3 & H4)|[H1 H2]];
    rewrite R0, blocks_xor_0 in H1.
  - left. exists (n + 1)%nat, s. cbn [Nat.add] in *. split; [lia|]. split; [exact H1|]. split; [|split; [exact H2|]].
    + subst s. rewrite scalar_serialize_be, fv_of_Z.
      pose proof (bx_ok HX r (n + 1)) as B. pose proof (be_val_range _ B). rewrite Z.mod_small by lia.
      rewrite <- (blocks_xor_length r (n + 1)) at 1. apply be_bytes_be_val, B.
    + intros j Hj. replace j with (j - 1 + 1)%nat by lia. apply H4. lia.
  - right. split; [exact H1|]. intros j Hj. cbn [Nat.add] in H2. replace j with (j - 1 + 1)%nat by lia. apply H2. lia.
Qed.
Lemma random_scalar_cases r : (exists s r', random_scalar r = Ok (s, r')) \/ random_scalar r = Diverge.
Proof.
  assert (R0 : rng_skip r (32 * 0) = r) by (destruct r; unfold rng_skip; cbn; f_equal; lia).
  destruct (random_loop_spec r rand_fuel 0) as [(n & s & Hn & H1 & H2 & H3 & H4)|[H1 H2]];
    rewrite R0, blocks_xor_0 in H1; [left|right]; eauto.
Qed.
End S.
