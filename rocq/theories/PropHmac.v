(** C79: the message authentication code behind key derivation, byte by byte. *)
From Coq Require Import ZArith Lia Bool List.
From Verif Require Import Base BaseFacts ModelHashes ProofHashes.
Import ListNotations.
Open Scope Z_scope.

(** Spec, RFC 2104 section 2: a block of 128 bytes, byte [i] of which is byte [i] of
    the key (0 behind its end) combined with the pad *)
Definition key_block (key : bytes) (pad : Z) (b : bytes) : Prop :=
  length b = 128%nat /\ forall i, (i < 128)%nat -> nth i b 0 = Z.lxor (nth i key 0) pad.

Lemma nth_zeros l n i : nth i (l ++ repeat 0 n) 0 = nth i l 0.
Proof.
  destruct (Nat.lt_ge_cases i (length l)) as [H|H]; [now rewrite app_nth1|].
  rewrite app_nth2, nth_repeat by exact H. now rewrite nth_overflow.
Qed.
Lemma block_exists key pad : (length key <= 128)%nat -> key_block key pad (map (Z.lxor pad) (key ++ repeat 0 (128 - length key))).
Proof.
  intros H. split; [rewrite map_length, app_length, repeat_length; lia|]. intros i Hi.
  rewrite (nth_indep _ 0 (Z.lxor pad 0)) by (rewrite map_length, app_length, repeat_length; lia).
  rewrite map_nth, nth_zeros. apply Z.lxor_comm.
Qed.
Lemma block_unique key key' pad b b' : (forall i, nth i key 0 = nth i key' 0) -> key_block key pad b -> key_block key' pad b' -> b = b'.
Proof.
  intros K [L N] [L' N']. apply (nth_ext _ _ 0 0); [congruence|]. intros i Hi. rewrite N, N', K by lia. reflexivity.
Qed.
Lemma sha512_length m : length (real_sha512 m) = 64%nat.
Proof. unfold real_sha512. rewrite sha_digest_length by reflexivity. reflexivity. Qed.

(** A key of at most 128 bytes is used as it is, a longer one through its digest;
    the inner pad is 0x36 and the outer pad 0x5c. *)
Theorem C79_hmac : forall key m inner outer,
  ((length key <= 128)%nat -> key_block key 0x36 inner -> key_block key 0x5c outer ->
     real_hmac512 key m = real_sha512 (outer ++ real_sha512 (inner ++ m))) /\
  ((128 < length key)%nat -> real_hmac512 key m = real_hmac512 (real_sha512 key) m).
Proof.
  intros key m inner outer. split.
  - intros L I O. unfold real_hmac512, blen. destruct (Z.ltb_spec 128 (Z.of_nat (length key))) as [H|_]; [lia|].
    rewrite (block_unique key key _ _ _ (fun _ => eq_refl) I (block_exists key 54 L)), (block_unique key key _ _ _ (fun _ => eq_refl) O (block_exists key 92 L)). reflexivity.
  - intros L. unfold real_hmac512, blen. rewrite sha512_length. destruct (Z.ltb_spec 128 (Z.of_nat (length key))) as [_|H]; [|lia]. reflexivity.
Qed.
Print Assumptions C79_hmac.

(** Zeros at the end of a key do not count, so the all-zero chain key that
    derivation starts from acts as an empty key. *)
Theorem C79_hmac_ignores_trailing_zeros : forall key n m, (length key + n <= 128)%nat ->
  real_hmac512 (key ++ repeat 0 n) m = real_hmac512 key m.
Proof.
  intros key n m L.
  assert (L' : (length (key ++ repeat 0%Z n) <= 128)%nat) by (rewrite app_length, repeat_length; lia).
  assert (B : forall pad, key_block (key ++ repeat 0 n) pad (map (Z.lxor pad) (key ++ repeat 0 (128 - length key)))).
  { intros pad. destruct (block_exists key pad ltac:(lia)) as [A N]. split; [exact A|]. intros i Hi. rewrite nth_zeros. apply N, Hi. }
  rewrite (proj1 (C79_hmac (key ++ repeat 0 n) m _ _) L' (B 54) (B 92)).
  symmetry. apply (proj1 (C79_hmac key m _ _)); [lia|apply block_exists; lia|apply block_exists; lia].
Qed.
Print Assumptions C79_hmac_ignores_trailing_zeros.

(** test values: both kinds of key, and the blocks of a key *)
Example C79_ex_blocks : key_block [1; 2] 0x36 (55 :: 52 :: repeat 54 126) /\ key_block [1; 2] 0x5c (93 :: 94 :: repeat 92 126).
Proof.
  split; (split; [reflexivity|]); intros [|[|i]] H; try reflexivity; cbn [nth].
  - rewrite (nth_indep _ 0 54) by (rewrite repeat_length; lia). rewrite nth_repeat. destruct i; reflexivity.
  - rewrite (nth_indep _ 0 92) by (rewrite repeat_length; lia). rewrite nth_repeat. destruct i; reflexivity.
Qed.
Example C79_ex_lengths : (length (repeat 7 129) > 128)%nat /\ (length [1] + 5 <= 128)%nat.
Proof. cbn. lia. Qed.
