(** C110: the primitives written out in ModelHashes are the ones of the standards *)
From Coq Require Import ZArith Lia String List Bool.
From Verif Require Import Base BaseFacts ModelXmd ModelHashes SpecHash ProofHashWords ProofHashes ProofHashSha ProofHashChacha.
Import ListNotations.
Local Open Scope Z_scope.

(** SHA-256 and SHA-512: a digest is the one of FIPS 180-4 exactly if it is the one computed *)
Theorem C110_sha : forall m d, bytes_ok m ->
  (8 * blen m < 2 ^ 64 -> (sha_is fips256 m d <-> d = real_sha256 m)) /\
  (8 * blen m < 2 ^ 128 -> (sha_is fips512 m d <-> d = real_sha512 m)).
Proof.
  intros m d Hm. split; intros Hl.
  - pose proof (sha_exists par256 fips256 agree256 m Hm Hl) as E. split; [|intros ->; exact E].
    intros H. exact (sha_unique fips256 (fb_pos par256 fips256 agree256) m d _ H E).
  - pose proof (sha_exists par512 fips512 agree512 m Hm Hl) as E. split; [|intros ->; exact E].
    intros H. exact (sha_unique fips512 (fb_pos par512 fips512 agree512) m d _ H E).
Qed.
Print Assumptions C110_sha.

Lemma sha512_iff m d : bytes_ok m -> 8 * blen m < 2 ^ 128 -> (sha_is fips512 m d <-> d = real_sha512 m).
Proof. intros H. apply (C110_sha m d H). Qed.
Lemma xor_ok p k : 0 <= p < 256 -> bytes_ok k -> bytes_ok (map (fun b => Z.lxor b p) k).
Proof.
  intros Hp H. apply Forall_forall. intros x I. apply in_map_iff in I. destruct I as (b & <- & I).
  pose proof (proj1 (Forall_forall _ _) H b I) as Hb. unfold byte_ok in *. split; [apply Z.lxor_nonneg; lia|].
  destruct (Z.eq_dec (Z.lxor b p) 0) as [->|N]; [lia|].
  assert (0 <= Z.lxor b p) by (apply Z.lxor_nonneg; lia). change 256 with (2 ^ 8). apply Z.log2_lt_pow2; [lia|].
  pose proof (Z.log2_lxor b p ltac:(lia) ltac:(lia)).
  assert (Z.log2 b <= 7 /\ Z.log2 p <= 7) as [? ?] by (split; [change 7 with (Z.log2 255)|change 7 with (Z.log2 255)]; apply Z.log2_le_mono; lia). lia.
Qed.
(** HMAC with SHA-512 *)
Theorem C110_hmac : forall key m d, bytes_ok key -> bytes_ok m -> 8 * blen key < 2 ^ 128 -> 8 * (blen m + 128) < 2 ^ 128 ->
  (hmac_is (sha_is fips512) 128 key m d <-> d = real_hmac512 key m).
Proof.
  intros key m d Hk Hm Lk Lm.
  set (k0 := if 128 <? blen key then real_sha512 key else key). set (k1 := k0 ++ repeat 0 (128 - length k0)).
  assert (B0 : bytes_ok k0) by (unfold k0; destruct (_ <? _); [apply (sha_digest_ok par512)|exact Hk]).
  assert (L0 : (length k0 <= 128)%nat).
  { unfold k0. destruct (Z.ltb_spec 128 (blen key)) as [L|L]; [|unfold blen in L; lia].
    unfold real_sha512. rewrite (sha_digest_length par512) by reflexivity. cbn. lia. }
  assert (L1 : length k1 = 128%nat) by (unfold k1; rewrite app_length, repeat_length; lia).
  assert (B1 : bytes_ok k1).
  { unfold k1. apply Forall_app. split; [exact B0|]. apply Forall_forall. intros x I. apply repeat_spec in I. subst. unfold byte_ok. lia. }
  assert (N1 : forall i, nth i k1 0 = nth i k0 0).
  { intros i. unfold k1. destruct (Nat.lt_ge_cases i (length k0)) as [A|A]; [apply app_nth1, A|].
    rewrite app_nth2 by exact A. rewrite nth_repeat. symmetry. apply nth_overflow, A. }
  assert (Cm : forall p l, map (fun b => Z.lxor b p) l = map (Z.lxor p) l) by (intros p l; apply map_ext; intros; apply Z.lxor_comm).
  assert (Bl : forall p x, blen (map (fun b => Z.lxor b p) k1 ++ x) = blen x + 128).
  { intros p x. unfold blen. rewrite app_length, map_length, L1. lia. }
  assert (Bi : bytes_ok (map (fun b => Z.lxor b 0x36) k1 ++ m)) by (apply Forall_app; split; [apply xor_ok; [lia|exact B1]|exact Hm]).
  set (inner := real_sha512 (map (fun b => Z.lxor b 0x36) k1 ++ m)).
  assert (Bo : bytes_ok (map (fun b => Z.lxor b 0x5c) k1 ++ inner)) by (apply Forall_app; split; [apply xor_ok; [lia|exact B1]|apply (sha_digest_ok par512)]).
  assert (Lo : 8 * blen (map (fun b => Z.lxor b 0x5c) k1 ++ inner) < 2 ^ 128).
  { rewrite Bl. unfold inner, blen, real_sha512. rewrite (sha_digest_length par512) by reflexivity. reflexivity. }
  assert (R : real_hmac512 key m = real_sha512 (map (fun b => Z.lxor b 0x5c) k1 ++ inner)).
  { unfold inner. rewrite !Cm. reflexivity. }
  rewrite R. split.
  - intros (k & k' & i & C & Lk' & Nk & I & D).
    assert (k = k0) as ->.
    { unfold k0. destruct C as [[L ->]|[L C]]; [rewrite (proj2 (Z.ltb_ge _ _)) by (unfold blen; lia); reflexivity|].
      rewrite (proj2 (Z.ltb_lt _ _)) by (unfold blen; lia). apply sha512_iff; assumption. }
    assert (k' = k1) as ->.
    { apply (nth_ext _ _ 0 0); [congruence|]. intros j Hj. rewrite N1. apply Nk. lia. }
    apply sha512_iff in I; [|exact Bi|rewrite Bl; exact Lm]. subst i. apply sha512_iff in D; assumption.
  - intros ->. exists k0, k1, inner. split; [|split; [exact L1|split; [intros; apply N1|split]]].
    + unfold k0. destruct (Z.ltb_spec 128 (blen key)) as [L|L]; [right|left]; (split; [unfold blen in L; lia|]); [apply sha512_iff; auto|reflexivity].
    + apply sha512_iff; [exact Bi|rewrite Bl; exact Lm|reflexivity].
    + apply sha512_iff; [exact Bo|exact Lo|reflexivity].
Qed.
Print Assumptions C110_hmac.
(** ChaCha20 with a nonce of zeros, up to the 2^38 bytes its block counter allows *)
Theorem C110_chacha20 : forall key pos, bytes_ok key -> Z.of_nat pos < 2 ^ 38 -> real_keystream key pos = c_stream key pos.
Proof. exact stream_spec. Qed.
Print Assumptions C110_chacha20.
(** the hypotheses hold for short messages; keys on both sides of the block length *)
Lemma sha256_not_empty m : [] <> real_sha256 m.
Proof.
  intros H. pose proof (sha_digest_length par256 m eq_refl) as Q. change (sha_digest par256 m) with (real_sha256 m) in Q. rewrite <- H in Q. discriminate.
Qed.
Lemma ex_sha m : bytes_ok m -> 8 * blen m < 2 ^ 64 -> sha_is fips256 m (real_sha256 m) /\ ~ sha_is fips256 m [].
Proof.
  intros B L. split; [exact (proj2 (proj1 (C110_sha m _ B) L) eq_refl)|].
  intros H. exact (sha256_not_empty m (proj1 (proj1 (C110_sha m _ B) L) H)).
Qed.
Example C110_ex_sha : sha_is fips256 (str "abc") (real_sha256 (str "abc")) /\ ~ sha_is fips256 (str "abc") [].
Proof. apply ex_sha; [repeat constructor; unfold byte_ok; cbn; lia|reflexivity]. Qed.
Example C110_ex_hmac : forall n, (n = 20 \/ n = 131)%nat ->
  hmac_is (sha_is fips512) 128 (repeat 11 n) (str "Hi There") (real_hmac512 (repeat 11 n) (str "Hi There")).
Proof.
  intros n Hn. refine (proj2 (C110_hmac (repeat 11 n) (str "Hi There") _ _ _ _ _) eq_refl).
  - apply Forall_forall. intros x I. apply repeat_spec in I. subst. unfold byte_ok. lia.
  - repeat constructor; unfold byte_ok; cbn; lia.
  - unfold blen. rewrite repeat_length. destruct Hn as [-> | ->]; reflexivity.
  - reflexivity.
Qed.
Example C110_ex_chacha : real_keystream (repeat 7 32) 100 = c_stream (repeat 7 32) 100.
Proof.
  refine (C110_chacha20 (repeat 7 32) 100 _ _); [|reflexivity].
  apply Forall_forall. intros x I. apply repeat_spec in I. subst. unfold byte_ok. lia.
Qed.
