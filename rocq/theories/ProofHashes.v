(** The concrete hash functions and stream cipher have outputs of the right
    shape. *)
From Coq Require Import ZArith Lia List Bool.
From Verif Require Import Base BaseFacts ModelXmd ModelHashes.
Import ListNotations.
Open Scope Z_scope.

Section Sha.
Context (P : sha_par).
Lemma sha_rounds_length ks : forall win s, length s = 8%nat -> length (sha_rounds P ks win s) = 8%nat.
Proof.
  induction ks as [|k ks IH]; intros win s H; [exact H|].
  do 8 (destruct s as [|? s]; [discriminate H|]). destruct s; [|discriminate H].
  cbn [sha_rounds]. cbv zeta. apply IH. reflexivity.
Qed.
Lemma add_words_length a : forall b, length a = length b -> length (add_words P a b) = length a.
Proof.
  induction a as [|x a IH]; intros [|y b] H; cbn [add_words length] in *; try lia. rewrite IH; lia.
Qed.
Lemma sha_block_length b s : length s = 8%nat -> length (sha_block P b s) = 8%nat.
Proof. intros H. unfold sha_block. rewrite add_words_length; [exact H|]. rewrite sha_rounds_length; assumption. Qed.
Lemma sha_blocks_length n : forall b s, length s = 8%nat -> length (sha_blocks P n b s) = 8%nat.
Proof. induction n as [|n IH]; intros b s H; [exact H|]. cbn [sha_blocks]. apply IH, sha_block_length, H. Qed.
Lemma concat_be_length n l : length (concat (map (be_bytes n) l)) = (n * length l)%nat.
Proof.
  induction l as [|x l IH]; cbn [map concat length]; [lia|]. rewrite app_length, be_bytes_length, IH. lia.
Qed.
Lemma concat_be_ok n l : bytes_ok (concat (map (be_bytes n) l)).
Proof. induction l as [|x l IH]; cbn [map concat]; [constructor|]. apply Forall_app. split; [apply be_bytes_ok|exact IH]. Qed.
Lemma sha_digest_length m : length (sp_h P) = 8%nat -> length (sha_digest P m) = (sp_bytes P * 8)%nat.
Proof. intros H. unfold sha_digest. cbv zeta. rewrite concat_be_length, sha_blocks_length by exact H. reflexivity. Qed.
Lemma sha_digest_ok m : bytes_ok (sha_digest P m).
Proof. apply concat_be_ok. Qed.
End Sha.

Lemma chacha_block_ok key n : bytes_ok (chacha_block key n).
Proof.
  unfold chacha_block. cbv zeta. set (l := add_state _ _). clearbody l.
  induction l as [|x l IH]; cbn [map concat]; [constructor|]. apply Forall_app. split; [|exact IH].
  unfold le_bytes. apply Forall_rev, be_bytes_ok.
Qed.
Lemma realX_ok fuel : oracles_ok (realX fuel).
Proof.
  split; cbn [sha256 hmac512 keystream realX]; intros.
  - apply (sha_digest_length par256). reflexivity.
  - apply sha_digest_ok.
  - apply (sha_digest_length par512). reflexivity.
  - apply sha_digest_ok.
  - unfold real_keystream. set (i' := (i mod 64)%nat). pose proof (chacha_block_ok k (Z.of_nat (i / 64))) as B.
    destruct (Nat.lt_ge_cases i' (length (chacha_block k (Z.of_nat (i / 64))))) as [H|H].
    + apply (proj1 (Forall_forall _ _) B). apply nth_In. exact H.
    + rewrite nth_overflow by exact H. unfold byte_ok. lia.
Qed.
