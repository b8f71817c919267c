(** Properties C34 and C35. *)
From Coq Require Import ZArith Lia Bool String List.
From Verif Require Import Base Zmod Fields ModelScalar ModelXmd ModelRo ModelPoly ModelGroup GroupFacts ModelCommit ModelZk ModelMega
  ProofMega.
From Verif Require Import Toy.
Import ListNotations.
Open Scope Z_scope.

(** C34 *)
Theorem C34_single_roundtrip : forall (X : Oracles) (HX : oracles_ok X) (GO : Grp) (GL : GrpLaws GO) seed pl rc dealer ad m,
  encrypt_single seed pl rc dealer ad = Ok m ->
  m_check_validity m (Z.of_nat (length rc)) ad dealer = Ok tt /\
  forall i sk pt, nth_error rc i = Some (smul sk genG) -> nth_error pl i = Some pt ->
    m_decrypt m ad dealer (Z.of_nat i) sk (smul sk genG) = Ok (OSimple pt).
Proof.
  intros X HX GO GL seed pl rc dealer ad m H. split; [exact (encrypt_single_valid HX _ _ _ _ _ _ H)|].
  intros i sk pt. exact (decrypt_single_honest HX _ _ _ _ _ _ _ _ _ H).
Qed.
Theorem C34_pair_roundtrip : forall (X : Oracles) (HX : oracles_ok X) (GO : Grp) (GL : GrpLaws GO) seed pl rc dealer ad m,
  encrypt_pair seed pl rc dealer ad = Ok m ->
  m_check_validity m (Z.of_nat (length rc)) ad dealer = Ok tt /\
  forall i sk v w, nth_error rc i = Some (smul sk genG) -> nth_error pl i = Some (v, w) ->
    m_decrypt m ad dealer (Z.of_nat i) sk (smul sk genG) = Ok (OPedersen v w).
Proof.
  intros X HX GO GL seed pl rc dealer ad m H. split; [exact (encrypt_pair_valid HX _ _ _ _ _ _ H)|].
  intros i sk v w A B. exact (decrypt_pair_honest HX _ _ _ _ _ _ _ _ _ H A B).
Qed.
Print Assumptions C34_single_roundtrip.
Print Assumptions C34_pair_roundtrip.
Example C34_ex : is_ok (encrypt_single (repeat 9 32) [of_Z q 5; of_Z q 6] [smul (of_Z q 11) genG; smul (of_Z q 12) genG] 3 (str "ad")) = true
  /\ is_ok (encrypt_pair (repeat 9 32) [(of_Z q 5, of_Z q 6)] [smul (of_Z q 11) genG] 3 (str "ad")) = true.
Proof. split; vm_compute; reflexivity. Qed.

(** C35.  Encryption: error exactly for mismatched or empty input, otherwise it
    succeeds unless the rejection sampler of a random scalar does not stop. *)
Theorem C35_encrypt_errors : forall (X : Oracles) (HX : oracles_ok X) (GO : Grp) (GL : GrpLaws GO) seed rc dealer ad,
  (forall pl, encrypt_single seed pl rc dealer ad = Err <-> length pl <> length rc \/ length rc = 0%nat) /\
  (forall pl, encrypt_single seed pl rc dealer ad <> Panic) /\
  (forall pl, encrypt_pair seed pl rc dealer ad = Err <-> length pl <> length rc \/ length rc = 0%nat) /\
  (forall pl, encrypt_pair seed pl rc dealer ad <> Panic).
Proof.
  intros X HX GO GL seed rc dealer ad.
  assert (N : forall A (pl : list A), length pl <> length rc \/ length rc = 0%nat -> length pl <> length rc \/ pl = []).
  { intros A pl [H|H]; [auto|]. destruct pl; [auto|left; cbn; lia]. }
  assert (D : forall A (pl : list A), (length pl <> length rc \/ pl = []) \/ (length pl = length rc /\ pl <> [])).
  { intros A pl. destruct (Nat.eq_dec (length pl) (length rc)); [|auto]. destruct pl; [auto|right; split; [assumption|discriminate]]. }
  repeat split; intros.
  - destruct (D _ pl) as [[|]|[L Hn]]; [auto|subst; destruct rc; auto; cbn; auto|exfalso].
    destruct (encrypt_single_cases HX seed pl rc dealer ad L Hn) as [[m E]|E]; congruence.
  - apply encrypt_single_err, N. assumption.
  - destruct (D _ pl) as [E|[L Hn]].
    + rewrite encrypt_single_err by assumption. discriminate.
    + destruct (encrypt_single_cases HX seed pl rc dealer ad L Hn) as [[m E]|E]; congruence.
  - destruct (D _ pl) as [[|]|[L Hn]]; [auto|subst; destruct rc; auto; cbn; auto|exfalso].
    destruct (encrypt_pair_cases HX seed pl rc dealer ad L Hn) as [[m E]|E]; congruence.
  - apply encrypt_pair_err, N. assumption.
  - destruct (D _ pl) as [E|[L Hn]].
    + rewrite encrypt_pair_err by assumption. discriminate.
    + destruct (encrypt_pair_cases HX seed pl rc dealer ad L Hn) as [[m E]|E]; congruence.
Qed.
(** Decryption of any ciphertext with [n] entries, whatever the key and index *)
Theorem C35_decrypt_outcomes : forall (X : Oracles) (HX : oracles_ok X) (GO : Grp) (GL : GrpLaws GO) m n ad dealer i sk pk,
  m_recipients m = Ok n ->
  (m_verify_pop m ad dealer = Err /\ m_decrypt m ad dealer i sk pk = Err) \/
  (m_verify_pop m ad dealer = Ok tt /\
     (n <= i -> m_decrypt m ad dealer i sk pk = Err) /\
     (i < 0 -> m_decrypt m ad dealer i sk pk = Panic) /\
     (0 <= i < n -> exists o, m_decrypt m ad dealer i sk pk = Ok o)).
Proof.
  intros X HX GO GL m n ad dealer i sk pk R.
  destruct (m_decrypt_outcomes HX m n ad dealer i sk pk R) as [A B].
  destruct (m_verify_pop_cases HX m ad dealer) as [V|V].
  - destruct m; discriminate.
  - right. destruct (B V) as (C & D & E). split; [exact V|]. split; [exact C|]. split; [exact D|].
    intros H. destruct (E H) as (o & Eo & _). eauto.
  - left. auto.
Qed.
Print Assumptions C35_encrypt_errors.
Print Assumptions C35_decrypt_outcomes.
(** an encryption for one recipient, asked for index 1 *)
Example C35_ex : match encrypt_single (repeat 9 32) [of_Z q 5] [smul (of_Z q 11) genG] 3 (str "ad") with
  | Ok m => match m_recipients m, m_decrypt m (str "ad") 3 1 (of_Z q 11) (smul (of_Z q 11) genG) with Ok 1, Err => true | _, _ => false end
  | _ => false end = true.
Proof. vm_compute. reflexivity. Qed.
