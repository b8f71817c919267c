(** The scalar field (order of the secp256k1 group) and the coordinate field. *)
From Coq Require Import ZArith Znumtheory Lia List Bool Ring Field.
From Verif Require Import Zmod PrimeCerts.
Open Scope Z_scope.

(** curve/k256_scalar.go:13 GroupOrder *)
Definition q : Z := 0xFFFFFFFFFFFFFFFFFFFFFFFFFFFFFFFEBAAEDCE6AF48A03BBFD25E8CD0364141.
(** the secp256k1 coordinate field, 2^256 - 2^32 - 977 (kryptology fp package) *)
Definition p : Z := 0xFFFFFFFFFFFFFFFFFFFFFFFFFFFFFFFFFFFFFFFFFFFFFFFFFFFFFFFEFFFFFC2F.

Notation Fq := (fe q).
Notation Fp := (fe p).

Lemma q_prime : prime q.
Proof. exact prime_q. Qed.
Lemma p_prime : prime p.
Proof. exact prime_p. Qed.

Lemma Fq_field : @field_theory Fq fzero fone fadd fmul fsub fneg fdiv finv eq.
Proof. exact (f_field_theory q_prime). Qed.
Lemma Fp_field : @field_theory Fp fzero fone fadd fmul fsub fneg fdiv finv eq.
Proof. exact (f_field_theory p_prime). Qed.

Declare Scope fe_scope.
Delimit Scope fe_scope with fe.
Notation "a + b" := (fadd a b) : fe_scope.
Notation "a - b" := (fsub a b) : fe_scope.
Notation "a * b" := (fmul a b) : fe_scope.
Notation "a / b" := (fdiv a b) : fe_scope.
Notation "- a" := (fneg a) : fe_scope.
Notation "0" := fzero : fe_scope.
Notation "1" := fone : fe_scope.

Lemma q_bounds : 2^255 < q < 2^256. Proof. unfold q. lia. Qed.
Lemma p_bounds : 2^255 < p < 2^256. Proof. unfold p. lia. Qed.
