(** Primitives with short outputs, so that examples evaluate quickly (also in
    coqchk, which has no virtual machine). *)
From Coq Require Import ZArith Lia Bool String List.
From Verif Require Import Base BaseFacts ModelXmd.
Import ListNotations.
Open Scope Z_scope.

(** test value, not code of /repo *)
#[local] Instance shortX : Oracles := {
  sha256 m := let s := fold_left Z.add m (blen m) in repeat 0 30 ++ [s / 256 mod 256; s mod 256];
  hmac512 k m := let s := fold_left Z.add (k ++ m) 5 in repeat 0 31 ++ [s mod 256] ++ repeat 0 30 ++ [3; s mod 200];
  keystream k i := if Nat.eqb (i mod 32) 31 then (fold_left Z.add k 1 + Z.of_nat i) mod 256 else 0;
  rand_fuel := 4
}.
Lemma shortX_ok : oracles_ok shortX.
Proof.
  assert (B0 : forall n, bytes_ok (repeat 0 n)) by (intros n; apply Forall_forall; intros x Hx; apply repeat_spec in Hx; subst x; unfold byte_ok; lia).
  assert (M : forall a m, 0 < m <= 256 -> byte_ok (a mod m)) by (intros a m H; unfold byte_ok; pose proof (Z.mod_pos_bound a m); lia).
  split; intros; cbn [sha256 hmac512 keystream shortX].
  - rewrite app_length, repeat_length. reflexivity.
  - apply Forall_app. split; [apply B0|]. repeat constructor; apply M; lia.
  - rewrite !app_length, !repeat_length. reflexivity.
  - apply Forall_app. split; [apply B0|]. apply Forall_app. split; [repeat constructor; apply M; lia|]. apply Forall_app. split; [apply B0|].
    constructor; [unfold byte_ok; lia|constructor; [apply M; lia|constructor]].
  - destruct (Nat.eqb _ _); [apply M; lia|unfold byte_ok; lia].
Qed.
