(** Property C13. *)
From Coq Require Import ZArith Lia Bool List String.
From Verif Require Import Base BaseFacts ModelXmd SpecXmd ProofXmd.
From Verif Require Import Toy.
Import ListNotations.
Open Scope Z_scope.

(** C13 *)
Theorem C13_expand_is_rfc9380 : forall (X : Oracles) (HX : oracles_ok X) msg dst len, 0 <= len ->
  expand_message_xmd msg dst len =
    match rfc_expand sha256 msg dst len with Some o => Ok o | None => Err end.
Proof. intros X HX msg dst len H. exact (expand_is_rfc HX msg dst len H). Qed.
Theorem C13_output_length : forall (X : Oracles) (HX : oracles_ok X) msg dst len o,
  expand_message_xmd msg dst len = Ok o -> Z.of_nat (List.length o) = len /\ bytes_ok o.
Proof.
  intros X HX msg dst len o H. split; [|exact (expand_bytes_ok HX _ _ _ _ H)].
  rewrite (expand_length HX _ _ _ _ H).
  destruct (Z_lt_le_dec len 0); [rewrite expand_panic in H by assumption; discriminate|]. apply Z2Nat.id. assumption.
Qed.
Theorem C13_error_exactly_above_8160 : forall (X : Oracles) (HX : oracles_ok X) msg dst len,
  (expand_message_xmd msg dst len = Err <-> 8160 < len) /\
  (expand_message_xmd msg dst len = Panic <-> len < 0).
Proof.
  intros X HX msg dst len. destruct (Z_lt_le_dec len 0) as [L|L].
  - rewrite expand_panic by assumption. split; split; intros; try discriminate; try lia; reflexivity.
  - rewrite (expand_is_rfc HX) by assumption. pose proof (rfc_expand_none msg dst len L) as N.
    destruct (rfc_expand sha256 msg dst len); split; split; intros; try discriminate; try lia; try reflexivity.
    + apply N in H. discriminate.
    + apply N. reflexivity.
Qed.
Print Assumptions C13_expand_is_rfc9380.
Print Assumptions C13_output_length.
Print Assumptions C13_error_exactly_above_8160.
Example C13_ex : oracles_ok Toy.toyX. Proof. exact Toy.toyX_ok. Qed.
