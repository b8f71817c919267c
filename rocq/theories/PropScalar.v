(** Properties C01, C02, C03, C11. *)
From Coq Require Import ZArith Lia Bool List.
From Verif Require Import Base BaseFacts Zmod Fields ModelScalar ProofScalar.
Import ListNotations.
Open Scope Z_scope.

(** C01 *)
Theorem C01_serialize_roundtrip : forall s,
  length (scalar_serialize s) = 32%nat /\ bytes_ok (scalar_serialize s) /\
  be_val (scalar_serialize s) = fv s /\
  scalar_deserialize 1 (scalar_serialize s) = Ok (Some s) /\
  scalar_deserialize_tagged (scalar_serialize_tagged s) = Ok (Some s).
Proof.
  intros s. split; [apply scalar_serialize_length|]. split; [apply scalar_serialize_ok|].
  split; [apply scalar_serialize_val|]. split; [|apply k256_tagged_roundtrip].
  pose proof (scalar_serialize_length s) as L. unfold scalar_deserialize.
  destruct (scalar_serialize s) eqn:E; [discriminate|]. rewrite <- E, k256_roundtrip. reflexivity.
Qed.
Theorem C01_deserialize_canonical : forall b, length b = 32%nat -> bytes_ok b ->
  (be_val b < q -> exists s, scalar_deserialize 1 b = Ok (Some s) /\ scalar_serialize s = b) /\
  (q <= be_val b -> scalar_deserialize 1 b = Err).
Proof.
  intros b L B. assert (E : scalar_deserialize 1 b = do s <- k256_deserialize b; Ok (Some s)).
  { destruct b; [discriminate|reflexivity]. }
  rewrite E. split; intros H.
  - destruct (k256_deserialize b) as [s| | |] eqn:D; rewrite k256_deserialize_32 in D by exact L;
      destruct (Z.ltb_spec (be_val b) q); try discriminate; try lia.
    exists s. split; [reflexivity|]. apply (k256_canonical b); try assumption. rewrite k256_deserialize_32 by exact L.
    destruct (Z.ltb_spec (be_val b) q); [exact D|lia].
  - rewrite k256_deserialize_32 by exact L. destruct (Z.ltb_spec (be_val b) q); [lia|reflexivity].
Qed.
Print Assumptions C01_serialize_roundtrip.
Print Assumptions C01_deserialize_canonical.
(** both cases of C01 occur *)
Example C01_ex_accept : be_val (repeat 17 32) < q. Proof. vm_compute. reflexivity. Qed.
Example C01_ex_reject : q <= be_val (repeat 255 32). Proof. vm_compute. discriminate. Qed.

(** C02: the exact behaviour on every non-empty string, and the failure of
    uniqueness *)
Theorem C02_deserialize_any_length : forall b, b <> [] ->
  let low := skipn (length b - 32) b in
  scalar_deserialize 1 b = if be_val low <? q then Ok (Some (of_Z q (be_val low))) else Err.
Proof.
  intros b Hb low. unfold scalar_deserialize. destruct b as [|x b]; [congruence|].
  rewrite Z.eqb_refl, k256_deserialize_spec. fold low. destruct (be_val low <? q); reflexivity.
Qed.
Theorem C02_empty_rejected : forall c, scalar_deserialize c [] = Err.
Proof. reflexivity. Qed.
(** the expectation, refuted: an accepted string need not be the encoding, and
    every accepted string can be extended arbitrarily in front *)
Theorem C02_unique_encoding_refuted :
  ~ (forall b s, bytes_ok b -> scalar_deserialize 1 b = Ok (Some s) -> scalar_serialize s = b).
Proof.
  intros H. specialize (H [7] (of_Z q 7)). assert (B : bytes_ok [7]) by (repeat constructor; lia).
  specialize (H B eq_refl). apply (f_equal (@length Z)) in H. vm_compute in H. discriminate.
Qed.
Theorem C02_prefix_ignored : forall pre b, length b = 32%nat ->
  scalar_deserialize 1 (pre ++ b) = scalar_deserialize 1 b.
Proof.
  intros pre b L. rewrite !C02_deserialize_any_length; [|destruct b; discriminate|destruct pre, b; discriminate].
  rewrite app_length, L. replace (length pre + 32 - 32)%nat with (length pre + 0)%nat by lia.
  rewrite skipn_app, skipn_all2 by lia.
  replace (length pre + 0 - length pre)%nat with 0%nat by lia. reflexivity.
Qed.
Print Assumptions C02_deserialize_any_length.
Print Assumptions C02_empty_rejected.
Print Assumptions C02_unique_encoding_refuted.
Print Assumptions C02_prefix_ignored.

(** C03 *)
Theorem C03_wide_reduction : forall b,
  scalar_from_bytes_wide b = if blen b <=? 64 then Ok (of_Z q (be_val b)) else Panic.
Proof.
  intros b. unfold scalar_from_bytes_wide. rewrite wide_spec.
  destruct (Z.ltb_spec 64 (blen b)), (Z.leb_spec (blen b) 64); try lia; reflexivity.
Qed.
Theorem C03_wide_value : forall b s, scalar_from_bytes_wide b = Ok s -> fv s = be_val b mod q.
Proof.
  intros b s. rewrite C03_wide_reduction. destruct (blen b <=? 64); [|discriminate].
  intros H. injection H as <-. apply fv_of_Z.
Qed.
Print Assumptions C03_wide_reduction.
Print Assumptions C03_wide_value.
Example C03_ex : exists s, scalar_from_bytes_wide (repeat 255 64) = Ok s /\ fv s <> be_val (repeat 255 64).
Proof. eexists. split; [reflexivity|]. vm_compute. discriminate. Qed.

(** C11 *)
Theorem C11_nodes_distinct : forall i j, int64_ok i -> int64_ok j ->
  from_node_index i = from_node_index j -> i = j.
Proof. exact from_node_index_inj. Qed.
Theorem C11_nodes_nonzero : forall i, int64_ok i -> (from_node_index i = fzero <-> i = -1).
Proof. exact from_node_index_zero. Qed.
Theorem C11_node_value : forall i, 0 <= i < 2^63 -> fv (from_node_index i) = i + 1.
Proof. intros i H. rewrite from_node_index_val. apply Z.mod_small. lia. Qed.
Print Assumptions C11_nodes_distinct.
Print Assumptions C11_nodes_nonzero.
Print Assumptions C11_node_value.
Example C11_ex : int64_ok (-(2^63)) /\ int64_ok (2^63 - 1). Proof. unfold int64_ok. lia. Qed.
