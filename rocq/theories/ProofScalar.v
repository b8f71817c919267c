From Coq Require Import ZArith Znumtheory Lia List Bool String.
From Verif Require Import Base BaseFacts Zmod Fields ModelScalar.
Import ListNotations.
Open Scope Z_scope.

Lemma q_pos : 0 < q. Proof. unfold q; lia. Qed.
Lemma p_pos : 0 < p. Proof. unfold p; lia. Qed.
Lemma q_lt_256_32 : q < 256 ^ 32. Proof. unfold q; lia. Qed.
Lemma p_lt_256_32 : p < 256 ^ 32. Proof. unfold p; lia. Qed.

Lemma Fq_range (s : Fq) : 0 <= fv s < q.
Proof. apply fv_range, q_pos. Qed.
Lemma Fp_range (s : Fp) : 0 <= fv s < p.
Proof. apply fv_range, p_pos. Qed.

Lemma field_bytes_length {m} (a : fe m) : List.length (field_bytes a) = 32%nat.
Proof. apply le_bytes_length. Qed.

Lemma scalar_serialize_be (s : Fq) : scalar_serialize s = be_bytes 32 (fv s).
Proof. reflexivity. Qed.

Lemma scalar_serialize_length s : List.length (scalar_serialize s) = 32%nat.
Proof. apply be_bytes_length. Qed.
Lemma scalar_serialize_ok s : bytes_ok (scalar_serialize s).
Proof. apply be_bytes_ok. Qed.
Lemma scalar_serialize_val s : be_val (scalar_serialize s) = fv s.
Proof.
  rewrite scalar_serialize_be, be_val_be_bytes. apply Z.mod_small.
  pose proof (Fq_range s). pose proof q_lt_256_32. change (Z.of_nat 32) with 32. lia.
Qed.
Lemma scalar_serialize_inj s t : scalar_serialize s = scalar_serialize t -> s = t.
Proof.
  intro H. apply (f_equal be_val) in H. rewrite !scalar_serialize_val in H. now apply fe_eq.
Qed.

(** value of the 32- or 64-byte buffer filled from the reversed input *)
Lemma copy_into_val n b :
  le_val (copy_into n (reverse_bytes b)) = be_val (skipn (List.length b - n) b).
Proof.
  unfold copy_into, reverse_bytes. rewrite le_val_app, le_val_repeat0.
  rewrite Z.mul_0_r, Z.add_0_r.
  rewrite firstn_rev. now rewrite le_val_rev.
Qed.

Lemma copy_into_length n b : List.length (copy_into n b) = n.
Proof. unfold copy_into. rewrite app_length, firstn_length, repeat_length. lia. Qed.

Lemma k256_deserialize_spec b :
  k256_deserialize b =
    if be_val (skipn (List.length b - 32) b) <? q then Ok (of_Z q (be_val (skipn (List.length b - 32) b))) else Err.
Proof. unfold k256_deserialize, set_bytes. now rewrite copy_into_val. Qed.

Lemma k256_deserialize_32 b : List.length b = 32%nat ->
  k256_deserialize b = if be_val b <? q then Ok (of_Z q (be_val b)) else Err.
Proof.
  intro L. rewrite k256_deserialize_spec, L. now rewrite Nat.sub_diag.
Qed.

Lemma of_Z_be_serialize s : of_Z q (be_val (scalar_serialize s)) = s.
Proof. rewrite scalar_serialize_val. apply of_Z_fv. Qed.

Lemma k256_roundtrip s : k256_deserialize (scalar_serialize s) = Ok s.
Proof.
  rewrite k256_deserialize_32 by apply scalar_serialize_length.
  rewrite of_Z_be_serialize, scalar_serialize_val.
  pose proof (Fq_range s). destruct (Z.ltb_spec (fv s) q); [reflexivity|lia].
Qed.

Lemma k256_canonical b s : bytes_ok b -> List.length b = 32%nat ->
  k256_deserialize b = Ok s -> scalar_serialize s = b.
Proof.
  intros B L. rewrite k256_deserialize_32 by exact L.
  destruct (Z.ltb_spec (be_val b) q); [|discriminate]. intro E; inversion E; subst.
  rewrite scalar_serialize_be. pose proof (be_val_range b B). pose proof (be_bytes_be_val b B) as R.
  rewrite L in R. rewrite fv_of_Z, Z.mod_small by lia. exact R.
Qed.

Lemma k256_tagged_roundtrip s : scalar_deserialize_tagged (scalar_serialize_tagged s) = Ok (Some s).
Proof.
  unfold scalar_deserialize_tagged, scalar_serialize_tagged. rewrite Z.eqb_refl.
  rewrite k256_deserialize_spec. cbn [List.length]. rewrite scalar_serialize_length.
  change (33 - 32)%nat with 1%nat. cbn [skipn].
  rewrite of_Z_be_serialize, scalar_serialize_val.
  pose proof (Fq_range s). destruct (Z.ltb_spec (fv s) q); [reflexivity|lia].
Qed.

Lemma wide_spec b : k256_from_wide_bytes b = if 64 <? blen b then Panic else Ok (of_Z q (be_val b)).
Proof.
  unfold k256_from_wide_bytes, set_bytes_wide. destruct (Z.ltb_spec 64 (blen b)); [reflexivity|].
  rewrite copy_into_val. unfold blen in *. replace (List.length b - 64)%nat with 0%nat by lia. reflexivity.
Qed.

Lemma from_node_index_val i : fv (from_node_index i) = (i + 1) mod 2^64.
Proof.
  unfold from_node_index, scalar_from_uint64, u64. rewrite fv_of_Z, Zplus_mod_idemp_l.
  apply Z.mod_small. pose proof (Z.mod_pos_bound (i + 1) (2^64)). unfold q; lia.
Qed.

Lemma from_node_index_inj i j : int64_ok i -> int64_ok j -> from_node_index i = from_node_index j -> i = j.
Proof.
  unfold int64_ok. intros Hi Hj E. apply (f_equal fv) in E. rewrite !from_node_index_val in E.
  assert (D : (2^64 | (i + 1) - (j + 1))).
  { apply Z.mod_divide; [lia|]. rewrite Zminus_mod, E, Z.sub_diag. reflexivity. }
  destruct D as [k Hk]. assert (k = 0) by lia. lia.
Qed.

Lemma from_node_index_zero i : int64_ok i -> (from_node_index i = fzero <-> i = -1).
Proof.
  unfold int64_ok. intro Hi. split; intro H.
  - assert (E : from_node_index i = from_node_index (-1)) by (rewrite H; apply fe_eq; now rewrite from_node_index_val).
    apply from_node_index_inj in E; unfold int64_ok; lia.
  - subst. apply fe_eq. now rewrite from_node_index_val.
Qed.

Lemma from_node_index_small i : 0 <= i < 2^63 -> from_node_index i = of_Z q (i + 1).
Proof.
  intro H. apply fe_eq. rewrite from_node_index_val, fv_of_Z.
  rewrite !Z.mod_small; unfold q; lia.
Qed.

(** exactly one of s and -s is high, for s <> 0 *)
Lemma is_high_neg s : s <> fzero -> is_high (fneg s) = negb (is_high s).
Proof.
  intro H. unfold is_high. pose proof (Fq_range s) as R.
  assert (N : fv s <> 0) by (intro E; apply H; apply fe_eq; rewrite E; reflexivity).
  assert (E : fv (fneg s) = q - fv s).
  { unfold fneg. rewrite fv_of_Z. rewrite Z.mod_opp_l_nz; rewrite ?Z.mod_small; lia. }
  rewrite E. assert (Hh : fv order_half = (q - 1) / 2) by (vm_compute; reflexivity). rewrite Hh.
  assert (Q : q = 2 * ((q - 1) / 2) + 1) by (vm_compute; reflexivity).
  set (h := (q - 1) / 2) in *. clearbody h. clear E Hh.
  destruct (Z.ltb_spec h (q - fv s)), (Z.ltb_spec h (fv s)); simpl; auto; lia.
Qed.
Lemma is_high_zero : is_high fzero = false.
Proof. vm_compute. reflexivity. Qed.
Lemma is_high_half s : is_high s = true <-> q < 2 * fv s.
Proof.
  unfold is_high. assert (Hh : fv order_half = (q - 1) / 2) by (vm_compute; reflexivity). rewrite Hh.
  assert (Q : q = 2 * ((q - 1) / 2) + 1) by (vm_compute; reflexivity).
  rewrite Z.ltb_lt. lia.
Qed.
