(** Property C95: the coordinate field elements — encodings, sign, square roots
    and the progenitor. *)
From Coq Require Import ZArith Znumtheory Lia Bool List Ring.
From Verif Require Import Base BaseFacts Zmod Fields ModelScalar ProofScalar ModelXmd ModelSecp SpecSecp ProofFp ProofCodec SpecH2C ModelH2C ProofH2C.
Import ListNotations.
Open Scope Z_scope.

Lemma from_bytes_spec b : let low := skipn (length b - 32) b in
  fe_from_bytes b = if be_val low <? p then Ok (of_Z p (be_val low)) else Err.
Proof. intros low. unfold fe_from_bytes, set_bytes. rewrite copy_into_val. reflexivity. Qed.

(** The encoding is the 32-byte big-endian value and is read back; among the
    32-byte strings exactly the reduced values are read, each from one string. *)
Theorem C95_field_roundtrip : forall a : Fp,
  length (fe_as_bytes a) = 32%nat /\ bytes_ok (fe_as_bytes a) /\ be_val (fe_as_bytes a) = fv a /\ fe_from_bytes (fe_as_bytes a) = Ok a.
Proof.
  intros a. split; [apply fe_bytes_length|]. split; [apply fe_bytes_ok|]. split; [apply fe_bytes_val|].
  rewrite from_bytes_spec, fe_bytes_length. change (32 - 32)%nat with 0%nat. rewrite skipn_O, fe_bytes_val, of_Z_fv.
  pose proof (Fp_range a). destruct (Z.ltb_spec (fv a) p); [reflexivity|lia].
Qed.
Theorem C95_field_canonical : forall b, length b = 32%nat -> bytes_ok b ->
  (be_val b < p -> exists a, fe_from_bytes b = Ok a /\ fe_as_bytes a = b /\ fv a = be_val b) /\
  (p <= be_val b -> fe_from_bytes b = Err).
Proof.
  intros b L B. rewrite from_bytes_spec, L. change (32 - 32)%nat with 0%nat. rewrite skipn_O.
  pose proof (be_val_range b B). split; intros H1; destruct (Z.ltb_spec (be_val b) p); try lia; [|reflexivity].
  exists (of_Z p (be_val b)). split; [reflexivity|].
  assert (V : fv (of_Z p (be_val b)) = be_val b) by (rewrite fv_of_Z; apply Z.mod_small; lia).
  split; [|exact V]. apply be_val_inj; [apply fe_bytes_ok|exact B|rewrite fe_bytes_length; lia|]. rewrite fe_bytes_val. exact V.
Qed.
(** Strings of any length: only the last 32 bytes count, so that the encoding is
    not unique, and the empty string is zero.  The wide form reduces the last 64
    bytes and refuses nothing. *)
Theorem C95_field_any_length : forall b,
  (let low := skipn (length b - 32) b in fe_from_bytes b = if be_val low <? p then Ok (of_Z p (be_val low)) else Err) /\
  fv (fe_from_bytes_wide b) = be_val (skipn (length b - 64) b) mod p.
Proof.
  intros b. split; [apply from_bytes_spec|]. unfold fe_from_bytes_wide, set_bytes_wide. rewrite copy_into_val. apply fv_of_Z.
Qed.
Theorem C95_unique_encoding_refuted : ~ (forall b a, bytes_ok b -> fe_from_bytes b = Ok a -> fe_as_bytes a = b).
Proof.
  intros H. specialize (H [] (of_Z p 0) (Forall_nil _) eq_refl). apply (f_equal (@length Z)) in H. rewrite fe_bytes_length in H. discriminate.
Qed.
Print Assumptions C95_field_roundtrip.
Print Assumptions C95_field_canonical.
Print Assumptions C95_field_any_length.
Print Assumptions C95_unique_encoding_refuted.

(** Sign is the parity of the reduced value; of an element and its negative
    exactly one is odd, zero apart. *)
Theorem C95_sign : forall a : Fp, fe_sign a = fv a mod 2 /\ (fv a <> 0 -> fe_sign (fneg a) = 1 - fe_sign a).
Proof.
  assert (S : forall a : Fp, fe_sign a = fv a mod 2) by (intros a; rewrite fe_sign_spec; reflexivity).
  intros a. split; [apply S|]. intros N. rewrite !S. apply neg_parity. intros ->. apply N. reflexivity.
Qed.
Print Assumptions C95_sign.

(** Sqrt answers 1 exactly for the squares, with a root; every other root is its
    negative.  For a non-square it leaves zero in the receiver. *)
Lemma fmul_val (a b : Fp) : fv (fmul a b) = fv a * fv b mod p.
Proof. unfold fmul. apply fv_of_Z. Qed.
Theorem C95_sqrt : forall a : Fp,
  ((exists z, z * z mod p = fv a) -> exists r, fe_sqrt a = (r, true) /\ fv r * fv r mod p = fv a /\
     forall z, z * z mod p = fv a -> z mod p = fv r \/ z mod p = - fv r mod p) /\
  ((forall z, z * z mod p <> fv a) -> fe_sqrt a = (fzero, false)).
Proof.
  assert (Sq : forall (z : Z) (a : Fp), z * z mod p = fv a -> a = fmul (of_Z p z) (of_Z p z)).
  { intros z a E. apply fe_eq. rewrite fmul_val, !fv_of_Z, <- Zmult_mod. symmetry. exact E. }
  intros a. split.
  - intros [z E]. destruct (fp_sqrt_square a) as (r & F & R); [exists (of_Z p z); exact (Sq z a E)|].
    exists r. unfold fe_sqrt. rewrite F. split; [reflexivity|]. split; [rewrite <- fmul_val, R; reflexivity|].
    intros w W. apply Sq in W. assert (Q : fmul (of_Z p w) (of_Z p w) = fmul r r) by (rewrite R; symmetry; exact W).
    apply square_eq in Q. destruct Q as [Q|Q]; [left|right]; rewrite <- (fv_of_Z p w), Q; [reflexivity|]. unfold fneg. apply fv_of_Z.
  - intros N. assert (NS : ~ is_square a).
    { intros [s ->]. apply (N (fv s)). symmetry. apply fmul_val. }
    apply fp_sqrt_nonsquare in NS. unfold fe_sqrt. destruct (fp_sqrt a) as [r b]. cbn [snd] in NS. rewrite NS. reflexivity.
Qed.
Print Assumptions C95_sqrt.

(** The progenitor y of a non-zero element a satisfies a y^2 = 1 or -1, according
    to whether a is a square: the Legendre symbol; and a y is then a root of a or
    of -a. *)
Theorem C95_progenitor : forall a : Fp, fv a <> 0 ->
  let y := fe_progenitor a in
  ((exists z, z * z mod p = fv a) -> fv a * (fv y * fv y) mod p = 1) /\
  ((forall z, z * z mod p <> fv a) -> fv a * (fv y * fv y) mod p = p - 1).
Proof.
  intros a Na y. assert (N : a <> fzero) by (intros ->; apply Na; reflexivity). pose proof p4_pos as P4.
  assert (E : fv a * (fv y * fv y) mod p = fv (fpow a (2 * ((p + 1) / 4) - 1))).
  { rewrite <- Zmult_mod_idemp_r, <- fmul_val, <- fmul_val. apply (f_equal (@fv p)). unfold y, fe_progenitor. rewrite p34.
    replace (2 * ((p + 1) / 4) - 1) with ((p + 1) / 4 - 1 + ((p + 1) / 4 - 1) + 1) by lia.
    rewrite !fpow_add, fpow_1 by lia. generalize (fpow a ((p + 1) / 4 - 1)). intros f. ring. }
  rewrite E. split.
  - intros [z Z1]. assert (SQ : is_square a); [|rewrite (square_half a N SQ); reflexivity]. exists (of_Z p z). apply fe_eq. rewrite fmul_val, !fv_of_Z, <- Zmult_mod. symmetry. exact Z1.
  - intros NS. destruct (half_pow a N) as [H|H]; [|rewrite H; reflexivity].
    exfalso. destruct (half_square a N H) as [s S]. apply (NS (fv s)). rewrite S. symmetry. apply fmul_val.
Qed.
Print Assumptions C95_progenitor.

(** both kinds of elements exist: 4 is a square, and of a and -a exactly one is *)
Example C95_ex : (exists z, z * z mod p = fv (of_Z p 4)) /\ (forall z, z * z mod p <> fv (fneg (of_Z p 4))) /\
  fe_from_bytes (repeat 255 32) = Err /\ fe_from_bytes (1 :: repeat 0 31 ++ [7]) = Ok (of_Z p 7).
Proof.
  assert (N4 : of_Z p 4 <> fzero) by (intros H; apply (f_equal (@fv p)) in H; vm_compute in H; discriminate).
  split; [exists 2; reflexivity|]. split.
  - intros z E. apply (square_not_neg (of_Z p 4) N4).
    + exists (of_Z p 2). apply fe_eq. reflexivity.
    + exists (of_Z p z). apply fe_eq. rewrite fmul_val, !fv_of_Z, <- Zmult_mod. symmetry. exact E.
  - split; [|rewrite from_bytes_spec; reflexivity]. rewrite from_bytes_spec. reflexivity.
Qed.
