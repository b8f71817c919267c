(** Properties C04 to C09: point encodings. *)
From Coq Require Import ZArith Lia Bool String List.
From Verif Require Import Base BaseFacts Zmod Fields ModelScalar ProofScalar ModelSecp SpecSecp ProofFp ProofCurve ProofCodec.
Import ListNotations.
Open Scope Z_scope.

(** the base point, used as the example throughout *)
Lemma gen_on_curve : on_curve pt_gen. Proof. vm_compute. reflexivity. Qed.

(** C04 *)
Theorem C04_serialize_is_sec1 : forall a, point_serialize a = Ok (sec1 a) /\ blen (sec1 a) = 33 /\ bytes_ok (sec1 a).
Proof. intros a. split; [apply serialize_sec1|]. split; [unfold blen; now rewrite sec1_length|apply sec1_ok]. Qed.
Theorem C04_roundtrip : forall a b, on_curve a -> point_serialize a = Ok b -> point_deserialize 1 b = Ok (Some a).
Proof.
  intros a b C H. rewrite serialize_sec1 in H. assert (E : sec1 a = b) by (inversion H; reflexivity). subst b.
  apply deserialize_sec1. now apply curve_iff.
Qed.
Theorem C04_injective : forall a b, on_curve a -> on_curve b -> point_serialize a = point_serialize b -> a = b.
Proof.
  intros a b Ca Cb H. rewrite !serialize_sec1 in H. assert (E : sec1 a = sec1 b) by (inversion H; reflexivity).
  apply sec1_inj; [now apply curve_iff..|exact E].
Qed.
Print Assumptions C04_serialize_is_sec1.
Print Assumptions C04_roundtrip.
Print Assumptions C04_injective.
Example C04_ex : on_curve pt_gen /\ exists b, point_serialize pt_gen = Ok b.
Proof. split; [exact gen_on_curve|]. eexists. apply serialize_sec1. Qed.

(** C05 *)
(** the accepted strings and what they decode to *)
Theorem C05_result_on_curve : forall b r, point_deserialize 1 b = Ok (Some r) -> on_curve r.
Proof. intros b r H. apply curve_iff. exact (point_deserialize_curve b r H). Qed.
Theorem C05_decoding : forall t xb, blen xb = 32 ->
  (t <> 2 -> t <> 3 -> t :: xb <> repeat 0 33 -> point_deserialize 1 (t :: xb) = Err) /\
  (t = 2 \/ t = 3 ->
   exists r, point_deserialize 1 (t :: xb) = Ok (Some r) /\
     match r with
     | Some (x, y) => fv x = be_val xb mod p /\ on_curve r /\ Z.odd (fv y) = (t =? 3)
     | None => forall y, ~ on_curve (Some (of_Z p (be_val xb), y))
     end) /\
  point_deserialize 1 (repeat 0 33) = Ok (Some None).
Proof.
  intros t xb L. assert (L' : List.length xb = 32%nat) by (unfold blen in L; lia).
  split; [intros; now apply point_deserialize_bad|]. split; [|reflexivity]. intros Ht.
  eexists. split; [exact (point_deserialize_compressed t xb Ht L')|].
  destruct (decompress_cases xb (t - 2)) as [(y & -> & E & P)|[-> N]]; [lia| |].
  - split; [apply fv_of_Z|]. split; [apply curve_iff; exact E|]. rewrite Zmod_odd in P.
    destruct Ht as [->| ->]; destruct (Z.odd (fv y)); try reflexivity; discriminate P.
  - intros y C. apply curve_iff in C. exact (N y C).
Qed.
Theorem C05_other_lengths_rejected : forall b, blen b <> 33 -> point_deserialize 1 b = Err.
Proof. exact point_deserialize_len. Qed.
Print Assumptions C05_result_on_curve.
Print Assumptions C05_decoding.
Print Assumptions C05_other_lengths_rejected.

(** x = 5 has no point: decoded to the identity, not rejected *)
Lemma five_no_point y : ~ eqn (of_Z p 5) y.
Proof.
  intros E. assert (S : is_square (of_Z p 132)) by (exists y; unfold eqn in E; rewrite E; apply fe_eq; vm_compute; reflexivity).
  apply (square_not_neg (of_Z p 132)); [fp_nz|exact S|].
  exists (of_Z p 0x350ae3b48047adacdeea49fb8a0b289a94f726801078408aba79631fa7a1b6ba). apply fe_eq. vm_compute. reflexivity.
Qed.
(** x = p + 1 is not reduced: it decodes to a point with x = 1 *)
Definition bad_x : bytes := 2 :: be_bytes 32 5.
Definition big_x : bytes := 2 :: be_bytes 32 (p + 1).
Theorem C05_no_point_refuted : ~ (forall b r, bytes_ok b -> point_deserialize 1 b = Ok (Some r) -> point_serialize r = Ok b).
Proof.
  intros H. specialize (H bad_x None). assert (B : bytes_ok bad_x) by (constructor; [split; lia|apply be_bytes_ok]).
  assert (D0 : decompress (be_bytes 32 5) (2 - 2) = None).
  { destruct (decompress_cases (be_bytes 32 5) (2 - 2)) as [(y & _ & E & _)|[D0 _]]; [auto| |exact D0].
    exfalso. apply (five_no_point y). rewrite be_val_be_bytes in E. exact E. }
  assert (D : point_deserialize 1 bad_x = Ok (Some None)).
  { unfold bad_x. rewrite point_deserialize_compressed by (auto using be_bytes_length). rewrite D0. reflexivity. }
  specialize (H B D). discriminate H.
Qed.
Theorem C05_noncanonical_refuted : exists b x y, bytes_ok b /\ point_deserialize 1 b = Ok (Some (Some (x, y))) /\
  on_curve (Some (x, y)) /\ point_serialize (Some (x, y)) <> Ok b.
Proof.
  exists big_x, (of_Z p 1), (of_Z p 0x4218f20ae6c646b363db68605822fb14264ca8d2587fdd6fbc750d587e76a7ee).
  assert (E : eqn (of_Z p 1) (of_Z p 0x4218f20ae6c646b363db68605822fb14264ca8d2587fdd6fbc750d587e76a7ee)) by (apply fe_eq; vm_compute; reflexivity).
  split; [constructor; [split; lia|apply be_bytes_ok]|]. split; [|split].
  - unfold big_x. rewrite point_deserialize_compressed by (auto using be_bytes_length). 
    rewrite (decompress_unique (of_Z p 1) (of_Z p 0x4218f20ae6c646b363db68605822fb14264ca8d2587fdd6fbc750d587e76a7ee)); [reflexivity|auto| |exact E|vm_compute; reflexivity].
    rewrite be_val_be_bytes. apply fe_eq. vm_compute. reflexivity.
  - apply curve_iff. exact E.
  - rewrite serialize_sec1. vm_compute. discriminate.
Qed.
Print Assumptions C05_no_point_refuted.
Print Assumptions C05_noncanonical_refuted.
Example C05_ex : blen (be_bytes 32 1) = 32 /\ exists b r, point_deserialize 1 b = Ok (Some r).
Proof. split; [reflexivity|]. exists (repeat 0 33), None. reflexivity. Qed.

(** C06 *)
Theorem C06_tagged_never_decodes : forall b, point_deserialize_tagged b = Err \/ point_deserialize_tagged b = Ok None.
Proof.
  intros [|t r]; [left; reflexivity|]. cbn [point_deserialize_tagged]. destruct (Z.eq_dec t 1) as [->|N].
  - left. apply point_deserialize_bad; [lia|lia|discriminate].
  - unfold point_deserialize, point_deserialize_any, point_bytes. rewrite (proj2 (Z.eqb_neq _ _) N).
    destruct (negb _); [left; reflexivity|]. destruct (forallb _ _); [right; reflexivity|]. destruct (negb _ && negb _); [left|right]; reflexivity.
Qed.
Theorem C06_roundtrip_refuted : forall a b, point_serialize_tagged a = Ok b -> point_deserialize_tagged b = Err.
Proof.
  intros a b H. rewrite serialize_tagged in H. assert (E : 1 :: sec1 a = b) by (inversion H; reflexivity). subst b.
  apply point_deserialize_bad; [lia|lia|discriminate].
Qed.
Print Assumptions C06_tagged_never_decodes.
Print Assumptions C06_roundtrip_refuted.
Example C06_ex : exists b, point_serialize_tagged pt_gen = Ok b.
Proof. eexists. apply serialize_tagged. Qed.

(** C07 *)
Theorem C07_uncompressed_panics : forall x y, point_serialize_uncompressed (Some (x, y)) = Panic.
Proof. intros x y. exact (serialize_uncompressed (Some (x, y))). Qed.
Theorem C07_uncompressed_identity : point_serialize_uncompressed None = Ok (repeat 0 33).
Proof. exact (serialize_uncompressed None). Qed.
Print Assumptions C07_uncompressed_panics.
Print Assumptions C07_uncompressed_identity.

(** C08, for every decoder of CBOR byte strings that inverts the encoder *)
Definition cbor_ok (dec : bytes -> res bytes) : Prop :=
  forall b, bytes_ok b -> blen b < 2 ^ 32 -> dec (cbor_bytes b) = Ok b.
Theorem C08_scalar_roundtrip : forall dec s, cbor_ok dec -> scalar_unmarshal_cbor dec (scalar_marshal_cbor s) = Ok s.
Proof.
  intros dec s H. unfold scalar_unmarshal_cbor, scalar_marshal_cbor. rewrite H.
  - cbn [bind scalar_serialize_tagged]. apply k256_roundtrip.
  - constructor; [split; lia|apply scalar_serialize_ok].
  - unfold scalar_serialize_tagged. rewrite blen_cons. unfold blen. rewrite scalar_serialize_length. reflexivity.
Qed.
Theorem C08_point_roundtrip : forall dec x y d, cbor_ok dec -> on_curve (Some (x, y)) ->
  point_marshal_cbor (Some (x, y)) = Ok d -> point_unmarshal_cbor dec d = Ok (Some (x, y)).
Proof.
  intros dec x y d H C M. unfold point_marshal_cbor in M. rewrite serialize_tagged in M. cbn [bind] in M.
  assert (E : cbor_bytes (1 :: sec1 (Some (x, y))) = d) by (inversion M; reflexivity). subst d.
  unfold point_unmarshal_cbor. rewrite H.
  - cbn [bind sec1]. rewrite k256_deserialize_compressed; [|destruct (Z.odd (fv y)); auto|apply be_bytes_length]. cbn [bind].
    erewrite decompress_unique; [reflexivity|destruct (Z.odd (fv y)); auto|exact (fe_bytes_back x)|apply curve_iff in C; exact C|].
    rewrite Zmod_odd. destruct (Z.odd (fv y)); reflexivity.
  - constructor; [split; lia|apply sec1_ok].
  - rewrite blen_cons. unfold blen. rewrite sec1_length. reflexivity.
Qed.
Theorem C08_identity_fails : forall dec, cbor_ok dec -> exists d, point_marshal_cbor None = Ok d /\ point_unmarshal_cbor dec d = Err.
Proof.
  intros dec H. eexists. split; [unfold point_marshal_cbor; rewrite serialize_tagged; reflexivity|].
  unfold point_unmarshal_cbor. rewrite H; [reflexivity| |reflexivity]. constructor; [split; lia|apply (sec1_ok None)].
Qed.
(** payloads on which the unmarshallers panic *)
Theorem C08_scalar_panics_iff : forall dec d b, dec d = Ok b -> (scalar_unmarshal_cbor dec d = Panic <-> b = []).
Proof.
  intros dec d b H. unfold scalar_unmarshal_cbor. rewrite H. cbn [bind]. destruct b as [|t b]; [tauto|].
  split; [|discriminate]. rewrite k256_deserialize_spec. destruct (_ <? q); discriminate.
Qed.
Theorem C08_point_panics_iff : forall dec d b, dec d = Ok b ->
  (point_unmarshal_cbor dec d = Panic <->
   blen b <= 1 \/
   (exists t u, b = [t; u] /\ u <> 2 /\ u <> 3 /\ u <> 4 /\ u <> 5)).
Proof.
  intros dec d b H. unfold point_unmarshal_cbor. rewrite H. cbn [bind]. destruct b as [|t [|u b]].
  - split; [intros _|reflexivity]. left. unfold blen. cbn [List.length]. lia.
  - split; [intros _|reflexivity]. left. unfold blen. cbn [List.length]. lia.
  - split.
    + intros P. right. exists t, u. pose proof (k256_deserialize_other (u :: b)) as [A1 A2].
      destruct (Z.eq_dec (blen (u :: b)) (message_len u)) as [L|L]; [|rewrite (A1 L) in P; discriminate P].
      destruct (message_len_cases u) as [[Hu M]|[[-> M]|[(N2 & N3 & N4 & N5) M]]].
      * exfalso. rewrite M, blen_cons in L. assert (Lb : List.length b = 32%nat) by (unfold blen in L; lia).
        destruct Hu as [->|[->| ->]]; [rewrite k256_deserialize_compressed in P by auto|rewrite k256_deserialize_compressed in P by auto|rewrite k256_deserialize_compact in P by auto]; discriminate P.
      * exfalso. rewrite M, blen_cons in L. assert (Lb : List.length b = 64%nat) by (unfold blen in L; lia).
        rewrite <- (firstn_skipn 32 b) in P. rewrite k256_deserialize_uncompressed in P; [discriminate P| |].
        -- rewrite firstn_length. lia.
        -- rewrite skipn_length. lia.
      * rewrite M, blen_cons in L. destruct b as [|v b]; [|rewrite blen_cons in L; pose proof (blen_nonneg b); lia]. auto.
    + intros [L|(t' & u' & E & N2 & N3 & N4 & N5)].
      * exfalso. rewrite !blen_cons in L. pose proof (blen_nonneg b). lia.
      * inversion E; subst t' u' b. pose proof (k256_deserialize_other [u]) as [_ A2].
        destruct (message_len_cases u) as [[Hu M]|[[-> M]|[_ M]]]; [lia|lia|].
        rewrite (A2 (eq_sym M) M). destruct (u =? 0); reflexivity.
Qed.
Print Assumptions C08_scalar_roundtrip.
Print Assumptions C08_point_roundtrip.
Print Assumptions C08_identity_fails.
Print Assumptions C08_scalar_panics_iff.
Print Assumptions C08_point_panics_iff.
(** such decoders exist *)
Example C08_ex : cbor_ok cbor_bytes_dec.
Proof. intros b B L. apply cbor_roundtrip; assumption. Qed.
Example C08_ex_panic : cbor_bytes_dec [64] = Ok [].
Proof. reflexivity. Qed.

(** C09 *)
Theorem C09_any_coordinates_accepted : forall x y, from_field_elems x y = Ok (Some (Some (x, y))).
Proof.
  intros x y. unfold from_field_elems, point_deserialize_any. cbn [Z.eqb Pos.eqb app].
  rewrite k256_deserialize_uncompressed by apply fe_bytes_length. now rewrite !fe_bytes_back.
Qed.
Theorem C09_any_bytes_accepted : forall xb yb, blen xb = 32 -> blen yb = 32 ->
  point_deserialize_any 1 (4 :: xb ++ yb) = Ok (Some (Some (of_Z p (be_val xb), of_Z p (be_val yb)))).
Proof. intros xb yb Lx Ly. apply k256_deserialize_uncompressed; unfold blen in *; lia. Qed.
Theorem C09_curve_check_refuted : ~ (forall x y r, from_field_elems x y = Ok (Some r) -> on_curve r).
Proof.
  intros H. specialize (H fone fone _ (C09_any_coordinates_accepted fone fone)). vm_compute in H. discriminate H.
Qed.
Print Assumptions C09_any_coordinates_accepted.
Print Assumptions C09_any_bytes_accepted.
Print Assumptions C09_curve_check_refuted.
