(** Property C70: text form, compression and accessors of encoded points. *)
From Coq Require Import ZArith Lia Bool List.
From Verif Require Import Base BaseFacts Zmod Fields ModelScalar ProofScalar ModelXmd SpecSecp ModelSecp ProofFp ProofCodec ProofCurve ModelEncode.
Import ListNotations.
Open Scope Z_scope.

(** ** Hexadecimal text *)
Lemma hex_char_val n : 0 <= n < 16 -> hex_val (hex_char n) = Some n.
Proof.
  intro H. unfold hex_char, hex_val. destruct (Z.ltb_spec n 10).
  - destruct (Z.leb_spec 48 (48 + n)), (Z.leb_spec (48 + n) 57); try lia. cbn [andb]. f_equal. lia.
  - destruct (Z.leb_spec 48 (87 + n)), (Z.leb_spec (87 + n) 57); try lia. cbn [andb].
    destruct (Z.leb_spec 97 (87 + n)), (Z.leb_spec (87 + n) 102); try lia. cbn [andb]. f_equal. lia.
Qed.
Lemma hex_roundtrip b : bytes_ok b -> hex_decode (hex_encode b) = Ok b.
Proof.
  induction 1 as [|x b Hx B IH]; [reflexivity|]. cbn [hex_encode flat_map app hex_decode].
  unfold byte_ok in Hx. pose proof (Z.mod_pos_bound x 16). rewrite hex_char_val by (split; [apply Z.div_pos; lia|apply Z.div_lt_upper_bound; lia]).
  rewrite hex_char_val by lia. fold (hex_encode b). rewrite IH. cbn [bind]. rewrite <- Z.div_mod by lia. reflexivity.
Qed.

(** an encoding read by FromBytes or FromStr survives ToString and FromStr *)
Theorem C70_text_roundtrip : forall b e, bytes_ok b -> encode_from_bytes b = Ok e ->
  encode_from_str (encode_to_string e) = Ok e.
Proof.
  intros b e B E. assert (e = b) as ->. { unfold encode_from_bytes in E. destruct b as [|t b]; [discriminate|]. destruct (_ =? _); [congruence|discriminate]. }
  unfold encode_from_str, encode_to_string. rewrite hex_roundtrip by exact B. exact E.
Qed.
Print Assumptions C70_text_roundtrip.

(** but an encoding made from a point does not: ToString prints the whole
    buffer (65 bytes for a compressed point, 32 for the identity), which FromStr
    refuses *)
Theorem C70_text_roundtrip_of_points_refuted : forall x y : Fp,
  let e := from_affine_coordinates (fe_as_bytes x) (fe_as_bytes y) true in
  encode_as_bytes e = Ok (sec1 (Some (x, y))) /\ encode_from_str (encode_to_string e) = Err /\
  encode_from_str (encode_to_string encode_identity) = Err.
Proof.
  intros x y e. assert (Ee : e = (if Z.odd (fv y) then 3 else 2) :: fe_as_bytes x ++ fe_as_bytes y).
  { unfold e, from_affine_coordinates. rewrite !copy_exact by apply fe_bytes_length. rewrite compress_y_spec. reflexivity. }
  assert (B : blen e = 65) by (rewrite Ee, blen_cons, blen_app; unfold blen; rewrite !fe_bytes_length; reflexivity).
  assert (L : encode_len e = 33) by (rewrite Ee; unfold encode_len; cbn [nth]; destruct (Z.odd (fv y)); reflexivity).
  split; [|split; [|reflexivity]].
  - unfold encode_as_bytes. rewrite L, slice_ok by lia. change (Z.to_nat 0) with 0%nat. change (Z.to_nat (33 - 0)) with 33%nat. cbn [skipn].
    rewrite Ee, (firstn_cons 32). cbn [sec1]. rewrite firstn_pre by apply fe_bytes_length. reflexivity.
  - unfold encode_from_str, encode_to_string. rewrite hex_roundtrip.
    + cbn [bind]. unfold encode_from_bytes. unfold encode_len in L. destruct e as [|t e]; [discriminate|]. cbn [nth] in L. rewrite L, B. reflexivity.
    + rewrite Ee. constructor; [destruct (Z.odd (fv y)); split; lia|]. apply Forall_app. split; apply be_bytes_ok.
Qed.
Print Assumptions C70_text_roundtrip_of_points_refuted.

(** ** Compression *)
Lemma compress_uncompressed xb yb : List.length xb = 32%nat -> List.length yb = 32%nat ->
  encode_compress (4 :: xb ++ yb) = Ok (compress_y yb :: xb ++ yb) /\ encode_as_bytes (compress_y yb :: xb ++ yb) = Ok (compress_y yb :: xb).
Proof.
  intros Lx Ly.
  assert (B : forall t, blen (t :: xb ++ yb) = 65) by (intro t; rewrite blen_cons, blen_app; unfold blen; rewrite Lx, Ly; reflexivity).
  split.
  - unfold encode_compress. cbn [encode_tag bind]. change ((4 =? 5) || ((4 =? 2) || (4 =? 3)) || (4 =? 0)) with false. cbv iota.
    rewrite slice_ok by (rewrite ?B; lia). cbn [bind]. rewrite slice_ok by (rewrite ?B; lia). cbn [bind]. rewrite B.
    change (Z.to_nat (33 - 1)) with 32%nat. change (Z.to_nat (65 - 33)) with 32%nat. change (Z.to_nat 1) with 1%nat. change (Z.to_nat 33) with 33%nat.
    rewrite (skipn_cons 0), (skipn_cons 32), skipn_O, firstn_pre, skipn_pre, firstn_full by assumption.
    unfold from_affine_coordinates. rewrite !copy_exact by assumption. reflexivity.
  - unfold encode_as_bytes. assert (encode_len (compress_y yb :: xb ++ yb) = 33) as -> by (unfold encode_len, compress_y; cbn [nth]; destruct (_ =? 1); reflexivity).
    rewrite slice_ok by (rewrite ?B; lia). change (Z.to_nat 0) with 0%nat. change (Z.to_nat (33 - 0)) with 33%nat. cbn [skipn]. rewrite (firstn_cons 32), firstn_pre by exact Lx. reflexivity.
Qed.
Lemma last_parity yb : List.length yb = 32%nat -> bytes_ok yb -> Z.land (last yb 0) 1 = be_val yb mod 2.
Proof.
  intros L B. destruct (exists_last (l := yb)) as (r & z & ->); [intros ->; discriminate|].
  rewrite last_last. change 1 with (Z.ones 1). rewrite Z.land_ones by lia. change (2 ^ 1) with 2.
  rewrite be_val_snoc. replace (be_val r * 256 + z) with (z + (be_val r * 128) * 2) by lia. rewrite Z.mod_add by lia. reflexivity.
Qed.

(** Compressing the uncompressed encoding of a curve point gives the compressed
    encoding of that point, if the y-coordinate is reduced; otherwise of its
    negative. *)
Theorem C70_compress : forall xb yb x y, List.length xb = 32%nat -> List.length yb = 32%nat -> bytes_ok yb ->
  k256_point_deserialize (4 :: xb ++ yb) = Ok (Some (Some (x, y))) -> on_curve (Some (x, y)) ->
  exists c b, encode_compress (4 :: xb ++ yb) = Ok c /\ encode_as_bytes c = Ok b /\
    k256_point_deserialize b = Ok (Some (Some (x, if be_val yb <? p then y else fneg y))).
Proof.
  intros xb yb x y Lx Ly By E C. destruct (compress_uncompressed xb yb Lx Ly) as [E1 E2].
  exists (compress_y yb :: xb ++ yb), (compress_y yb :: xb). split; [exact E1|]. split; [exact E2|].
  rewrite k256_deserialize_uncompressed in E by assumption.
  assert (Ex : fp_of_big (be_val xb) = x) by congruence. assert (Ey : fp_of_big (be_val yb) = y) by congruence. clear E E1 E2.
  apply curve_iff in C. cbn [curve] in C.
  rewrite k256_deserialize_compressed; [|unfold compress_y; destruct (_ =? 1); auto|exact Lx]. f_equal. f_equal.
  pose proof (be_val_range yb By) as R. unfold blen in R. rewrite Ly in R. change (256 ^ Z.of_nat 32) with (2 ^ 256) in R.
  assert (Fy : fv y = be_val yb mod p) by (rewrite <- Ey; unfold fp_of_big; apply fv_of_Z).
  assert (T : compress_y yb - 2 = be_val yb mod 2).
  { unfold compress_y. rewrite last_parity by assumption. pose proof (Z.mod_pos_bound (be_val yb) 2). destruct (Z.eqb_spec (be_val yb mod 2) 1); lia. }
  apply decompress_unique; [rewrite T; pose proof (Z.mod_pos_bound (be_val yb) 2); lia|exact Ex| |].
  - destruct (be_val yb <? p); [exact C|apply eqn_neg, C].
  - rewrite T. destruct (Z.ltb_spec (be_val yb) p) as [Q|Q].
    + rewrite Fy, (Z.mod_small (be_val yb) p) by lia. reflexivity.
    + rewrite neg_parity by (exact (eqn_y _ _ C)). rewrite Fy. replace (be_val yb mod p) with (be_val yb - p).
      * unfold p. rewrite Zminus_mod. pose proof (Z.mod_pos_bound (be_val yb) 2). assert (be_val yb mod 2 = 0 \/ be_val yb mod 2 = 1) as [-> | ->] by lia; reflexivity.
      * apply (Z.mod_unique _ _ 1); unfold p in *; lia.
Qed.
Print Assumptions C70_compress.

(** what FromBytes accepts is compressed without a panic, except for a single
    byte that is no tag *)
Theorem C70_compress_panics_iff : forall b e, encode_from_bytes b = Ok e ->
  (encode_compress e = Panic <-> exists t, e = [t] /\ t <> 0) /\ (encode_compress e <> Err) /\
  (encode_x e = Panic <-> exists t, e = [t] /\ t <> 0) /\ (encode_y e = Panic <-> exists t, e = [t] /\ t <> 0).
Proof.
  intros b e E. unfold encode_from_bytes in E. destruct b as [|t b]; [discriminate|]. destruct (Z.eqb_spec (blen (t :: b)) (message_len t)) as [L|L]; [|discriminate].
  assert (e = t :: b) as -> by congruence. clear E.
  destruct (message_len_cases t) as [[Ht M]|[[-> M]|[(N2 & N3 & N4 & N5) M]]]; rewrite M in L.
  - (* 33 bytes *)
    assert (Lb : List.length b = 32%nat) by (rewrite blen_cons in L; unfold blen in L; lia).
    assert (N : ~ exists u, t :: b = [u] /\ u <> 0) by (intros (u & Q & _); injection Q as _ ->; discriminate).
    assert (Ec : encode_compress (t :: b) = Ok (t :: b)) by (unfold encode_compress; cbn [encode_tag bind]; destruct Ht as [->|[->| ->]]; reflexivity).
    assert (Ek : exists c, encode_coordinates (t :: b) = Ok c).
    { unfold encode_coordinates. cbn [nth]. destruct (Z.eqb_spec t 0); [eexists; reflexivity|]. rewrite slice_ok by lia. cbn [bind]. rewrite slice_ok by lia. cbn [bind].
      destruct (_ || _)%bool; [eexists; reflexivity|]. destruct (t =? 5); eexists; reflexivity. }
    destruct Ek as [c Ek]. rewrite Ec. unfold encode_x, encode_y. cbn [encode_tag bind]. rewrite Ek. cbn [bind].
    split; [split; [discriminate|intro; contradiction]|]. split; [discriminate|]. split; (split; [discriminate|intro; contradiction]).
  - (* 65 bytes *)
    assert (N : ~ exists u, 4 :: b = [u] /\ u <> 0) by (intros (u & Q & _); injection Q as _ ->; discriminate).
    assert (Ec : exists c, encode_compress (4 :: b) = Ok c).
    { unfold encode_compress. cbn [encode_tag bind]. change ((4 =? 5) || ((4 =? 2) || (4 =? 3)) || (4 =? 0)) with false. cbv iota.
      rewrite slice_ok by lia. cbn [bind]. rewrite slice_ok by lia. cbn [bind]. eexists. reflexivity. }
    assert (Ek : exists c, encode_coordinates (4 :: b) = Ok c).
    { unfold encode_coordinates. cbn [nth]. change (4 =? 0) with false. cbv iota. rewrite slice_ok by lia. cbn [bind]. rewrite slice_ok by lia. cbn [bind]. eexists. reflexivity. }
    destruct Ec as [c0 ->]. destruct Ek as [c Ek]. unfold encode_x, encode_y. cbn [encode_tag bind]. rewrite Ek. cbn [bind].
    split; [split; [discriminate|intro; contradiction]|]. split; [discriminate|]. split; (split; [discriminate|intro; contradiction]).
  - (* one byte *)
    assert (b = []) as -> by (rewrite blen_cons in L; unfold blen in L; destruct b; [reflexivity|cbn [List.length] in L; lia]).
    unfold encode_compress, encode_x, encode_y, encode_coordinates. cbn [encode_tag bind nth].
    destruct (Z.eqb_spec t 5); [lia|]. destruct (Z.eqb_spec t 2); [lia|]. destruct (Z.eqb_spec t 3); [lia|]. cbn [orb].
    destruct (Z.eqb_spec t 0) as [->|N0].
    + split; [split; [discriminate|intros (u & Q & Nu); congruence]|]. split; [discriminate|]. split; (split; [discriminate|intros (u & Q & Nu); congruence]).
    + change (slice [t] 1 33) with (@Panic bytes). cbn [bind].
      split; [split; [intros _; exists t; auto|reflexivity]|]. split; [discriminate|]. split; (split; [intros _; exists t; auto|reflexivity]).
Qed.
Print Assumptions C70_compress_panics_iff.

(** X and Y give the coordinate bytes: both of an uncompressed point, the first
    of a compressed or compact one, none of the identity *)
Theorem C70_accessors : forall xb yb t, List.length xb = 32%nat -> List.length yb = 32%nat ->
  encode_x (4 :: xb ++ yb) = Ok (Some xb) /\ encode_y (4 :: xb ++ yb) = Ok (Some yb) /\
  (t = 2 \/ t = 3 \/ t = 5 -> encode_x (t :: xb) = Ok (Some xb) /\ encode_y (t :: xb) = Ok None) /\
  encode_x [0] = Ok None /\ encode_y [0] = Ok None.
Proof.
  intros xb yb t Lx Ly.
  assert (B : blen (4 :: xb ++ yb) = 65) by (rewrite blen_cons, blen_app; unfold blen; rewrite Lx, Ly; reflexivity).
  assert (Ec : encode_coordinates (4 :: xb ++ yb) = Ok (CoUncompressed xb yb)).
  { unfold encode_coordinates. cbn [nth]. change (4 =? 0) with false. cbv iota. rewrite slice_ok by lia. cbn [bind]. rewrite slice_ok by lia. cbn [bind].
    change (4 =? 2) with false. change (4 =? 3) with false. change (4 =? 5) with false. cbn [orb]. cbv iota. rewrite ?B.
    change (Z.to_nat (33 - 1)) with 32%nat. change (Z.to_nat (65 - 33)) with 32%nat. change (Z.to_nat 1) with 1%nat. change (Z.to_nat 33) with 33%nat.
    rewrite (skipn_cons 0), (skipn_cons 32), skipn_O, firstn_pre, skipn_pre, firstn_full by assumption. reflexivity. }
  unfold encode_x, encode_y. split; [cbn [encode_tag bind]; rewrite Ec; reflexivity|]. split; [cbn [encode_tag bind]; rewrite Ec; reflexivity|].
  split; [|split; reflexivity]. intros T.
  assert (B' : blen (t :: xb) = 33) by (rewrite blen_cons; unfold blen; rewrite Lx; reflexivity).
  assert (Et : exists c, encode_coordinates (t :: xb) = Ok c /\ (c = CoCompact xb \/ exists s, c = CoCompressed xb s)).
  { unfold encode_coordinates. cbn [nth]. destruct (Z.eqb_spec t 0); [lia|]. rewrite slice_ok by lia. cbn [bind]. rewrite slice_ok by lia. cbn [bind].
    change (Z.to_nat (33 - 1)) with 32%nat. change (Z.to_nat 1) with 1%nat. rewrite (skipn_cons 0), skipn_O, firstn_full by assumption.
    destruct T as [->|[->| ->]]; eexists; (split; [reflexivity|]); [right; eexists; reflexivity|right; eexists; reflexivity|left; reflexivity]. }
  destruct Et as (c & Et & D). cbn [encode_tag bind]. rewrite Et. cbn [bind]. destruct D as [->|[s ->]]; split; reflexivity.
Qed.
Print Assumptions C70_accessors.

(** ** Untagged coordinates *)
Theorem C70_untagged : forall b,
  (encode_from_untagged b = Panic <-> blen b < 32) /\
  (blen b = 64 -> encode_from_untagged b = Ok (4 :: b)) /\
  (32 <= blen b -> exists e, encode_from_untagged b = Ok e /\ blen e = 65 /\ nth 0 e 0 = 4).
Proof.
  intro b. pose proof (blen_nonneg b). unfold encode_from_untagged. destruct (Z_lt_le_dec (blen b) 32) as [L|L].
  - assert (slice b 0 32 = Panic) as ->. { unfold slice. destruct (Z.leb_spec 32 (blen b)); [lia|reflexivity]. }
    split; [split; [intros _; exact L|reflexivity]|]. split; intros; lia.
  - rewrite slice_ok by lia. cbn [bind]. rewrite slice_ok by lia. cbn [bind]. split; [split; [discriminate|lia]|]. split.
    + intro E. rewrite E. unfold from_affine_coordinates. change (Z.to_nat (32 - 0)) with 32%nat. change (Z.to_nat (64 - 32)) with 32%nat.
      change (Z.to_nat 0) with 0%nat. change (Z.to_nat 32) with 32%nat. rewrite skipn_O.
      assert (List.length b = 64%nat) by (unfold blen in E; lia).
      rewrite (firstn_full 32 (skipn 32 b)) by (rewrite skipn_length; lia). rewrite !copy_exact by (rewrite ?firstn_length, ?skipn_length; lia).
      rewrite firstn_skipn. reflexivity.
    + intros _. eexists. split; [reflexivity|]. split; [|reflexivity]. unfold from_affine_coordinates. rewrite blen_cons, blen_app. unfold blen. rewrite !copy_into_length. reflexivity.
Qed.
Print Assumptions C70_untagged.

(** encodePoint's selection (curve/k256_point.go:157-164): choosing by "is the identity"
    between the coordinates and the identity encoding, and filling up with zeros,
    gives the SEC1 encoding; the coordinates of the identity are never written *)
Theorem C70_selection : forall a choice, (choice = 0 <-> a <> None) ->
  exists b, encode_as_bytes (encode_select (from_affine_coordinates (fe_as_bytes (pt_x a)) (fe_as_bytes (pt_y a)) true) encode_identity choice) = Ok b /\
    b ++ repeat 0 (33 - List.length b) = sec1 a.
Proof.
  intros [[x y]|] choice H; unfold encode_select.
  - assert (choice = 0) as -> by (apply H; discriminate). cbn [Z.eqb pt_x pt_y].
    exists (sec1 (Some (x, y))). split; [exact (proj1 (C70_text_roundtrip_of_points_refuted x y))|]. rewrite sec1_length. apply app_nil_r.
  - destruct (Z.eqb_spec choice 0) as [E|E]; [exfalso; apply H in E; congruence|]. eexists. split; reflexivity.
Qed.
Print Assumptions C70_selection.

(** the point with y = 1; its second coordinate written as p + 1 *)
Example C70_ex : let x := of_Z p 0x1fe1e5ef3fceb5c135ab7741333ce5a6e80d68167653f6b2b24bcbcfaaaff507 in
  on_curve (Some (x, fone)) /\ List.length (be_bytes 32 (p + 1)) = 32%nat /\ (be_val (be_bytes 32 (p + 1)) <? p) = false /\
  k256_point_deserialize (4 :: fe_as_bytes x ++ be_bytes 32 (p + 1)) = Ok (Some (Some (x, fone))).
Proof.
  intro x. split; [vm_compute; reflexivity|]. split; [reflexivity|]. split; [vm_compute; reflexivity|].
  rewrite k256_deserialize_uncompressed by apply be_bytes_length. do 4 f_equal; apply fe_eq; vm_compute; reflexivity.
Qed.
Example C70_ex_text : encode_from_str (hex_encode [0]) = Ok [0] /\ encode_from_str (hex_encode [7]) = Ok [7] /\ encode_compress [7] = Panic.
Proof. repeat split; vm_compute; reflexivity. Qed.
