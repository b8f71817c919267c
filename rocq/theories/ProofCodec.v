(** Point encodings. *)
From Coq Require Import ZArith Znumtheory Lia Bool String List Ring Field.
From Verif Require Import Base BaseFacts Zmod Fields ModelScalar ProofScalar ModelSecp SpecSecp ProofFp ProofCurve.
Import ListNotations.
Open Scope Z_scope.

Lemma oksome_inj {A} (a b : A) : Ok (Some a) = Ok (Some b) -> a = b.
Proof. intros H. now inversion H. Qed.
Lemma fe_bytes_length a : List.length (fe_as_bytes a) = 32%nat. Proof. apply be_bytes_length. Qed.
Lemma fe_bytes_ok a : bytes_ok (fe_as_bytes a). Proof. apply be_bytes_ok. Qed.
Lemma fe_bytes_val a : be_val (fe_as_bytes a) = fv a.
Proof. unfold fe_as_bytes. rewrite be_val_be_bytes. apply Z.mod_small. pose proof (Fp_range a). change (256 ^ Z.of_nat 32) with (2 ^ 256). pose proof p_bounds. lia. Qed.
Lemma fe_bytes_back a : fp_of_big (be_val (fe_as_bytes a)) = a.
Proof. unfold fp_of_big. rewrite fe_bytes_val. apply of_Z_fv. Qed.
Lemma copy_exact n b : List.length b = n -> copy_into n b = b.
Proof. intros <-. unfold copy_into. rewrite firstn_all, Nat.sub_diag. apply app_nil_r. Qed.
Lemma slice_ok b lo hi : 0 <= lo <= hi -> hi <= blen b -> slice b lo hi = Ok (firstn (Z.to_nat (hi - lo)) (skipn (Z.to_nat lo) b)).
Proof.
  intros H1 H2. unfold slice. rewrite (proj2 (Z.leb_le 0 lo)), (proj2 (Z.leb_le lo hi)), (proj2 (Z.leb_le hi (blen b))) by lia. reflexivity.
Qed.
Lemma firstn_pre {A} n (l r : list A) : List.length l = n -> firstn n (l ++ r) = l.
Proof. intros <-. rewrite firstn_app, firstn_all, Nat.sub_diag. apply app_nil_r. Qed.
Lemma skipn_pre {A} n (l r : list A) : List.length l = n -> skipn n (l ++ r) = r.
Proof. intros <-. rewrite skipn_app, skipn_all, Nat.sub_diag. reflexivity. Qed.
Lemma firstn_full {A} n (l : list A) : List.length l = n -> firstn n l = l.
Proof. intros <-. apply firstn_all. Qed.
Lemma last_byte_parity a : Z.land (last (fe_as_bytes a) 0) 1 = fv a mod 2.
Proof.
  unfold fe_as_bytes, be_bytes. change 32%nat with (S 31). cbn [le_bytes rev]. rewrite last_last.
  rewrite <- (field_byte0 a). reflexivity.
Qed.
Lemma compress_y_spec a : compress_y (fe_as_bytes a) = if Z.odd (fv a) then 3 else 2.
Proof. unfold compress_y. rewrite last_byte_parity, Zmod_odd. destruct (Z.odd (fv a)); reflexivity. Qed.

Lemma serialize_sec1 a : point_serialize a = Ok (sec1 a).
Proof.
  destruct a as [[x y]|]; [|reflexivity]. unfold point_serialize, encode_point. cbn [pt_x pt_y].
  unfold from_affine_coordinates. rewrite !copy_exact by apply fe_bytes_length. rewrite compress_y_spec.
  set (e := (if Z.odd (fv y) then 3 else 2) :: fe_as_bytes x ++ fe_as_bytes y).
  assert (L : encode_len e = 33) by (unfold encode_len, e; cbn [nth]; destruct (Z.odd (fv y)); reflexivity).
  assert (B : blen e = 65).
  { unfold e. rewrite blen_cons, blen_app. unfold blen. rewrite !fe_bytes_length. reflexivity. }
  unfold encode_as_bytes. rewrite L. change (slice (repeat 0 33) 0 33) with (Ok (repeat 0 33)). cbn [bind].
  rewrite slice_ok by lia. cbn [bind]. change (Z.to_nat 0) with 0%nat. change (Z.to_nat (33 - 0)) with 33%nat. cbn [skipn].
  assert (F : firstn 33 e = sec1 (Some (x, y))).
  { unfold e. rewrite (firstn_cons 32). cbn [sec1]. apply (f_equal (cons _)). apply firstn_pre, fe_bytes_length. }
  rewrite F. assert (List.length (sec1 (Some (x, y))) = 33%nat) as -> by (cbn [sec1 List.length]; now rewrite be_bytes_length).
  change (skipn 33 (repeat 0 33)) with (@nil Z). now rewrite app_nil_r.
Qed.
Lemma sec1_length a : List.length (sec1 a) = 33%nat.
Proof. destruct a as [[x y]|]; [|reflexivity]. cbn [sec1 List.length]. now rewrite be_bytes_length. Qed.
Lemma sec1_ok a : bytes_ok (sec1 a).
Proof.
  destruct a as [[x y]|]; cbn [sec1].
  - constructor; [destruct (Z.odd (fv y)); split; lia|apply be_bytes_ok].
  - repeat (constructor; [split; lia|]). constructor.
Qed.
Lemma serialize_uncompressed a : point_serialize_uncompressed a = match a with None => Ok (repeat 0 33) | Some _ => Panic end.
Proof. destruct a as [[x y]|]; reflexivity. Qed.
Lemma serialize_tagged a : point_serialize_tagged a = Ok (1 :: sec1 a).
Proof. unfold point_serialize_tagged. rewrite serialize_sec1. cbn [bind]. now rewrite copy_exact by apply sec1_length. Qed.

(** decompression *)
Lemma decompress_cases xb s : (s = 0 \/ s = 1) ->
  (exists y, decompress xb s = Some (fp_of_big (be_val xb), y) /\ eqn (fp_of_big (be_val xb)) y /\ fv y mod 2 = s) \/
  (decompress xb s = None /\ forall y, ~ eqn (fp_of_big (be_val xb)) y).
Proof.
  intros Hs. unfold decompress. set (x := fp_of_big (be_val xb)).
  destruct (fp_sqrt_cases (rhs x)) as [(r & -> & E)|[(r & ->) N]].
  - left. rewrite field_byte0. assert (Er : eqn x r) by exact E.
    destruct (Z.eqb_spec (fv r mod 2) s) as [Q|Q]; cbn [negb].
    + exists r. auto.
    + exists (fneg r). split; [reflexivity|]. split; [exact (eqn_neg _ _ Er)|].
      rewrite (neg_parity r (eqn_y _ _ Er)). pose proof (Z.mod_pos_bound (fv r) 2 ltac:(lia)). lia.
  - right. split; [reflexivity|]. intros y E. apply N. exists y. symmetry. exact E.
Qed.
Lemma decompress_unique x y xb s : (s = 0 \/ s = 1) -> fp_of_big (be_val xb) = x -> eqn x y -> fv y mod 2 = s -> decompress xb s = Some (x, y).
Proof.
  intros Hs Hx E P. destruct (decompress_cases xb s Hs) as [(y' & -> & E' & P')|[_ N]].
  - rewrite Hx in *. destruct (eqn_same_x _ _ _ E E') as [->|Q]; [reflexivity|]. exfalso.
    rewrite Q in P. rewrite (neg_parity y' (eqn_y _ _ E')) in P. lia.
  - exfalso. rewrite Hx in N. exact (N y E).
Qed.
Lemma decompress_curve xb s : (s = 0 \/ s = 1) -> curve (decompress xb s).
Proof. intros Hs. destruct (decompress_cases xb s Hs) as [(y & -> & E & _)|[-> _]]; [exact E|exact I]. Qed.

(** the five shapes accepted by FromBytes *)
Lemma k256_deserialize_compressed t xb : t = 2 \/ t = 3 -> List.length xb = 32%nat ->
  k256_point_deserialize (t :: xb) = Ok (Some (decompress xb (t - 2))).
Proof.
  intros Ht L. unfold k256_point_deserialize, encode_from_bytes.
  assert (B : blen (t :: xb) = 33) by (rewrite blen_cons; unfold blen; rewrite L; reflexivity).
  assert (message_len t = 33) as -> by (destruct Ht as [->| ->]; reflexivity). rewrite B, Z.eqb_refl. cbn [bind].
  unfold from_encoded_point, encode_coordinates. cbv zeta. cbn [nth].
  assert (t =? 0 = false) as -> by (apply Z.eqb_neq; lia).
  rewrite slice_ok by lia. rewrite B, slice_ok by lia. change (Z.to_nat (33 - 1)) with 32%nat. change (Z.to_nat 1) with 1%nat. cbn [bind skipn].
  rewrite (firstn_full 32 xb L).
  destruct Ht as [->| ->]; reflexivity.
Qed.
Lemma k256_deserialize_compact xb : List.length xb = 32%nat ->
  k256_point_deserialize (5 :: xb) = Ok (Some (decompress xb 0)).
Proof.
  intros L. unfold k256_point_deserialize, encode_from_bytes.
  assert (B : blen (5 :: xb) = 33) by (rewrite blen_cons; unfold blen; rewrite L; reflexivity).
  rewrite B. cbn [message_len Z.eqb Pos.eqb orb]. rewrite Z.eqb_refl. cbn [bind].
  unfold from_encoded_point, encode_coordinates. cbv zeta. cbn [nth Z.eqb].
  rewrite slice_ok by lia. rewrite B, slice_ok by lia. change (Z.to_nat (33 - 1)) with 32%nat. change (Z.to_nat 1) with 1%nat. cbn [bind skipn].
  rewrite (firstn_full 32 xb L). reflexivity.
Qed.
Lemma k256_deserialize_uncompressed xb yb : List.length xb = 32%nat -> List.length yb = 32%nat ->
  k256_point_deserialize (4 :: xb ++ yb) = Ok (Some (Some (fp_of_big (be_val xb), fp_of_big (be_val yb)))).
Proof.
  intros Lx Ly. unfold k256_point_deserialize, encode_from_bytes.
  assert (B : blen (4 :: xb ++ yb) = 65) by (rewrite blen_cons, blen_app; unfold blen; rewrite Lx, Ly; reflexivity).
  rewrite B. cbn [message_len Z.eqb Pos.eqb orb]. rewrite Z.eqb_refl. cbn [bind].
  unfold from_encoded_point, encode_coordinates. cbv zeta. cbn [nth Z.eqb].
  rewrite slice_ok by lia. rewrite B, slice_ok by lia. change (Z.to_nat (33 - 1)) with 32%nat. change (Z.to_nat 1) with 1%nat.
  change (Z.to_nat 33) with 33%nat. change (Z.to_nat (65 - 33)) with 32%nat.
  change (skipn 33 (4 :: xb ++ yb)) with (skipn 32 (xb ++ yb)). change (skipn 1 (4 :: xb ++ yb)) with (xb ++ yb).
  rewrite (firstn_pre 32 xb yb Lx), (skipn_pre 32 xb yb Lx), (firstn_full 32 yb Ly). reflexivity.
Qed.
(** everything else: an error, or a panic, or the nil point *)
Lemma message_len_cases t : (t = 2 \/ t = 3 \/ t = 5) /\ message_len t = 33 \/ t = 4 /\ message_len t = 65 \/
  (t <> 2 /\ t <> 3 /\ t <> 4 /\ t <> 5) /\ message_len t = 1.
Proof.
  unfold message_len. destruct (Z.eqb_spec t 2) as [->|]; [left; auto|]. destruct (Z.eqb_spec t 3) as [->|]; [left; auto|]. cbn [orb].
  destruct (Z.eqb_spec t 4) as [->|]; [right; left; auto|]. destruct (Z.eqb_spec t 5) as [->|]; [left; auto|]. right; right. auto.
Qed.
Lemma k256_deserialize_other b :
  match b with
  | [] => k256_point_deserialize b = Panic
  | t :: r => (blen b <> message_len t -> k256_point_deserialize b = Err) /\
              (blen b = message_len t -> message_len t = 1 ->
               k256_point_deserialize b = if t =? 0 then Ok None else Panic)
  end.
Proof.
  destruct b as [|t r]; [reflexivity|]. split.
  - intros H. unfold k256_point_deserialize, encode_from_bytes. rewrite (proj2 (Z.eqb_neq _ _) H). reflexivity.
  - intros H M. unfold k256_point_deserialize, encode_from_bytes. rewrite H, Z.eqb_refl. cbn [bind].
    unfold from_encoded_point, encode_coordinates. cbv zeta. cbn [nth]. destruct (t =? 0) eqn:E; [reflexivity|].
    unfold slice. rewrite H, M. reflexivity.
Qed.

Lemma point_deserialize_len b : blen b <> 33 -> point_deserialize 1 b = Err.
Proof. intros H. unfold point_deserialize. change (point_bytes 1) with 33. rewrite (proj2 (Z.eqb_neq _ _) H). reflexivity. Qed.
Lemma point_deserialize_zero : point_deserialize 1 (repeat 0 33) = Ok (Some None).
Proof. reflexivity. Qed.
Lemma point_deserialize_compressed t xb : t = 2 \/ t = 3 -> List.length xb = 32%nat ->
  point_deserialize 1 (t :: xb) = Ok (Some (decompress xb (t - 2))).
Proof.
  intros Ht L. unfold point_deserialize. change (point_bytes 1) with 33.
  assert (blen (t :: xb) = 33) as -> by (rewrite blen_cons; unfold blen; rewrite L; reflexivity).
  cbn [Z.eqb Pos.eqb negb nth forallb]. unfold point_deserialize_any. cbn [Z.eqb Pos.eqb].
  rewrite (k256_deserialize_compressed t xb Ht L). destruct Ht as [->| ->]; reflexivity.
Qed.
Lemma all_zero b : forallb (fun x => x =? 0) b = true -> b = repeat 0 (List.length b).
Proof.
  induction b as [|x b IH]; [reflexivity|]. cbn [forallb List.length repeat]. intros H. apply andb_true_iff in H. destruct H as [H1 H2].
  apply Z.eqb_eq in H1. rewrite <- IH by exact H2. now subst.
Qed.
Lemma point_deserialize_bad t xb : t <> 2 -> t <> 3 -> t :: xb <> repeat 0 33 -> point_deserialize 1 (t :: xb) = Err.
Proof.
  intros N2 N3 NZ. unfold point_deserialize. change (point_bytes 1) with 33.
  destruct (Z.eqb_spec (blen (t :: xb)) 33) as [L|L]; [|reflexivity]. cbn [negb].
  destruct (forallb _ _) eqn:F.
  - exfalso. apply NZ. apply all_zero in F. rewrite F. f_equal. unfold blen in L. lia.
  - cbn [nth]. rewrite (proj2 (Z.eqb_neq _ _) N2), (proj2 (Z.eqb_neq _ _) N3). reflexivity.
Qed.
Lemma deserialize_sec1 a : curve a -> point_deserialize 1 (sec1 a) = Ok (Some a).
Proof.
  intros C. destruct a as [[x y]|]; [|reflexivity]. cbn [sec1].
  rewrite point_deserialize_compressed; [|destruct (Z.odd (fv y)); auto|apply be_bytes_length].
  do 2 f_equal. apply decompress_unique.
  - destruct (Z.odd (fv y)); auto.
  - exact (fe_bytes_back x).
  - exact C.
  - rewrite Zmod_odd. destruct (Z.odd (fv y)); reflexivity.
Qed.
Lemma sec1_inj a b : curve a -> curve b -> sec1 a = sec1 b -> a = b.
Proof.
  intros Ca Cb E. assert (H : point_deserialize 1 (sec1 a) = point_deserialize 1 (sec1 b)) by now rewrite E.
  rewrite (deserialize_sec1 a Ca), (deserialize_sec1 b Cb) in H. exact (oksome_inj _ _ H).
Qed.
Lemma point_deserialize_curve b r : point_deserialize 1 b = Ok (Some r) -> curve r.
Proof.
  intros H. destruct (Z.eq_dec (blen b) 33) as [L|L]; [|rewrite (point_deserialize_len b L) in H; discriminate H].
  destruct b as [|t xb]; [discriminate L|]. rewrite blen_cons in L. assert (Lx : List.length xb = 32%nat) by (unfold blen in L; lia).
  destruct (Z.eq_dec t 2) as [E2|N2]; [|destruct (Z.eq_dec t 3) as [E3|N3]].
  - rewrite point_deserialize_compressed in H by auto. apply oksome_inj in H. rewrite <- H. apply decompress_curve. lia.
  - rewrite point_deserialize_compressed in H by auto. apply oksome_inj in H. rewrite <- H. apply decompress_curve. lia.
  - destruct (bytes_dec (t :: xb) (repeat 0 33)) as [Z|NZ].
    + rewrite Z in H. change (Ok (Some (@None (Fp * Fp))) = Ok (Some r)) in H. inversion H. exact I.
    + rewrite (point_deserialize_bad t xb N2 N3 NZ) in H. discriminate H.
Qed.

(** cbor byte strings *)
Lemma cbor_roundtrip b : blen b < 2 ^ 32 -> bytes_ok b -> cbor_bytes_dec (cbor_bytes b) = Ok b.
Proof.
  intros L B. pose proof (blen_nonneg b). unfold cbor_bytes.
  destruct (Z.ltb_spec (blen b) 24).
  - cbn [app cbor_bytes_dec]. rewrite (proj2 (Z.leb_le 64 (64 + blen b))), (proj2 (Z.ltb_lt (64 + blen b) 88)) by lia. cbn [andb].
    rewrite (proj2 (Z.eqb_eq _ _)) by lia. reflexivity.
  - destruct (Z.ltb_spec (blen b) 256).
    + cbn [app cbor_bytes_dec]. change ((64 <=? 88) && (88 <? 88)) with false. change (88 =? 88) with true. cbv iota. now rewrite Z.eqb_refl.
    + assert (A : forall n c, 0 <= c < 256 ^ Z.of_nat n -> firstn n (be_bytes n c ++ b) = be_bytes n c /\ skipn n (be_bytes n c ++ b) = b /\ be_val (be_bytes n c) = c).
      { intros n c R. split; [|split].
        - apply firstn_pre, be_bytes_length.
        - apply skipn_pre, be_bytes_length.
        - rewrite be_val_be_bytes. apply Z.mod_small. exact R. }
      destruct (Z.ltb_spec (blen b) 65536).
      * destruct (A 2%nat (blen b)) as (A1 & A2 & A3); [change (256 ^ Z.of_nat 2) with 65536; lia|]. cbn [app cbor_bytes_dec]. change ((64 <=? 89) && (89 <? 88)) with false. change (89 =? 88) with false. change (89 =? 89) with true. cbv iota.
        rewrite A1, A2, A3, Z.eqb_refl, blen_app. assert (blen (be_bytes 2 (blen b)) = 2) as -> by (unfold blen; now rewrite be_bytes_length).
        rewrite (proj2 (Z.leb_le _ _)) by lia. reflexivity.
      * destruct (A 4%nat (blen b)) as (A1 & A2 & A3); [change (256 ^ Z.of_nat 4) with (2 ^ 32); lia|]. cbn [app cbor_bytes_dec]. change ((64 <=? 90) && (90 <? 88)) with false. change (90 =? 88) with false. change (90 =? 89) with false. change (90 =? 90) with true. cbv iota.
        rewrite A1, A2, A3, Z.eqb_refl, blen_app. assert (blen (be_bytes 4 (blen b)) = 4) as -> by (unfold blen; now rewrite be_bytes_length).
        rewrite (proj2 (Z.leb_le _ _)) by lia. reflexivity.
Qed.
