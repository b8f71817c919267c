(** Property C69: Serialize and Deserialize of polynomial commitments. *)
From Coq Require Import ZArith Lia Bool String List.
From Verif Require ProofRo.
From Verif Require Import Base BaseFacts Zmod Fields ModelScalar ProofScalar ModelXmd SpecSecp ModelSecp ProofFp ProofCodec ProofCurve ModelCommit ModelCommitCbor.
Import ListNotations.
Open Scope Z_scope.

(** What is assumed of cbor.Unmarshal: it reads back what cbor.Marshal wrote. *)
Record decoders_ok (ds : bytes -> res (Z * Z * bytes)) (da : bytes -> res (list (option bytes))) (db : bytes -> res bytes) : Prop := {
  ds_ok : forall c t items, 0 <= c < 24 -> 0 <= t < 24 -> Z.of_nat (List.length items) < 2 ^ 32 -> Forall (fun b => bytes_ok b /\ blen b < 2 ^ 32) items ->
    ds (cm_struct c t (cbor_array (map cbor_bytes items))) = Ok (c, t, cbor_array (map cbor_bytes items));
  da_ok : forall items, Z.of_nat (List.length items) < 2 ^ 32 -> Forall (fun b => bytes_ok b /\ blen b < 2 ^ 32) items ->
    da (cbor_array (map cbor_bytes items)) = Ok (map (fun b => Some (cbor_bytes b)) items);
  db_ok : forall b, bytes_ok b -> blen b < 2 ^ 32 -> db (cbor_bytes b) = Ok b
}.

Definition tagged (a : pt) : bytes := 1 :: sec1 a.
Lemma marshal_all pts : mapM point_marshal_cbor pts = Ok (map cbor_bytes (map tagged pts)).
Proof.
  rewrite map_map. apply mapM_total. intros a _. unfold point_marshal_cbor. rewrite serialize_tagged. reflexivity.
Qed.
Lemma tagged_ok pts : Forall (fun b => bytes_ok b /\ blen b < 2 ^ 32) (map tagged pts).
Proof.
  apply Forall_map, Forall_forall. intros a _. split; [constructor; [split; lia|apply sec1_ok]|].
  unfold tagged. rewrite blen_cons. unfold blen. rewrite sec1_length. reflexivity.
Qed.

(** ** Encoding *)
Theorem C69_serialize : forall ty pts,
  (pts <> [] -> exists d, cm_serialize ty pts = Ok d) /\ (pts = [] -> cm_serialize ty pts = Panic).
Proof.
  intros ty pts. split; [|intros ->; reflexivity]. intro N. unfold cm_serialize. rewrite marshal_all. cbn [bind].
  destruct pts; [congruence|]. eexists. reflexivity.
Qed.
Print Assumptions C69_serialize.

(** commitments with the same bytes are the same, so the bytes may stand for
    the commitment in OpenDealings (testutils/dealings.go:18-22) *)
Lemma head_inj m n n' r r' : 0 <= n < 2 ^ 32 -> 0 <= n' < 2 ^ 32 -> cbor_head m n ++ r = cbor_head m n' ++ r' -> n = n' /\ r = r'.
Proof.
  intros H H' E.
  assert (D : forall k c c' s s', 0 <= c < 256 ^ Z.of_nat k -> 0 <= c' < 256 ^ Z.of_nat k -> be_bytes k c ++ s = be_bytes k c' ++ s' -> c = c' /\ s = s').
  { intros k c c' s s' R R' Q. apply ProofRo.app_same_length in Q; [|rewrite !be_bytes_length; reflexivity]. destruct Q as [Q ->]. split; [|reflexivity].
    apply (f_equal be_val) in Q. rewrite !be_val_be_bytes, !Z.mod_small in Q by assumption. exact Q. }
  unfold cbor_head in E.
  destruct (Z.ltb_spec n 24), (Z.ltb_spec n' 24); [|destruct (Z.ltb_spec n' 256); [|destruct (Z.ltb_spec n' 65536)]
    |destruct (Z.ltb_spec n 256); [|destruct (Z.ltb_spec n 65536)]|]; cbn [app] in E.
  1: injection E as E1 E2; split; [lia|exact E2].
  1-6: injection E; intros; exfalso; lia.
  destruct (Z.ltb_spec n 256), (Z.ltb_spec n' 256); [|destruct (Z.ltb_spec n' 65536)|destruct (Z.ltb_spec n 65536)|]; cbn [app] in E.
  1: injection E as E1 E2; split; [lia|exact E2].
  1-4: injection E; intros; exfalso; lia.
  destruct (Z.ltb_spec n 65536), (Z.ltb_spec n' 65536); cbn [app] in E.
  - apply ProofRo.cons_eq in E. destruct E as [_ E]. apply (D 2%nat) in E; [exact E| |]; change (256 ^ Z.of_nat 2) with 65536; lia.
  - injection E; intros; exfalso; lia.
  - injection E; intros; exfalso; lia.
  - apply ProofRo.cons_eq in E. destruct E as [_ E]. apply (D 4%nat) in E; [exact E| |]; change (256 ^ Z.of_nat 4) with (2 ^ 32); lia.
Qed.
Lemma cbor_bytes_head b : cbor_bytes b = cbor_head 2 (blen b) ++ b.
Proof. unfold cbor_bytes, cbor_head. destruct (blen b <? 24); [reflexivity|]. destruct (blen b <? 256); [reflexivity|]. destruct (blen b <? 65536); reflexivity. Qed.

Lemma struct_inj c t m c' t' m' : 0 <= c < 2 ^ 32 -> 0 <= c' < 2 ^ 32 -> 0 <= t < 2 ^ 32 -> 0 <= t' < 2 ^ 32 ->
  cm_struct c t m = cm_struct c' t' m' -> c = c' /\ t = t' /\ m = m'.
Proof.
  intros Hc Hc' Ht Ht' E. unfold cm_struct, cbor_uint in E. apply app_inv_head in E. apply app_inv_head in E.
  apply head_inj in E; [|assumption..]. destruct E as [-> E]. apply app_inv_head in E. apply head_inj in E; [|assumption..]. destruct E as [-> E].
  apply app_inv_head in E. auto.
Qed.

Theorem C69_serialize_injective : forall ty ty' pts pts' d,
  ty = ct_simple \/ ty = ct_pedersen -> ty' = ct_simple \/ ty' = ct_pedersen ->
  Forall on_curve pts -> Forall on_curve pts' -> Z.of_nat (List.length pts) < 2 ^ 32 -> Z.of_nat (List.length pts') < 2 ^ 32 ->
  cm_serialize ty pts = Ok d -> cm_serialize ty' pts' = Ok d -> ty = ty' /\ pts = pts'.
Proof.
  intros ty ty' pts pts' d T T' C C' L L' E E'. unfold cm_serialize in E, E'. rewrite marshal_all in E, E'. cbn [bind] in E, E'.
  destruct pts as [|a pts]; [discriminate|]. destruct pts' as [|a' pts']; [discriminate|].
  assert (Q : cm_struct 1 ty (cbor_array (map cbor_bytes (map tagged (a :: pts)))) = cm_struct 1 ty' (cbor_array (map cbor_bytes (map tagged (a' :: pts'))))) by congruence.
  clear E E'. set (l := a :: pts) in *. set (l' := a' :: pts') in *. clearbody l l'. unfold ct_simple, ct_pedersen in *.
  apply struct_inj in Q; [|lia..]. destruct Q as (_ & -> & Q). split; [reflexivity|].
  unfold cbor_array in Q. rewrite !map_length in Q. apply head_inj in Q; [|split; [apply Nat2Z.is_nonneg|assumption]..]. destruct Q as [Len Q]. apply Nat2Z.inj in Len.
  clear - C C' Q Len. revert l' C' Q Len. induction C as [|a l Ha C IH]; intros [|a' l'] C' Q Len; try discriminate; [reflexivity|].
  cbn [map List.concat] in Q. inversion C' as [|? ? Ha' C'']; subst. rewrite !cbor_bytes_head, <- !app_assoc in Q.
  apply head_inj in Q; [|unfold tagged; rewrite blen_cons; unfold blen; rewrite sec1_length; lia..]. destruct Q as [_ Q].
  apply ProofRo.app_same_length in Q; [|unfold tagged; cbn [List.length]; rewrite !sec1_length; reflexivity]. destruct Q as [Q Q'].
  unfold tagged in Q. injection Q as Q. apply sec1_inj in Q; [|apply curve_iff; assumption..]. subst a'. f_equal. apply IH; [exact C''|exact Q'|].
  cbn [List.length] in Len. lia.
Qed.
Print Assumptions C69_serialize_injective.

(** ** Decoding *)
Section Dec.
Context ds da db (D : decoders_ok ds da db).

Lemma decode_tagged a : on_curve a -> point_unmarshal_cbor db (cbor_bytes (tagged a)) = match a with None => Err | Some _ => Ok a end.
Proof.
  intro C. unfold point_unmarshal_cbor. rewrite (db_ok _ _ _ D).
  2: apply (proj1 (Forall_inv (tagged_ok [a]))). 2: apply (proj2 (Forall_inv (tagged_ok [a]))).
  unfold tagged. cbn [bind]. destruct a as [[x y]|]; [|reflexivity]. cbn [sec1].
  rewrite k256_deserialize_compressed; [|destruct (Z.odd (fv y)); auto|apply be_bytes_length]. cbn [bind].
  erewrite decompress_unique; [reflexivity|destruct (Z.odd (fv y)); auto|exact (fe_bytes_back x)|apply curve_iff in C; exact C|].
  rewrite Zmod_odd. destruct (Z.odd (fv y)); reflexivity.
Qed.

Lemma decode_serialized ty pts d : ty = ct_simple \/ ty = ct_pedersen -> Forall on_curve pts -> Z.of_nat (List.length pts) < 2 ^ 32 ->
  cm_serialize ty pts = Ok d ->
  cm_deserialize ds da db d = if ty =? ct_simple then mapM (fun a => match a with None => Err | Some _ => Ok (Some a) end) pts else Err.
Proof.
  intros T C L E. unfold cm_serialize in E. rewrite marshal_all in E. cbn [bind] in E.
  assert (d = cm_struct 1 ty (cbor_array (map cbor_bytes (map tagged pts)))) as -> by (destruct pts; [discriminate|congruence]). clear E.
  unfold cm_deserialize. rewrite (ds_ok _ _ _ D); [|lia|unfold ct_simple, ct_pedersen in T; lia|rewrite map_length; exact L|apply tagged_ok].
  cbn [bind]. destruct (ty =? ct_simple); [|reflexivity]. change (1 =? 1) with true. cbv iota.
  rewrite (da_ok _ _ _ D); [|rewrite map_length; exact L|apply tagged_ok]. cbn [bind]. clear L.
  induction C as [|a pts Ha C IH]; [reflexivity|]. cbn [map mapM]. rewrite (decode_tagged a Ha). destruct a as [a|]; [|reflexivity]. cbn [bind].
  rewrite IH. reflexivity.
Qed.
End Dec.

(** A simple commitment comes back exactly if none of its points is the
    identity; otherwise decoding fails. *)
Theorem C69_simple_roundtrip : forall ds da db pts d, decoders_ok ds da db -> Forall on_curve pts -> Z.of_nat (List.length pts) < 2 ^ 32 ->
  cm_serialize ct_simple pts = Ok d ->
  (~ In None pts -> cm_deserialize ds da db d = Ok (map Some pts)) /\ (In None pts -> cm_deserialize ds da db d = Err).
Proof.
  intros ds da db pts d D C L E. rewrite (decode_serialized ds da db D ct_simple pts d (or_introl eq_refl) C L E). change (ct_simple =? ct_simple) with true. cbv iota.
  clear. split.
  - intro N. apply mapM_total. intros [a|] I; [reflexivity|contradiction].
  - induction pts as [|[a|] pts IH]; intro I; [destruct I| |reflexivity]. destruct I as [I|I]; [discriminate|]. cbn [mapM bind]. rewrite (IH I). reflexivity.
Qed.
Print Assumptions C69_simple_roundtrip.

(** A Pedersen commitment never comes back. *)
Theorem C69_pedersen_roundtrip_refuted : forall ds da db pts d, decoders_ok ds da db -> Forall on_curve pts -> Z.of_nat (List.length pts) < 2 ^ 32 ->
  cm_serialize ct_pedersen pts = Ok d -> cm_deserialize ds da db d = Err.
Proof.
  intros ds da db pts d D C L E. rewrite (decode_serialized ds da db D ct_pedersen pts d (or_intror eq_refl) C L E). reflexivity.
Qed.
Print Assumptions C69_pedersen_roundtrip_refuted.

(** Decoding accepts commitments that cannot be used: with no points, or with a
    null in place of a point, reading the curve type panics.  This holds
    whatever else the decoder accepts. *)
Theorem C69_decoded_usable_refuted : forall ds da db d msg l, ds d = Ok (1, ct_simple, msg) -> da msg = Ok l ->
  l = [] \/ (exists n, (0 < n)%nat /\ l = repeat None n) ->
  exists c, cm_deserialize ds da db d = Ok c /\ decoded_curve c = Panic.
Proof.
  intros ds da db d msg l Hs Ha Hl. unfold cm_deserialize. rewrite Hs. cbn [bind]. change (ct_simple =? ct_simple) with true. change (1 =? 1) with true. cbv iota.
  rewrite Ha. cbn [bind]. destruct Hl as [->|(n & Hn & ->)]; [exists []; split; reflexivity|].
  exists (repeat None n). split; [|destruct n; [lia|reflexivity]]. clear. induction n as [|n IH]; [reflexivity|]. cbn [repeat mapM bind]. rewrite IH. reflexivity.
Qed.
Print Assumptions C69_decoded_usable_refuted.

(** ** Such decoders exist *)
Definition ex_strip (pre b : bytes) : res bytes :=
  if bytes_eqb (firstn (List.length pre) b) pre then Ok (skipn (List.length pre) b) else Err.
Definition ex_byte (b : bytes) : res (Z * bytes) := match b with c :: r => Ok (c, r) | [] => Err end.
Definition ex_struct (b : bytes) : res (Z * Z * bytes) :=
  do b <- ex_strip (cbor_head 5 3 ++ cbor_text "CurveType") b;
  do cb <- ex_byte b;
  do b <- ex_strip (cbor_text "CommitmentType") (snd cb);
  do tb <- ex_byte b;
  do b <- ex_strip (cbor_text "Message") (snd tb);
  Ok (fst cb, fst tb, b).
Definition ex_head (m : Z) (b : bytes) : res (Z * bytes) :=
  do hr <- ex_byte b; let '(h, r) := hr in
  if (0 <=? h - 32 * m) && (h - 32 * m <? 24) then Ok (h - 32 * m, r)
  else if h =? 32 * m + 24 then ex_byte r
  else if h =? 32 * m + 25 then Ok (be_val (firstn 2 r), skipn 2 r)
  else if h =? 32 * m + 26 then Ok (be_val (firstn 4 r), skipn 4 r) else Err.
Definition ex_item (b : bytes) : res (option bytes * bytes) :=
  do hr <- ex_byte b;
  if fst hr =? 246 then Ok (None, snd hr)
  else do x <- ex_head 2 b; let '(n, r) := x in
       Ok (Some (firstn (List.length b - List.length r + Z.to_nat n) b), skipn (Z.to_nat n) r).
Fixpoint ex_items (k : nat) (b : bytes) : res (list (option bytes)) :=
  match k with
  | O => match b with [] => Ok [] | _ => Err end
  | S k => do x <- ex_item b; do l <- ex_items k (snd x); Ok (fst x :: l)
  end.
Definition ex_array (b : bytes) : res (list (option bytes)) := do x <- ex_head 4 b; ex_items (Z.to_nat (fst x)) (snd x).

Lemma ex_strip_ok pre b : ex_strip pre (pre ++ b) = Ok b.
Proof. unfold ex_strip. rewrite firstn_pre, skipn_pre, bytes_eqb_refl by reflexivity. reflexivity. Qed.
Lemma ex_head_ok m n r : 0 <= n < 2 ^ 32 -> ex_head m (cbor_head m n ++ r) = Ok (n, r).
Proof.
  intro H. unfold cbor_head.
  assert (D : forall k, 0 <= n < 256 ^ Z.of_nat k -> be_val (firstn k (be_bytes k n ++ r)) = n /\ skipn k (be_bytes k n ++ r) = r).
  { intros k R. rewrite firstn_pre, skipn_pre by (rewrite be_bytes_length; reflexivity). rewrite be_val_be_bytes, Z.mod_small by exact R. split; reflexivity. }
  destruct (Z.ltb_spec n 24); [|destruct (Z.ltb_spec n 256); [|destruct (Z.ltb_spec n 65536)]]; cbn [app]; unfold ex_head, ex_byte; cbn [bind].
  - replace (32 * m + n - 32 * m) with n by lia. destruct (Z.leb_spec 0 n), (Z.ltb_spec n 24); try lia. reflexivity.
  - replace (32 * m + 24 - 32 * m) with 24 by lia. cbn [Z.leb Z.ltb Z.compare Pos.compare Pos.compare_cont andb]. rewrite Z.eqb_refl. reflexivity.
  - replace (32 * m + 25 - 32 * m) with 25 by lia. cbn [Z.leb Z.ltb Z.compare Pos.compare Pos.compare_cont andb].
    destruct (Z.eqb_spec (32 * m + 25) (32 * m + 24)); [lia|]. rewrite Z.eqb_refl.
    destruct (D 2%nat) as [-> ->]; [change (256 ^ Z.of_nat 2) with 65536; lia|reflexivity].
  - replace (32 * m + 26 - 32 * m) with 26 by lia. cbn [Z.leb Z.ltb Z.compare Pos.compare Pos.compare_cont andb].
    destruct (Z.eqb_spec (32 * m + 26) (32 * m + 24)); [lia|]. destruct (Z.eqb_spec (32 * m + 26) (32 * m + 25)); [lia|]. rewrite Z.eqb_refl.
    destruct (D 4%nat) as [-> ->]; [change (256 ^ Z.of_nat 4) with (2 ^ 32); lia|reflexivity].
Qed.
Lemma head_first m n : exists h r, cbor_head m n = h :: r /\ (h = 32 * m + n /\ n < 24 \/ h = 32 * m + 24 \/ h = 32 * m + 25 \/ h = 32 * m + 26).
Proof.
  unfold cbor_head. destruct (Z.ltb_spec n 24); [do 2 eexists; split; [reflexivity|lia]|]. destruct (n <? 256); [do 2 eexists; split; [reflexivity|lia]|].
  destruct (n <? 65536); do 2 eexists; (split; [reflexivity|lia]).
Qed.
Lemma ex_item_ok b r : blen b < 2 ^ 32 -> ex_item (cbor_bytes b ++ r) = Ok (Some (cbor_bytes b), r).
Proof.
  intro L. pose proof (blen_nonneg b) as N. unfold ex_item. rewrite cbor_bytes_head, <- app_assoc.
  destruct (head_first 2 (blen b)) as (h & t & E & Hh).
  assert (ex_byte (cbor_head 2 (blen b) ++ b ++ r) = Ok (h, t ++ b ++ r)) as -> by (rewrite E; reflexivity). cbn [bind fst snd].
  destruct (Z.eqb_spec h 246); [lia|]. rewrite ex_head_ok by lia. cbn [bind].
  unfold blen. rewrite Nat2Z.id. rewrite skipn_pre by reflexivity. f_equal. f_equal. f_equal.
  rewrite app_length. rewrite (app_assoc (cbor_head _ _)). apply firstn_pre. rewrite app_length. lia.
Qed.
Example C69_ex_decoders : decoders_ok ex_struct ex_array cbor_bytes_dec.
Proof.
  split.
  - intros c t items Hc Ht _ _. unfold ex_struct, cm_struct.
    assert (U : forall n r, 0 <= n < 24 -> cbor_uint n ++ r = n :: r).
    { intros n r H. unfold cbor_uint, cbor_head. destruct (Z.ltb_spec n 24); [|lia]. rewrite Z.mul_0_r. reflexivity. }
    rewrite app_assoc, ex_strip_ok. cbn [bind]. rewrite U by exact Hc. cbn [ex_byte bind snd]. rewrite ex_strip_ok. cbn [bind].
    rewrite U by exact Ht. cbn [ex_byte bind snd fst]. rewrite ex_strip_ok. reflexivity.
  - intros items L F. unfold ex_array, cbor_array. rewrite ex_head_ok by (rewrite map_length; lia). cbn [bind fst snd]. rewrite Nat2Z.id, map_length.
    clear L. induction F as [|b items [Hb Lb] F IH]; [reflexivity|]. cbn [List.length map List.concat ex_items]. rewrite ex_item_ok by exact Lb. cbn [bind fst snd].
    rewrite IH. reflexivity.
  - intros b B L. apply cbor_roundtrip; assumption.
Qed.
(** G, twice or with the identity; the empty array and an array of one null *)
Definition ex_g : pt := Some (of_Z p 0x79be667ef9dcbbac55a06295ce870b07029bfcdb2dce28d959f2815b16f81798, of_Z p 0x483ada7726a3c4655da4fbfc0e1108a8fd17b448a68554199c47d08ffb10d4b8).
Example C69_ex : (exists d, cm_serialize ct_simple [ex_g; ex_g] = Ok d /\ cm_deserialize ex_struct ex_array cbor_bytes_dec d = Ok [Some ex_g; Some ex_g]) /\
  (exists d, cm_serialize ct_simple [ex_g; None] = Ok d /\ cm_deserialize ex_struct ex_array cbor_bytes_dec d = Err).
Proof.
  assert (C : on_curve ex_g) by (vm_compute; reflexivity).
  split.
  - destruct (C69_serialize ct_simple [ex_g; ex_g]) as [[d E] _]; [discriminate|]. exists d. split; [exact E|].
    apply (C69_simple_roundtrip _ _ _ _ _ C69_ex_decoders) in E; [|repeat (constructor; [exact C|]); constructor|reflexivity].
    apply (proj1 E). intros [H|[H|[]]]; discriminate.
  - destruct (C69_serialize ct_simple [ex_g; None]) as [[d E] _]; [discriminate|]. exists d. split; [exact E|].
    apply (C69_simple_roundtrip _ _ _ _ _ C69_ex_decoders) in E; [|constructor; [exact C|constructor; [exact I|constructor]]|reflexivity].
    apply (proj2 E). right. left. reflexivity.
Qed.
Example C69_ex_unusable : ex_struct (cm_struct 1 ct_simple [128]) = Ok (1, ct_simple, [128]) /\ ex_array [128] = Ok [] /\
  ex_struct (cm_struct 1 ct_simple [129; 246]) = Ok (1, ct_simple, [129; 246]) /\ ex_array [129; 246] = Ok [None].
Proof. repeat split; vm_compute; reflexivity. Qed.
