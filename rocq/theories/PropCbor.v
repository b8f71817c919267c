(** C108: the byte strings of MarshalCBOR and Serialize are CBOR items. *)
From Coq Require Import ZArith Lia Bool String List.
From Verif Require Import Base BaseFacts Zmod Fields ModelScalar ProofScalar ModelXmd SpecSecp ModelSecp ProofFp ProofCodec ProofCurve ModelCommit ModelCommitCbor
  SpecCbor PropCommitCbor.
Import ListNotations.
Open Scope Z_scope.

Lemma head_prefix m m' n n' h h' r r' : 0 <= m -> 0 <= m' -> head m n h -> head m' n' h' -> h ++ r = h' ++ r' -> m = m' /\ n = n' /\ r = r'.
Proof.
  intros M M' H H'. unfold is_byte in *. destruct H, H'; cbn [app]; intros E; injection E; clear E; intros; subst; try (exfalso; lia);
    (split; [lia|]; split; [lia|auto]); auto.
Qed.
Lemma app_len_inj {A} (a b r r' : list A) : length a = length b -> a ++ r = b ++ r' -> a = b /\ r = r'.
Proof. revert b. induction a as [|x a IH]; intros [|y b]; cbn; try discriminate; [auto|]. intros L E. injection E as -> E. injection L as L. destruct (IH b L E). subst. auto. Qed.
Lemma entries_inj l : forall l', length l = length l' -> entries l = entries l' -> l = l'.
Proof.
  induction l as [|[x y] l IH]; intros [|[x' y'] l']; try discriminate; [auto|]. intros L E. injection L as L. unfold entries in E. cbn in E. injection E as -> -> E.
  f_equal. apply IH; [exact L|exact E].
Qed.
Lemma entries_length l : length (entries l) = (2 * length l)%nat.
Proof. induction l as [|e l IH]; [reflexivity|]. unfold entries in *. cbn [map concat app length fst snd]. rewrite IH. lia. Qed.

Lemma prefix_free : (forall x a, enc x a -> forall y a' r r', enc y a' -> a ++ r = a' ++ r' -> x = y /\ r = r') /\
  (forall l b, encs l b -> forall l' b' r r', encs l' b' -> length l = length l' -> b ++ r = b' ++ r' -> l = l' /\ r = r').
Proof.
  assert (F : forall m, 0 <= m -> forall n h, head m n h -> forall y a r r', enc y a -> h ++ r = a ++ r' ->
    match y with IUint k => m = 0 /\ n = k /\ r = r' | IBytes b => m = 2 /\ n = blen b /\ r = b ++ r' | IText b => m = 3 /\ n = blen b /\ r = b ++ r'
    | IArray l => m = 4 /\ n = Z.of_nat (length l) /\ exists b, encs l b /\ r = b ++ r'
    | IMap l => m = 5 /\ n = Z.of_nat (length l) /\ exists b, encs (entries l) b /\ r = b ++ r' end).
  { intros m M n h H y a r r' Y E. destruct Y as [k h' H'|b h' H' _|b h' H' _|l h' b H' Hl|l h' b H' Hl]; rewrite <- ?app_assoc in E;
      pose proof (fun Q => head_prefix m _ _ _ _ _ _ _ M Q H H' E) as W; destruct (W ltac:(lia)) as (-> & -> & ->); eauto 6. }
  apply enc_encs_ind.
  - intros n h H y a' r r' Y E. specialize (F 0 ltac:(lia) n h H y a' r r' Y E). destruct y; destruct F as (Q & -> & F); try discriminate Q. auto.
  - intros b h H _ y a' r r' Y E. rewrite <- app_assoc in E. specialize (F 2 ltac:(lia) _ h H y a' _ r' Y E). destruct y as [|b'| | |]; destruct F as (Q & L & F); try discriminate Q.
    apply app_len_inj in F; [|unfold blen in L; lia]. destruct F as [-> ->]. auto.
  - intros b h H _ y a' r r' Y E. rewrite <- app_assoc in E. specialize (F 3 ltac:(lia) _ h H y a' _ r' Y E). destruct y as [| |b'| |]; destruct F as (Q & L & F); try discriminate Q.
    apply app_len_inj in F; [|unfold blen in L; lia]. destruct F as [-> ->]. auto.
  - intros l h b H _ IH y a' r r' Y E. rewrite <- app_assoc in E. specialize (F 4 ltac:(lia) _ h H y a' _ r' Y E). destruct y as [| | |l'|]; destruct F as (Q & L & F); try discriminate Q.
    destruct F as (b' & Hl' & E'). destruct (IH l' b' r r' Hl' ltac:(lia) E') as [-> ->]. auto.
  - intros l h b H _ IH y a' r r' Y E. rewrite <- app_assoc in E. specialize (F 5 ltac:(lia) _ h H y a' _ r' Y E). destruct y as [| | | |l']; destruct F as (Q & L & F); try discriminate Q.
    destruct F as (b' & Hl' & E'). destruct (IH _ b' r r' Hl') as [U ->]; [rewrite !entries_length; lia|exact E'|]. split; [|reflexivity]. f_equal. apply entries_inj; [lia|exact U].
  - intros l' b' r r' H L E. destruct H; [auto|discriminate L].
  - intros x l a b Hx IHx Hl IHl l' b' r r' H L E. destruct H as [|y l' a' b' Hy Hl']; [discriminate L|]. rewrite <- !app_assoc in E.
    destruct (IHx _ _ _ _ Hy E) as [-> E']. injection L as L. destruct (IHl _ _ _ _ Hl' L E') as [-> ->]. auto.
Qed.

(** The encoding is unambiguous, also in front of other bytes: a byte string
    begins with at most one item *)
Theorem C108_items_are_unambiguous : forall x y a b r r', enc x a -> enc y b -> a ++ r = b ++ r' -> x = y /\ a = b /\ r = r'.
Proof.
  intros x y a b r r' X Y E. destruct (proj1 prefix_free _ _ X _ _ _ _ Y E) as [-> ->]. apply app_inv_tail in E. auto.
Qed.
Print Assumptions C108_items_are_unambiguous.

Lemma ok_is_byte b : bytes_ok b -> Forall is_byte b.
Proof. apply Forall_impl. intros x H. exact H. Qed.
Lemma head_ok m n : 0 <= n < 2^32 -> head m n (cbor_head m n).
Proof.
  intros B. unfold cbor_head. destruct (Z.ltb_spec n 24); [constructor; lia|]. destruct (Z.ltb_spec n 256); [constructor; lia|]. destruct (Z.ltb_spec n 65536).
  - pose proof (be_bytes_length 2 n) as L. pose proof (be_bytes_ok 2 n) as O. pose proof (be_val_be_bytes 2 n) as V. rewrite Z.mod_small in V by (cbn; lia).
    destruct (be_bytes 2 n) as [|a [|b [|? ?]]]; try discriminate L. change (a * 256 + b = n) in V || (unfold be_val in V; cbn in V).
    apply Forall_inv_tail in O as O'. apply Forall_inv in O, O'. rewrite <- V. replace (a * 256 + b) with (256 * a + b) by lia. constructor; [exact O|exact O'|lia].
  - pose proof (be_bytes_length 4 n) as L. pose proof (be_bytes_ok 4 n) as O. pose proof (be_val_be_bytes 4 n) as V. rewrite Z.mod_small in V by (cbn; lia).
    destruct (be_bytes 4 n) as [|a [|b [|c [|d [|? ?]]]]]; try discriminate L. change (((a * 256 + b) * 256 + c) * 256 + d = n) in V.
    pose proof (Forall_inv O) as A. apply Forall_inv_tail in O. pose proof (Forall_inv O) as A1. apply Forall_inv_tail in O. pose proof (Forall_inv O) as A2. apply Forall_inv_tail in O.
    pose proof (Forall_inv O) as A3.
    rewrite <- V. replace (((a * 256 + b) * 256 + c) * 256 + d) with (256 * (256 * (256 * a + b) + c) + d) by lia. constructor; [exact A|exact A1|exact A2|exact A3|lia].
Qed.
Lemma bytes_item b : bytes_ok b -> blen b < 2^32 -> enc (IBytes b) (cbor_bytes b).
Proof. intros O L. rewrite cbor_bytes_head. constructor; [apply head_ok; pose proof (blen_nonneg b); lia|apply ok_is_byte, O]. Qed.
Lemma text_item s : forallb (fun z => (0 <=? z) && (z <? 256)) (str s) = true -> blen (str s) < 2^32 -> enc (IText (str s)) (cbor_text s).
Proof.
  intros O L. constructor; [apply head_ok; pose proof (blen_nonneg (str s)); lia|]. apply Forall_forall. intros z Hz. rewrite forallb_forall in O. specialize (O z Hz).
  apply andb_true_iff in O. destruct O as [O1 O2]. apply Z.leb_le in O1. apply Z.ltb_lt in O2. split; assumption.
Qed.
Lemma uint_item n : 0 <= n < 2^32 -> enc (IUint n) (cbor_uint n).
Proof. intros B. constructor. apply head_ok, B. Qed.
Lemma array_item l : Z.of_nat (length l) < 2^32 -> Forall (fun b => bytes_ok b /\ blen b < 2 ^ 32) l ->
  enc (IArray (map IBytes l)) (cbor_array (map cbor_bytes l)).
Proof.
  intros L F. unfold cbor_array. rewrite map_length. constructor; [rewrite map_length; apply head_ok; lia|]. clear L.
  induction F as [|b l [O B] F IH]; [constructor|]. cbn [map concat]. constructor; [apply bytes_item; assumption|exact IH].
Qed.
Lemma struct_item x y z tx ty tz a b c : enc (IText x) tx -> enc (IText y) ty -> enc (IText z) tz -> forall ia ib ic,
  enc ia a -> enc ib b -> enc ic c ->
  enc (IMap [(IText x, ia); (IText y, ib); (IText z, ic)]) (cbor_head 5 3 ++ tx ++ a ++ ty ++ b ++ tz ++ c).
Proof.
  intros X Y Z ia ib ic A B C. constructor; [apply head_ok; cbn; lia|]. unfold entries. cbn [map concat app fst snd].
  repeat (apply encs_cons; [assumption|]). rewrite <- (app_nil_r c). apply encs_cons; [exact C|constructor].
Qed.

(** Scalars, points, commitments and openings: what their bytes are.  The type
    numbers are 1 for simple and 2 for Pedersen (poly/commitment.go:376-379). *)
Definition scalar_item (s : Fq) : item := IBytes (1 :: be_bytes 32 (fv s)).
Definition point_item (a : pt) : item := IBytes (1 :: sec1 a).
Definition commitment_item (ty : Z) (pts : list pt) : item :=
  IMap [(IText (str "CurveType"), IUint 1); (IText (str "CommitmentType"), IUint ty); (IText (str "Message"), IArray (map point_item pts))].
Definition opening_item (l : list Fq) : item :=
  IMap [(IText (str "CurveType"), IUint 1); (IText (str "CommitType"), IUint 1); (IText (str "Message"), IArray (map scalar_item l))].

Lemma tagged_scalars l : map scalar_serialize_tagged l = map (fun s : Fq => 1 :: be_bytes 32 (fv s)) l.
Proof. apply map_ext. intros s. unfold scalar_serialize_tagged. rewrite scalar_serialize_be. reflexivity. Qed.
Lemma tagged_scalar_ok (s : Fq) : bytes_ok (1 :: be_bytes 32 (fv s)) /\ blen (1 :: be_bytes 32 (fv s)) < 2^32.
Proof. split; [constructor; [split; lia|apply be_bytes_ok]|]. rewrite blen_cons. unfold blen. rewrite be_bytes_length. reflexivity. Qed.
Lemma map_item {A} (f : A -> bytes) l : map (fun x => IBytes (f x)) l = map IBytes (map f l).
Proof. rewrite map_map. reflexivity. Qed.

Theorem C108_scalars_and_points : forall (s : Fq) (a : pt), on_curve a ->
  enc (scalar_item s) (scalar_marshal_cbor s) /\ blen (scalar_marshal_cbor s) = 35 /\
  exists d, point_marshal_cbor a = Ok d /\ enc (point_item a) d /\ blen d = 36.
Proof.
  intros s a C. split; [|split].
  - unfold scalar_marshal_cbor, scalar_item, scalar_serialize_tagged. rewrite scalar_serialize_be. apply bytes_item; apply tagged_scalar_ok.
  - unfold scalar_marshal_cbor, scalar_serialize_tagged. rewrite scalar_serialize_be, cbor_bytes_head, blen_app, blen_cons. unfold blen at 2 3. rewrite be_bytes_length. reflexivity.
  - exists (cbor_bytes (1 :: sec1 a)). unfold point_marshal_cbor. rewrite serialize_tagged. split; [reflexivity|]. pose proof (tagged_ok [a]) as T. apply Forall_inv in T. split.
    + apply bytes_item; apply T.
    + rewrite cbor_bytes_head, blen_app, blen_cons. unfold blen at 2 3. rewrite sec1_length. reflexivity.
Qed.
Print Assumptions C108_scalars_and_points.

Theorem C108_commitments : forall ty pts d, 0 <= ty < 2^32 -> Z.of_nat (length pts) < 2^32 ->
  cm_serialize ty pts = Ok d -> enc (commitment_item ty pts) d.
Proof.
  intros ty pts d T L E. unfold cm_serialize in E. rewrite marshal_all in E. cbn [bind] in E.
  assert (Q : d = cm_struct 1 ty (cbor_array (map cbor_bytes (map tagged pts)))) by (destruct pts; [discriminate|congruence]). rewrite Q. clear E Q d.
  unfold cm_struct, commitment_item, point_item. apply struct_item; try (apply text_item; reflexivity).
  - apply uint_item. lia.
  - apply uint_item, T.
  - rewrite map_item. apply array_item; [rewrite map_length; exact L|apply tagged_ok].
Qed.
Print Assumptions C108_commitments.

(** openings: a Pedersen opening is written as a simple one with two elements;
    equal bytes are equal scalars of the same kind *)
Definition opening_scalars (o : opening) : option (list Fq) :=
  match o with OSimple v | OSimplePtr v => Some [v] | OPedersen v m | OPedersenPtr v m => Some [v; m] | ONil => None end.
Theorem C108_openings : forall o,
  match opening_scalars o with
  | Some l => exists d, opening_bytes o = Ok d /\ enc (opening_item l) d /\ blen d = 33 + 35 * Z.of_nat (length l) /\
      forall o', opening_bytes o' = Ok d -> opening_scalars o' = Some l
  | None => opening_bytes o = Panic
  end.
Proof.
  assert (Q : forall l, (length l <= 2)%nat -> let d := cbor_head 5 3 ++ cbor_text "CurveType" ++ cbor_uint 1 ++ cbor_text "CommitType" ++ cbor_uint ct_simple
      ++ cbor_text "Message" ++ cbor_array (map cbor_bytes (map scalar_serialize_tagged l)) in enc (opening_item l) d /\ blen d = 33 + 35 * Z.of_nat (length l)).
  { intros l L d. subst d. rewrite tagged_scalars. split.
    - unfold opening_item, scalar_item. apply struct_item; [apply text_item; reflexivity|apply text_item; reflexivity|apply text_item; reflexivity|apply uint_item; cbn; lia|apply (uint_item 1); cbn; lia|].
      rewrite (map_item (fun s : Fq => 1 :: be_bytes 32 (fv s)) l). apply array_item; [rewrite map_length; lia|]. apply Forall_map, Forall_forall. intros s _. apply tagged_scalar_ok.
    - assert (K : blen (cbor_array (map cbor_bytes (map (fun s : Fq => 1 :: be_bytes 32 (fv s)) l))) = 1 + 35 * Z.of_nat (length l)).
      { unfold cbor_array. rewrite blen_app, !map_length. f_equal.
        - unfold cbor_head. destruct (Z.ltb_spec (Z.of_nat (length l)) 24); [reflexivity|lia].
        - clear. induction l as [|s l IH]; [reflexivity|]. cbn [map concat]. rewrite blen_app, IH, cbor_bytes_head, blen_app, blen_cons.
          assert (B : blen (be_bytes 32 (fv s)) = 32) by (unfold blen; rewrite be_bytes_length; reflexivity). rewrite B. change (blen (cbor_head 2 (1 + 32))) with 2. cbn [length]. lia. }
      rewrite !blen_app, K. change (blen (cbor_head 5 3)) with 1. change (blen (cbor_text "CurveType")) with 10. change (blen (cbor_uint 1)) with 1.
      change (blen (cbor_text "CommitType")) with 11. change (blen (cbor_uint ct_simple)) with 1. change (blen (cbor_text "Message")) with 8. lia. }
  assert (R : forall o l, opening_scalars o = Some l -> (length l <= 2)%nat /\ exists d, opening_bytes o = Ok d /\ enc (opening_item l) d /\ blen d = 33 + 35 * Z.of_nat (length l)).
  { intros o l E. destruct o; cbn [opening_scalars] in E; try discriminate E; injection E as <-; (split; [cbn; lia|]); eexists; split; try reflexivity; unfold opening_bytes; cbn [bind opening_serialize].
    all: match goal with |- enc (opening_item ?l) _ /\ _ => exact (Q l ltac:(cbn; lia)) end. }
  intros o. destruct (opening_scalars o) as [l|] eqn:E; [|destruct o; try discriminate E; reflexivity].
  destruct (R o l E) as (L & d & E1 & E2 & E3). exists d. split; [exact E1|]. split; [exact E2|]. split; [exact E3|]. intros o' E'.
  destruct (opening_scalars o') as [l'|] eqn:El; [|destruct o'; discriminate].
  destruct (R o' l' El) as (L' & d' & E1' & E2' & _). assert (d' = d) as -> by congruence.
  destruct (C108_items_are_unambiguous _ _ d d [] [] E2 E2' eq_refl) as (W & _).
  unfold opening_item in W. assert (V : map scalar_item l = map scalar_item l') by congruence. f_equal. symmetry. clear - V. revert l' V.
  induction l as [|s l IH]; intros [|s' l']; cbn [map]; try discriminate; [reflexivity|]. intros V. f_equal; [|apply IH; congruence].
  assert (B : be_bytes 32 (fv s) = be_bytes 32 (fv s')) by (unfold scalar_item in V; congruence). apply scalar_serialize_inj. rewrite !scalar_serialize_be. exact B.
Qed.
Print Assumptions C108_openings.

(** Every decoder that reads items as the standard says is one of those of C69:
    the struct by its field names, the elements of an array, a byte string. *)
Record reads_cbor (ds : bytes -> res (Z * Z * bytes)) (da : bytes -> res (list (option bytes))) (db : bytes -> res bytes) : Prop := {
  rd_struct : forall c t x d, enc (IMap [(IText (str "CurveType"), IUint c); (IText (str "CommitmentType"), IUint t); (IText (str "Message"), x)]) d ->
    exists msg, enc x msg /\ ds d = Ok (c, t, msg);
  rd_array : forall l d, enc (IArray l) d -> exists ds, Forall2 enc l ds /\ da d = Ok (map Some ds);
  rd_bytes : forall b d, enc (IBytes b) d -> db d = Ok b }.
Lemma enc_fun x a b : enc x a -> enc x b -> a = b.
Proof.
  assert (H : (forall x a, enc x a -> forall b, enc x b -> a = b) /\ (forall l a, encs l a -> forall b, encs l b -> a = b)).
  { assert (F : forall m n h h', head m n h -> head m n h' -> h = h').
    { intros m n h h' H H'. unfold is_byte in *. destruct H; inversion H'; unfold is_byte in *; subst; try lia; try reflexivity; repeat (f_equal; try lia). }
    apply enc_encs_ind; intros.
    - inversion H0; subst. eapply F; eassumption.
    - inversion H1; subst. f_equal. eapply F; eassumption.
    - inversion H1; subst. f_equal. eapply F; eassumption.
    - inversion H2; subst. f_equal; [eapply F; eassumption|auto].
    - inversion H2; subst. f_equal; [eapply F; eassumption|auto].
    - inversion H. reflexivity.
    - inversion H3; subst. f_equal; auto. }
  intros A B. exact (proj1 H x a A b B).
Qed.
Lemma reads_decoders ds da db : reads_cbor ds da db -> decoders_ok ds da db.
Proof.
  intros R. split.
  - intros c t items Hc Ht L F. pose proof (array_item items L F) as Ia.
    assert (I : enc (IMap [(IText (str "CurveType"), IUint c); (IText (str "CommitmentType"), IUint t); (IText (str "Message"), IArray (map IBytes items))])
                  (cm_struct c t (cbor_array (map cbor_bytes items)))).
    { unfold cm_struct. apply struct_item; try (apply text_item; reflexivity); try (apply uint_item; lia). exact Ia. }
    destruct (rd_struct _ _ _ R _ _ _ _ I) as (msg & M & ->). rewrite (enc_fun _ _ _ M Ia). reflexivity.
  - intros items L F. destruct (rd_array _ _ _ R _ _ (array_item items L F)) as (l & Fl & ->). f_equal.
    rewrite <- (map_map cbor_bytes Some). f_equal. clear L. revert l Fl.
    induction F as [|b items [O B] F IH]; intros l Fl; inversion Fl as [|x b' l1 l2 Hx Hl]; subst; [reflexivity|]. cbn [map].
    f_equal; [exact (enc_fun _ _ _ Hx (bytes_item b O B))|apply IH, Hl].
  - intros b O L. apply (rd_bytes _ _ _ R). apply bytes_item; assumption.
Qed.
Theorem C108_standard_decoders : forall ds da db, reads_cbor ds da db ->
  forall pts d, Forall on_curve pts -> Z.of_nat (length pts) < 2^32 ->
  (cm_serialize ct_simple pts = Ok d -> ~ In None pts -> cm_deserialize ds da db d = Ok (map Some pts)) /\
  (cm_serialize ct_simple pts = Ok d -> In None pts -> cm_deserialize ds da db d = Err) /\
  (cm_serialize ct_pedersen pts = Ok d -> cm_deserialize ds da db d = Err).
Proof.
  intros ds da db R pts d C L. apply reads_decoders in R. split; [|split]; intros E.
  - apply (proj1 (C69_simple_roundtrip ds da db pts d R C L E)).
  - apply (proj2 (C69_simple_roundtrip ds da db pts d R C L E)).
  - apply (C69_pedersen_roundtrip_refuted ds da db pts d R C L E).
Qed.
Print Assumptions C108_standard_decoders.

(** *** such a decoder *)
Definition r_head (d : bytes) : option (Z * Z * bytes) :=
  match d with
  | [] => None
  | x :: r =>
    let m := x / 32 in let i := x mod 32 in
    if i <? 24 then Some (m, i, r)
    else if i =? 24 then match r with n :: r => Some (m, n, r) | _ => None end
    else if i =? 25 then match r with a :: b :: r => Some (m, 256 * a + b, r) | _ => None end
    else if i =? 26 then match r with a :: b :: c :: d :: r => Some (m, 256 * (256 * (256 * a + b) + c) + d, r) | _ => None end
    else None
  end.
Lemma r_head_ok m n h r : 0 <= m -> head m n h -> r_head (h ++ r) = Some (m, n, r).
Proof.
  intros M H. assert (D : forall i, 0 <= i < 32 -> (32 * m + i) / 32 = m /\ (32 * m + i) mod 32 = i).
  { intros i B. split; [symmetry; apply (Z.div_unique _ _ _ i); lia|symmetry; apply (Z.mod_unique _ _ m); lia]. }
  destruct H as [n H|n H|a b|a b c d]; cbn [app r_head]; [destruct (D n ltac:(lia)) as [-> ->]; destruct (Z.ltb_spec n 24); [reflexivity|lia]|..].
  - destruct (D 24 ltac:(lia)) as [-> ->]. reflexivity.
  - destruct (D 25 ltac:(lia)) as [-> ->]. reflexivity.
  - destruct (D 26 ltac:(lia)) as [-> ->]. reflexivity.
Qed.
Lemma head_nonempty m n h : head m n h -> (1 <= length h)%nat.
Proof. intros []; cbn; lia. Qed.
(** what is behind the next [todo] items *)
Fixpoint r_skip (fuel todo : nat) (d : bytes) : option bytes :=
  match todo with
  | O => Some d
  | S todo =>
    match fuel with
    | O => None
    | S fuel =>
      match r_head d with
      | None => None
      | Some (m, n, r) =>
        if m =? 0 then r_skip fuel todo r
        else if (m =? 2) || (m =? 3) then r_skip fuel todo (skipn (Z.to_nat n) r)
        else if m =? 4 then r_skip fuel (Z.to_nat n + todo) r
        else if m =? 5 then r_skip fuel (2 * Z.to_nat n + todo) r
        else None
      end
    end
  end.
Lemma r_skip_ok : (forall x a, enc x a -> exists k, (k <= length a)%nat /\ forall fuel t r, r_skip (k + fuel) (S t) (a ++ r) = r_skip fuel t r) /\
  (forall l b, encs l b -> exists k, (k <= length b)%nat /\ forall fuel t r, r_skip (k + fuel) (length l + t) (b ++ r) = r_skip fuel t r).
Proof.
  apply enc_encs_ind.
  - intros n h H. exists 1%nat. split; [apply (head_nonempty _ _ _ H)|]. intros fuel t r. cbn [r_skip Nat.add]. rewrite (r_head_ok 0 n h r ltac:(lia) H). reflexivity.
  - intros b h H _. exists 1%nat. split; [pose proof (head_nonempty _ _ _ H); rewrite app_length; lia|]. intros fuel t r. cbn [r_skip Nat.add]. rewrite <- app_assoc, (r_head_ok 2 _ h _ ltac:(lia) H).
    cbn [Z.eqb Pos.eqb orb]. unfold blen. rewrite Nat2Z.id, skipn_app, skipn_all, Nat.sub_diag. reflexivity.
  - intros b h H _. exists 1%nat. split; [pose proof (head_nonempty _ _ _ H); rewrite app_length; lia|]. intros fuel t r. cbn [r_skip Nat.add]. rewrite <- app_assoc, (r_head_ok 3 _ h _ ltac:(lia) H).
    cbn [Z.eqb Pos.eqb orb]. unfold blen. rewrite Nat2Z.id, skipn_app, skipn_all, Nat.sub_diag. reflexivity.
  - intros l h b H _ (k & K & E). exists (S k). split; [pose proof (head_nonempty _ _ _ H); rewrite app_length; lia|]. intros fuel t r. cbn [r_skip Nat.add]. rewrite <- app_assoc, (r_head_ok 4 _ h _ ltac:(lia) H).
    cbn [Z.eqb Pos.eqb orb]. rewrite Nat2Z.id. apply E.
  - intros l h b H _ (k & K & E). exists (S k). split; [pose proof (head_nonempty _ _ _ H); rewrite app_length; lia|]. intros fuel t r. cbn [r_skip Nat.add]. rewrite <- app_assoc, (r_head_ok 5 _ h _ ltac:(lia) H).
    cbn [Z.eqb Pos.eqb orb]. rewrite Nat2Z.id. rewrite <- entries_length. apply E.
  - exists 0%nat. split; [lia|]. reflexivity.
  - intros x l a b _ (k & K & E) _ (k' & K' & E'). exists (k + k')%nat. split; [rewrite app_length; lia|]. intros fuel t r. cbn [length Nat.add].
    rewrite <- Nat.add_assoc, <- app_assoc, E. apply E'.
Qed.
Definition r_rest (d : bytes) : option bytes := r_skip (length d) 1 d.
Lemma r_skip_more fuel : forall todo d r, r_skip fuel todo d = Some r -> forall more, r_skip (fuel + more) todo d = Some r.
Proof.
  induction fuel as [|fuel IH]; intros [|todo] d r; cbn [r_skip Nat.add]; intros E more.
  - destruct more; exact E.
  - discriminate.
  - exact E.
  - destruct (r_head d) as [[[m n] d']|]; [|discriminate]. destruct (m =? 0); [apply IH, E|]. destruct ((m =? 2) || (m =? 3)); [apply IH, E|]. destruct (m =? 4); [apply IH, E|]. destruct (m =? 5); [apply IH, E|discriminate].
Qed.
Lemma r_rest_ok x a r : enc x a -> r_rest (a ++ r) = Some r.
Proof.
  intros H. destruct (proj1 r_skip_ok x a H) as (k & K & E). unfold r_rest.
  assert (Q : r_skip k 1 (a ++ r) = Some r) by (rewrite <- (Nat.add_0_r k); rewrite E; reflexivity).
  replace (length (a ++ r)) with (k + (length (a ++ r) - k))%nat by (rewrite app_length; lia). apply r_skip_more, Q.
Qed.
Fixpoint r_items (k : nat) (d : bytes) : res (list (option bytes)) :=
  match k with
  | O => Ok []
  | S k => match r_rest d with None => Err | Some r => do l <- r_items k r; Ok (Some (firstn (length d - length r) d) :: l) end
  end.
Definition r_array (d : bytes) : res (list (option bytes)) :=
  match r_head d with Some (4, n, r) => r_items (Z.to_nat n) r | _ => Err end.
Definition r_bytes (d : bytes) : res bytes := match r_head d with Some (2, _, r) => Ok r | _ => Err end.
Definition r_field (name : string) (d : bytes) : res bytes := ex_strip (cbor_text name) d.
Definition r_uint (d : bytes) : res (Z * bytes) := match r_head d with Some (0, n, r) => Ok (n, r) | _ => Err end.
Definition r_struct (d : bytes) : res (Z * Z * bytes) :=
  do d <- ex_strip [163] d;
  do d <- r_field "CurveType" d; do c <- r_uint d;
  do d <- r_field "CommitmentType" (snd c); do t <- r_uint d;
  do d <- r_field "Message" (snd t); Ok (fst c, fst t, d).
Example C108_ex_decoder : reads_cbor r_struct r_array r_bytes.
Proof.
  assert (T : forall s a, forallb (fun z => (0 <=? z) && (z <? 256)) (str s) = true -> blen (str s) < 2^32 -> enc (IText (str s)) a -> a = cbor_text s).
  { intros s a O L H. exact (enc_fun _ _ _ H (text_item s O L)). }
  assert (U : forall n a r, enc (IUint n) a -> r_uint (a ++ r) = Ok (n, r)).
  { intros n a r H. inversion H; subst. unfold r_uint. rewrite (r_head_ok 0 n a r ltac:(lia)) by assumption. reflexivity. }
  split.
  - intros c t x d H. inversion H as [| | | |l h b Hh Hb]; subst. clear H. unfold entries in Hb. cbn [map concat app fst snd length] in *.
    assert (h = [163]) as -> by (inversion Hh; subst; unfold is_byte in *; try lia; reflexivity).
    repeat match goal with H : encs (_ :: _) _ |- _ => inversion H; subst; clear H | H : encs [] _ |- _ => inversion H; subst; clear H end.
    repeat match goal with H : enc (IText (str ?s)) ?a |- _ => apply T in H; [subst a|reflexivity|reflexivity] end.
    match goal with H : enc x ?a |- _ => exists a; split; [exact H|] end.
    unfold r_struct, r_field. rewrite ex_strip_ok. cbn [bind]. rewrite ex_strip_ok. cbn [bind]. erewrite U by eassumption. cbn [bind snd fst]. rewrite ex_strip_ok. cbn [bind].
    erewrite U by eassumption. cbn [bind snd fst]. rewrite ex_strip_ok. cbn [bind]. rewrite app_nil_r. reflexivity.
  - intros l d H. inversion H as [| | |l' h b Hh Hb|]; subst. clear H. unfold r_array. rewrite (r_head_ok 4 _ h b ltac:(lia) Hh). rewrite Nat2Z.id. clear Hh. revert b Hb.
    induction l as [|x l IH]; intros b Hb; inversion Hb as [|x' l' a b' Hx Hl]; subst; [exists []; split; [constructor|reflexivity]|].
    destruct (IH _ Hl) as (ds & F & E). exists (a :: ds). split; [constructor; assumption|]. cbn [length r_items]. rewrite (r_rest_ok x a b' Hx), E. cbn [bind map].
    rewrite app_length. replace (length a + length b' - length b')%nat with (length a + 0)%nat by lia. rewrite firstn_app_2. cbn [firstn]. rewrite app_nil_r. reflexivity.
  - intros b d H. inversion H; subst. unfold r_bytes. rewrite (r_head_ok 2 _ _ _ ltac:(lia)) by eassumption. reflexivity.
Qed.
Example C108_ex : exists d, opening_bytes (OPedersen fone fzero) = Ok d /\ blen d = 103 /\ enc (opening_item [fone; fzero]) d.
Proof. destruct (C108_openings (OPedersen fone fzero)) as (d & E & I & L & _). exists d. split; [exact E|]. split; [exact L|exact I]. Qed.
